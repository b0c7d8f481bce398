(** SpaceDemo.v — concrete trees for the bound on the number of nodes. *)
From Verif Require Export Space SpaceFrom Demo19 Demo6.

Lemma space_hist : valid_ops2 RL bt_new ds_hist /\ Forall (fun o => ~ collects o) ds_hist /\
  exists t : btree RT, run_ops2 ds_hist bt_new = Ok t /\ length (elems t) = 38 /\ node_len t = 44 /\ 38 <= 5 ^ 3.
Proof.
  destruct ds_valid as (V & C & _ & t & E & Hl). split; [exact V|]. split; [exact C|]. exists t. split; [exact E|]. split; [exact Hl|].
  assert (H : (let? t := run_ops2 ds_hist (bt_new (B := RT)) in Ok (node_len t)) = Ok 44) by (by vm_compute).
  rewrite E in H. cbn [rbind] in H. apply Ok_inj in H. split; [exact H|]. apply Nat.leb_le. by vm_compute.
Qed.
Lemma space_rope : exists r : rope 4, RopeOf 4 r (seq 0 60) /\ length (seq 0 60) <= 5 ^ 3 /\ node_len (rp_tree 4 r) = 18.
Proof.
  destruct (rope_insert_ok 4 ltac:(lia) (rope_new 4) [] 0 (seq 0 60) (rope_new_ok 4)) as (r & E & HR); [cbn; lia|].
  change (ins 0 (seq 0 60) []) with (seq 0 60) in HR. exists r. split; [exact HR|]. split; [apply Nat.leb_le; by vm_compute|].
  assert (H : (let? r := rope_insert 4 (rope_new 4) 0 (seq 0 60) in Ok (node_len (rp_tree 4 r))) = Ok 18) by (by vm_compute).
  rewrite E in H. cbn [rbind] in H. by apply Ok_inj in H.
Qed.
Lemma space_map : exists m : omap_t nat nat Nat.compare, MapOf nat_TO m [(1, 10); (5, 50)] /\ node_len (om_tree Nat.compare m) = 3.
Proof.
  destruct (t_om_insert nat_TO _ _ 5 50 (new_map nat_TO)) as (m1 & E1 & M1). destruct (t_om_insert nat_TO _ _ 1 10 M1) as (m2 & E2 & M2).
  exists m2. split; [exact M2|].
  assert (H : (let? m1 := om_insert Nat.compare (om_new (Value := nat) Nat.compare) 5 50 in let? m2 := om_insert Nat.compare m1 1 10 in Ok (node_len (om_tree Nat.compare m2))) = Ok 3) by (by vm_compute).
  rewrite E1 in H. cbn [rbind] in H. rewrite E2 in H. cbn [rbind] in H. by apply Ok_inj in H.
Qed.
Lemma space_from : Forall (evalid RL) (dgb ++ dgb : list (Elem RT)) /\ length (dgb ++ dgb) = 28 /\
  (let? t := from_iter (B := RT) (dgb ++ dgb) in Ok (node_len t)) = Ok 32.
Proof. split; [apply Forall_app; split; exact dgb_valid|]. split; [reflexivity|vm_compute; reflexivity]. Qed.
