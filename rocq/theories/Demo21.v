(** Demo21.v — update_leaves_with_arg_in_ranges with a closure that counts its calls and panics in one of them. *)
From Verif Require Export Demo7 RangesS.

(** the call number [k] panics *)
Definition cu (k : nat) (s : nat) (e : Elem RT) (a : nat) : (nat * Elem RT) + Elem RT := if s =? k then inr e else inl (S s, gb_add e a).
(** a closure that adds the number of the call *)
Definition cn (s : nat) (e : Elem RT) (a : nat) : nat * Elem RT := (S s, gb_add e s).
Lemma cu_valid k : keeps_valid RL (cu k).
Proof. intros s e a V. unfold cu. destruct (s =? k); [done|]. by apply gb_add_valid. Qed.
Lemma cn_valid s (e : Elem RT) a : evalid RL e -> evalid RL (snd (cn s e a)).
Proof. by apply gb_add_valid. Qed.
Definition bytes_of (t : btree RT) : list nat := concat (map (fun x => to_vec (snd x)) (elems t)).
(** leaf 5 is done, the second piece of leaf 2 is being painted: three bytes of leaf 2 are lost *)
Lemma demo_ranges_unwind : exists t t', push_all (B := RT) bt_new dgb = Ok t /\ update_ranges_u (cu 1) (@rev _) (@rev _) (@rev _) t dargs 0 = Ok (inr t') /\
  bytes_of t = concat dseq /\
  bytes_of t' = [10; 10; 10; 10; 10; 11; 12; 20; 20; 21; 22; 30; 30; 30; 30; 530; 531; 532] ++ drop 21 (concat dseq) /\
  root_cache t = 49%Z /\ root_cache t' = 49%Z /\ check t' = Panic.
Proof.
  assert (H : (let? t := push_all (B := RT) bt_new dgb in let? r := update_ranges_u (cu 1) (@rev _) (@rev _) (@rev _) t dargs 0 in
    match r with inl _ => Panic | inr t' => Ok (bytes_of t, bytes_of t', root_cache t, root_cache t', check t') end) =
    Ok (concat dseq, [10; 10; 10; 10; 10; 11; 12; 20; 20; 21; 22; 30; 30; 30; 30; 530; 531; 532] ++ drop 21 (concat dseq), 49%Z, 49%Z, Panic)) by (vm_compute; reflexivity).
  apply rbind_Ok in H as (t & E & H). apply rbind_Ok in H as ([r|t'] & E' & H); [discriminate H|].
  injection H as H1 H2 H3 H4 H5. exists t, t'. repeat split; assumption.
Qed.
(** a closure with a state: leaf 5 is painted by call 0, the three pieces of leaf 2 by calls 1 to 4 *)
Lemma demo_ranges_state : exists (t : btree RT) (xs : list (nat * Elem RT)) nl t', Tree RL t xs /\ xs <> [] /\ @USE_DIFF RT = true /\ (forall k, keeps_valid RL (cu k)) /\
  (forall s e a, evalid RL e -> evalid RL (snd (cn s e a))) /\
  (forall l r, (l, r) ∈ dargs -> exists e, (l, e) ∈ xs /\ fst (fst r) < snd (fst r) <= @rle_len RT e) /\
  update_ranges_u (fun s e a => inl (cn s e a)) (@rev _) (@rev _) (@rev _) t dargs 0 = Ok (inl (5, nl, t')) /\
  bytes_of t' = [10; 10; 10; 10; 10; 11; 12; 20; 120; 520; 420; 20; 21; 22; 30; 30; 30; 30; 30; 31; 32] ++ drop 21 (concat dseq).
Proof.
  destruct dargs_tree as (t & E & T & Hl & Ha).
  assert (H : (let? t := push_all (B := RT) bt_new dgb in let? r := update_ranges_u (fun s e a => inl (cn s e a)) (@rev _) (@rev _) (@rev _) t dargs 0 in
    match r with inl (s, nl, t') => Ok (s, bytes_of t') | inr _ => Panic end) =
    Ok (5, [10; 10; 10; 10; 10; 11; 12; 20; 120; 520; 420; 20; 21; 22; 30; 30; 30; 30; 30; 31; 32] ++ drop 21 (concat dseq))) by (vm_compute; reflexivity).
  rewrite E in H. cbn [rbind] in H. apply rbind_Ok in H as ([[[s nl] t']|t'] & E' & H); [|discriminate H]. injection H as -> H.
  exists t, (elems t), nl, t'. split; [exact T|]. split; [intros E0; rewrite E0 in Hl; discriminate Hl|]. split; [reflexivity|]. split; [exact cu_valid|]. split; [exact cn_valid|].
  split; [exact Ha|]. split; [exact E'|exact H].
Qed.
