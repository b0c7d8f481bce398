(** Demo26.v — a tree whose lengths wrap around. *)
From Verif Require Export IntWidth Demo.
Definition h4 : (0 < 4)%Z := eq_refl.
Notation W4 := (WRope 4 h4 4).
Fixpoint wpush (t : btree W4) (es : list gbuf) : res (btree W4) := match es with [] => Ok t | e :: es => let? (_, t) := @push W4 t e in wpush t es end.
(** capacity 4, lengths modulo 8: seven bytes fit, nine do not *)
Lemma wrap_demo :
  (let? t := wpush bt_new [gbs [1; 2; 3]; gbs [4; 5; 6; 7]] in let? r := query (WFinder 4 h4 4) t 5 in
   let? _ := check t in Ok (w_get_len 4 (root_cache t), (fun r => (qr_cursor r, qr_found r)) <$> r)) = Ok (7, Some (mkCur 1 2, true)) /\
  (let? t := wpush bt_new [gbs [1; 2; 3]; gbs [4; 5; 6; 7]; gbs [8; 9]] in let? r := query (WFinder 4 h4 4) t 8 in
   let? _ := check t in Ok (w_get_len 4 (root_cache t), map (fun x => to_vec (snd x)) (elems t), (fun r => (qr_cursor r, qr_found r)) <$> r)) =
    Ok (1, [[1; 2; 3]; [4; 5; 6; 7]; [8; 9]], Some (mkCur 2 1, true)).
Proof. split; vm_compute; reflexivity. Qed.
(** thirteen leaves of four bytes: the lookup of position 0 skips the first half of the tree *)
Lemma wrap_wrong :
  (let? t := wpush bt_new (replicate 13 (gbs [1; 2; 3; 4])) in let? r := query (WFinder 4 h4 4) t 0 in let? f := first_leaf t in
   let? _ := check t in Ok (f, w_get_len 4 (root_cache t), (fun r => (qr_cursor r, qr_found r)) <$> r)) = Ok (Some 0, 4, Some (mkCur 6 0, true)).
Proof. vm_compute; reflexivity. Qed.
(** the hypotheses of the history theorem *)
Definition dh_wrap : list (op2 W4 unit) := map (fun e => QBase (OPush (B := W4) e)) (replicate 13 (gbs [1; 2; 3; 4])).
Lemma push_valid es : Forall (gwf 4) es -> forall t xs, Tree (WLaw 4 h4 4) t xs -> valid_ops2 (S0 := unit) (WLaw 4 h4 4) t (map (fun e => QBase (OPush (B := W4) e)) es).
Proof.
  induction 1 as [|e es He _ IH]; intros t xs T; [done|]. cbn [map valid_ops2]. split; [exists xs; split; [by eapply Tree_content|exact He]|].
  intros t' E. destruct (step2_ok (WLaw 4 h4 4) (WRopeF 4 h4 4) (S0 := unit) t xs (QBase (OPush (B := W4) e)) T ltac:(by left)) as (t1 & xs1 & E1 & T1 & _); [exact He|].
  rewrite E in E1. injection E1 as <-. by eapply IH.
Qed.
Lemma dh_wrap_ok : valid_ops2 (WLaw 4 h4 4) bt_new dh_wrap /\ (let? t := run_ops2 dh_wrap bt_new in Ok (length (elems t))) = Ok 13.
Proof.
  split; [|vm_compute; reflexivity]. unfold dh_wrap. eapply push_valid; [|apply Tree_new]. apply Forall_forall. intros e He%elem_of_replicate_inv. subst e. by apply gbs_valid.
Qed.
