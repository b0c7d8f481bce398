(** Demo19.v — a history without bulk construction meets the hypotheses of PropThick.v. *)
From Verif Require Export Demo4 Demo12 Thick3.

Lemma okx2_okf {B : BTreeTrait} (L : Lawful B) {S0} (t : btree B) xs (o : op2 B S0) : ~ collects o -> okx2 L t xs o -> okf L t xs o.
Proof.
  intros Hc Ho. destruct o as [[x|x|c x|c|l f|a b ord fu s|a b k|Q q f]|c data|A fu ord ord2 args|l e' u od|nc dr g| |es]; cbn [okf okx2 okx collects] in *; try done.
  - destruct Ho as ((? & _ & ?) & ? & ?). done.
  - destruct Ho as ((? & _ & ?) & ? & ?). done.
  - destruct Ho as (? & _ & ?). done.
Qed.
Fixpoint small_b (t : btree RT) (os : list HO2) : bool :=
  match os with [] => true | o :: os' => (length (elems t) <=? 100) && match run_op2 t o with Ok t' => small_b t' os' | _ => false end end.
Lemma small_ok os : forall t xs, Tree RL t xs -> Forall side os -> Forall (fun o => ~ collects o) os -> hist_b2 t os = true -> small_b t os = true -> sized_ops RL t os.
Proof.
  induction os as [|o os IH]; intros t xs T HF HC H Hs; [done|]. cbn [hist_b2 small_b sized_ops] in *. apply Forall_cons in HF as [Hu HF]. apply Forall_cons in HC as [Hc HC].
  apply andb_true_iff in H as [H1 H2]. apply andb_true_iff in Hs as [S1 S2]. apply Nat.leb_le in S1.
  pose proof (okb2_ok t xs o T Hu H1) as Ho. split.
  { exists xs. split; [by apply (Tree_content RL)|]. split; [|by apply okx2_okf]. rewrite <- (Tree_elems RL t xs T).
    apply (Nat.le_trans _ 100); [exact S1|]. apply (Nat.le_trans _ (5 ^ 3)); [apply Nat.leb_le; by vm_compute|]. apply Nat.pow_le_mono_r; lia. }
  intros t' E. rewrite E in H2, S2. destruct (step2_ok RL (RopeF 4) t xs o T ltac:(by left) Ho) as (t1 & x1 & E1 & T1 & _). rewrite E in E1. injection E1 as <-.
  by eapply IH.
Qed.
(** forty pushes; the operations of Demo12.v but the bulk construction; a drain *)
Definition ds_hist : list HO2 :=
  map (fun i => QBase (OPush (gbs [i; i; i; i] : Elem RT))) (seq 0 40) ++ dh_b ++ dh_c ++ dh_d ++ [QBase (ODrain (mkCur 4 1) (mkCur 9 1) 2)].
Lemma ds_side : Forall side ds_hist.
Proof.
  unfold ds_hist. apply Forall_app. split. { apply Forall_forall. intros o (i & -> & _)%elem_of_list_fmap. done. }
  unfold dh_b, dh_c, dh_d. cbn [app].
  repeat (apply Forall_cons; split; [|]); try apply Forall_nil; cbn [side upd_ok]; try done.
  - split; [intros; by apply gb_add_valid|]. split; intros w; symmetry; apply Permutation_rev.
  - split; [done|exact u_law].
  - split; [done|exact dfu_sound].
Qed.
Lemma ds_nocol : Forall (fun o => ~ collects o) ds_hist.
Proof. unfold ds_hist, dh_b, dh_c, dh_d. cbn [map seq app]. repeat (apply Forall_cons; split; [intros []|]). apply Forall_nil. done. Qed.
Lemma ds_b : hist_b2 bt_new ds_hist && small_b bt_new ds_hist = true.
Proof. by vm_compute. Qed.
Lemma ds_valid : valid_ops2 RL bt_new ds_hist /\ Forall (fun o => ~ collects o) ds_hist /\ sized_ops RL bt_new ds_hist /\
  exists t : btree RT, run_ops2 ds_hist bt_new = Ok t /\ length (elems t) = 38.
Proof.
  pose proof ds_b as [H1 H2]%andb_true_iff. pose proof (hist_b2_ok _ _ [] (Tree_new RL) ds_side H1) as V.
  split; [exact V|]. split; [exact ds_nocol|]. split; [exact (small_ok _ _ [] (Tree_new RL) ds_side ds_nocol H1 H2)|].
  destruct (reach2_ok RL (RopeF 4) ds_hist V) as (t & xs & E & T & _). exists t. split; [exact E|].
  assert (H : (let? t := run_ops2 ds_hist bt_new in Ok (length (elems t))) = Ok 38) by (by vm_compute).
  rewrite E in H. cbn [rbind] in H. by injection H as H.
Qed.
Lemma ds_edits : fits demo_edits [] /\ (forall os1 st en os2, demo_edits = os1 ++ RDel st en :: os2 -> length (str_run os1 []) <= 5 ^ 7) /\
  length (str_run demo_edits []) = 19.
Proof.
  split; [exact demo_edits_fit|]. split; [|by vm_compute]. intros os1 st en os2 E.
  assert (H : forallb (fun k => length (str_run (take k demo_edits) []) <=? 100) (seq 0 12) = true) by (by vm_compute).
  assert (Hl : length os1 < 12). { assert (length demo_edits = 11) as H11 by done. rewrite E, app_length in H11. cbn in H11. lia. }
  rewrite forallb_forall in H. specialize (H (length os1)). rewrite E, take_app in H. rewrite in_seq in H. specialize (H ltac:(lia)). apply Nat.leb_le in H.
  apply (Nat.le_trans _ 100); [exact H|]. apply (Nat.le_trans _ (5 ^ 3)); [apply Nat.leb_le; by vm_compute|]. apply Nat.pow_le_mono_r; lia.
Qed.
