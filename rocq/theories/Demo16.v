(** Demo16.v — node statistics of a concrete tree. *)
From Verif Require Export Stats Demo Hist2.

(** fourteen leaves in two nodes under the root: 2 + 8 + 6 children over 3 internal nodes; seven elements
    have length 3 and seven have length 4 *)
Lemma demo_stats : exists (t : btree RT) (xs : list (nat * Elem RT)), push_all (B := RT) bt_new dgb = Ok t /\ Tree RL t xs /\ MD t /\ length xs = 14 /\
  internal_avg_children_num t = (16, 3) /\
  map_to_list (fst (diagnose_balance t)) = [(2, 1); (8, 1); (6, 1)] /\ map_to_list (snd (diagnose_balance t)) = [(3, 7); (4, 7)].
Proof.
  destruct (push_all_ok RL dgb bt_new [] (Tree_new RL) (MD_new false) dgb_valid) as (t & ys & E & T & M).
  exists t, ys. split; [done|]. split; [done|]. split; [done|].
  assert (H : (let? t := push_all (B := RT) bt_new dgb in Ok (length (elems t), internal_avg_children_num t, map_to_list (fst (diagnose_balance t)), map_to_list (snd (diagnose_balance t)))) =
    Ok (14, (16, 3), [(2, 1); (8, 1); (6, 1)], [(3, 7); (4, 7)])) by (vm_compute; reflexivity).
  rewrite E in H. cbn [rbind] in H. apply Ok_inj, pair_inj in H as [H H4]. apply pair_inj in H as [H H3]. apply pair_inj in H as [H1 H2].
  rewrite (Tree_elems RL _ _ T) in H1. split; [exact H1|]. split; [exact H2|]. split; [exact H3|exact H4].
Qed.

Theorem reach2_avg {B : BTreeTrait} (L : Lawful B) {U : Type} (F : Flatten L U) {S0 : Type} (os : list (op2 B S0)) : valid_ops2 L bt_new os ->
  exists t xs, run_ops2 os bt_new = Ok t /\ Content t xs /\
    forall s n, internal_avg_children_num t = (s, n) -> S s = n + length xs /\ s <= 11 * n /\ 1 <= n /\ (xs <> [] -> n <= s).
Proof.
  intros Hv. destruct (reach2_ok L F os Hv) as (t & xs & E & T & C & _). exists t, xs. split; [done|]. split; [done|].
  intros s n Ha. destruct (t_avg L t xs s n T Ha) as (_ & ? & ? & ? & ?). done.
Qed.
