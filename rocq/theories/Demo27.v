(** Demo27.v — a program on an OrdTreeSet that meets the hypotheses of C62. *)
From Verif Require Export SetProg.
(** inserts, deletes what the iterator lists second, deletes again from the emptied rest *)
Definition sdemo : sprog nat (list nat * bool * nat) :=
  SInsert 5 (SInsert 1 (SInsert 9 (SInsert 5 (SIter (fun l => match l with [a; b; c] =>
    SDelete b (fun d => SCheck (SLen (fun n => SIter (fun l => SDone (l, d, n))))) | _ => SFail end))))).
Fixpoint keys_legalb {A} (N : nat) (p : sprog nat A) (l : list nat) : bool :=
  (length l <? N) &&
  match p with
  | SDone _ | SFail => true
  | SInsert k p => keys_legalb N p (ks_insert Nat.compare k l)
  | SDelete k p => ((length l =? 0) || ks_mem Nat.compare k l) && keys_legalb N (p (ks_mem Nat.compare k l)) (ks_delete Nat.compare k l)
  | SIter p => keys_legalb N (p l) l
  | SLen p => keys_legalb N (p (length l)) l
  | SIsEmpty p => keys_legalb N (p (bool_decide (length l = 0))) l
  | SCheck p => negb (length l =? 0) && keys_legalb N p l
  end.
Lemma keys_legalb_ok {A} N M (p : sprog nat A) : N <= M -> forall l, keys_legalb N p l = true -> keys_legal (kcmp := Nat.compare) M p l.
Proof.
  intros HN. induction p as [a| |k p IH|k p IH|p IH|p IH|p IH|p IH]; intros l H; cbn [keys_legalb keys_legal] in *;
    apply andb_true_iff in H as [H1 H]; apply Nat.ltb_lt in H1; (split; [lia|]); try done; try by apply IH.
  - apply andb_true_iff in H as [H2 H]. split; [|by apply IH]. apply orb_true_iff in H2 as [H2|H2]; [left|by right].
    apply Nat.eqb_eq in H2. by destruct l.
  - apply andb_true_iff in H as [H2 H]. split; [|by apply IH]. intros ->. done.
Qed.
Lemma sdemo_ok : keys_legal (kcmp := Nat.compare) (2 * 6 ^ 9) sdemo [] /\ keys_prog (kcmp := Nat.compare) sdemo [] = Ok ([1; 9], true, 2) /\
  set_prog (kcmp := Nat.compare) sdemo (os_new Nat.compare) = Ok ([1; 9], true, 2).
Proof.
  split; [|split; vm_compute; reflexivity]. apply (keys_legalb_ok 12); [|vm_compute; reflexivity].
  change 12 with (2 * 6 ^ 1). apply Nat.mul_le_mono_l, Nat.pow_le_mono_r; lia.
Qed.
Lemma bench_demo : set_prog (kcmp := Nat.compare) (bench_ord [5; 3; 8; 3; 1] (SIter SDone)) (os_new Nat.compare) = Ok [1; 3; 5; 8].
Proof. vm_compute. reflexivity. Qed.
