(** Demo23.v — the history of Demo11.v keeps the range map small (C49_short). *)
From Verif Require Export Rnm2 Demo11.
Fixpoint fitsb (N : nat) (os : list mop) (u : list (option Z)) : bool :=
  (length u <=? N) &&
  match os with
  | [] => true
  | o :: os' => match o with MIns _ en _ | MPlus _ en _ => length (arr_reserve u en) <=? N | MDrain _ _ => true end && fitsb N os' (arr_op o u)
  end.
Lemma fitsb_ok N M os : N <= M -> forall u, fitsb N os u = true -> MFits M os u.
Proof.
  intros HN. induction os as [|o os IH]; intros u H; cbn [fitsb MFits] in *; apply andb_true_iff in H as [H1 H]; apply Nat.leb_le in H1; (split; [lia|]); [done|].
  apply andb_true_iff in H as [H2 H]. split; [|by apply IH]. destruct o; [apply Nat.leb_le in H2; lia..|done].
Qed.
Lemma mdemo_fits : mops_ok mdemo [] /\ MFits (5 ^ 7) mdemo [].
Proof.
  split; [exact (proj1 mdemo_ok)|]. apply (fitsb_ok 125); [apply (Nat.pow_le_mono_r 5 3 7); lia|vm_compute; reflexivity].
Qed.
(** an insertion over the empty range 0..0 into an empty map leaves an element of length 0 behind: it is no part of the
    array, but the iterator reports it from then on *)
Lemma empty_insert :
  (let? m1 := mrun (fun l => l) [MIns 0 0 7%Z] rnm_new in let? m2 := mrun (fun l => l) [MIns 2 5 9%Z] m1 in
   let? i1 := rnm_iter m1 in let? i2 := rnm_iter m2 in Ok (i1, i2, map (rnm_get m2) (seq 0 16), rnm_len m2)) =
  Ok ([(0, 0, 7%Z)], [(0, 0, 7%Z); (0, 3, 9%Z)], map Ok ([None; None; Some 9%Z; Some 9%Z; Some 9%Z] ++ replicate 11 None), 15).
Proof. vm_compute. reflexivity. Qed.
