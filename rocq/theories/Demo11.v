(** Demo11.v — a history of the range map, and its iterator going wrong. *)
From Verif Require Export Demo2 Rnm.

Definition mdemo : list mop := [MIns 1 10 7; MPlus 4 30 5; MIns 12 13 (-2); MIns 3 6 9; MDrain 2 5; MPlus 0 9 1; MIns 5 5 4; MDrain 20 20;
  MIns 13 14 1; MIns 15 16 2; MIns 17 18 3; MIns 19 20 4; MIns 21 22 5; MIns 23 24 6]%Z.
Definition mop_okb (o : mop) (u : list (option Z)) : bool :=
  match o with
  | MIns st en _ => (st <=? en) && ((0 <? en) || negb (length u =? 0))
  | MPlus st en _ => st <=? en
  | MDrain st en => (st <=? en) && (en <=? length u) && (st <? length u)
  end.
Fixpoint mops_okb (os : list mop) u : bool := match os with [] => true | o :: os' => mop_okb o u && mops_okb os' (arr_op o u) end.
Lemma mops_okb_ok os : forall u, mops_okb os u = true -> mops_ok os u.
Proof.
  induction os as [|o os IH]; intros u H; [done|]. cbn [mops_okb] in H. apply andb_true_iff in H as [H1 H2]. split; [|by apply IH]. clear -H1.
  destruct o as [st en v|st en c|st en]; cbn [mop_okb mop_ok] in *; rewrite ?andb_true_iff, ?orb_true_iff, ?Nat.leb_le, ?Nat.ltb_lt, ?negb_true_iff, ?Nat.eqb_neq in H1.
  - destruct H1 as [? [?|H]]; (split; [done|]); [by left|right]. by intros ->.
  - done.
  - tauto.
Qed.
Lemma mdemo_ok : mops_ok mdemo [] /\ exists m : rnm, mrun (fun l => l) mdemo rnm_new = Ok m /\ RnmOf m (arr_run mdemo []) /\ Shallow m 9 /\
  take 14 (arr_run mdemo []) = [None; Some 8; Some 10; Some 13; Some 13; Some 13; Some 13; None; None; Some (-2); None; None; None; Some 1]%Z /\ length (arr_run mdemo []) = 37.
Proof.
  assert (H0 : mops_ok mdemo []).
  { apply mops_okb_ok. vm_compute. reflexivity. }
  split; [exact H0|].
  assert (H : (let? m := mrun (fun l => l) mdemo rnm_new in Ok (depth m)) = Ok (Ok 2)) by (vm_compute; reflexivity).
  destruct (mrun_any (fun l => l) (fun l => Permutation_refl l) mdemo rnm_new [] rnm_new_ok H0) as [(m & E & HR)|[E _]]; rewrite E in H; [|discriminate H].
  cbn [rbind] in H. apply Ok_inj in H. exists m. split; [exact E|]. split; [exact HR|]. destruct HR as (xs & T & Hx).
  split; [|split; vm_compute; reflexivity]. apply (shallow_depth RNL m 2 9 xs T); [|exact H|lia]. intros ->. vm_compute in Hx. discriminate Hx.
Qed.
Lemma iter_wrong : exists m : rnm, rnm_insert (fun l => l) rnm_new 1 10 7 = Ok m /\ rnm_iter m = Ok [(0, 9, 7%Z)] /\ rnm_get m 0 = Ok None /\ rnm_get m 9 = Ok (Some 7%Z).
Proof.
  assert (H : (let? m := rnm_insert (fun l => l) rnm_new 1 10 7 in Ok (rnm_iter m, rnm_get m 0, rnm_get m 9)) =
    Ok (Ok [(0, 9, 7%Z)], Ok None, Ok (Some 7%Z))) by (vm_compute; reflexivity).
  apply rbind_Ok in H as (m & E & H). exists m. split; [exact E|]. apply Ok_inj, pair_inj in H as [[H1 H2]%pair_inj H3]. done.
Qed.
Lemma mdemo_iter : exists m : rnm, RnmOf m ((Some <$> [1; 1; 1; 2; 2]%Z) ++ replicate 8 None) /\ Shallow m 9.
Proof.
  set (os := [MIns 0 3 1; MIns 3 5 2]%Z). assert (H0 : mops_ok os []) by (apply mops_okb_ok; vm_compute; reflexivity).
  assert (H : (let? m := mrun (fun l => l) os rnm_new in Ok (depth m)) = Ok (Ok 1)) by (vm_compute; reflexivity).
  destruct (mrun_any (fun l => l) (fun l => Permutation_refl l) os rnm_new [] rnm_new_ok H0) as [(m & E & HR)|[E _]]; rewrite E in H; [|discriminate H].
  cbn [rbind] in H. apply Ok_inj in H. exists m. split; [exact HR|]. destruct HR as (xs & T & Hx).
  apply (shallow_depth RNL m 1 9 xs T); [|exact H|lia]. intros ->. vm_compute in Hx. discriminate Hx.
Qed.
