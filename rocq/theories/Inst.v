(** Inst.v — the three trait implementations that ship with the repository (Rope,
    ordered map, range-number map) satisfy the laws of Law.v. *)
From Verif Require Export Law Rope OrdMap RangeNumMap GapBufferP.

(** ** Rope *)
Definition zsum (cs : list Z) : Z := foldr Z.add 0%Z cs.
Lemma zsum_app a b : zsum (a ++ b) = (zsum a + zsum b)%Z.
Proof. induction a as [|x a IH]; cbn; [done|]. fold (zsum (a ++ b)) (zsum a). lia. Qed.
Lemma zsum_cons x a : zsum (x :: a) = (x + zsum a)%Z. Proof. done. Qed.
Lemma zsum_nil : zsum [] = 0%Z. Proof. done. Qed.

Definition RopeLaw (CAP : nat) : Lawful (RopeTrait CAP).
Proof.
  refine (mkLaw (RopeTrait CAP) (gwf CAP) (fun c => (0 <= c)%Z) zsum (fun x d y => y = (x + d)%Z) true
    _ _ _ _ _ _ _ _ _ _ _ _ _ _ _ _ _ _ _); cbn [Elem Cache Diff RopeTrait] in *.
  - done.
  - done.
  - intros e W. cbn. lia.
  - intros cs F _. induction F as [|x cs Hx F IH]; cbn; [lia|]. fold (zsum cs). lia.
  - intros l m r _ _. rewrite !zsum_app, zsum_cons. lia.
  - intros c _. cbn. lia.
  - intros c0 cs _ _. cbn. eexists. split; [done|]. intros _. fold (zsum cs). lia.
  - intros c0. cbn. eauto.
  - intros x d y ->. done.
  - intros l r x d y ->. rewrite !zsum_app, !zsum_cons. lia.
  - intros l r c _. cbn. rewrite !zsum_app, !zsum_cons. lia.
  - intros a d1 b d2 c -> ->. cbn. lia.
  - intros a b _. cbn. lia.
  - intros e off W Ho. cbn in Ho. destruct (gb_split_ok CAP e off W) as (l & r & E & Wl & Wr & Vl & Vr); [lia|].
    exists l, r. cbn. split; [done|]. split; [done|]. split; [done|].
    rewrite <- !(to_vec_length CAP) by done. rewrite Vl, Vr, take_length, drop_length, (to_vec_length CAP) by done.
    split; [lia|]. split; [lia|]. lia.
  - intros e off x W Wx Ho. cbn in *. destruct (decide (gb_len e + gb_len x <= CAP)) as [D|D].
    + left. destruct (gb_try_insert_ok CAP e off x W Wx Ho D) as (g & E & Wg & Vg). exists g. split; [done|]. split; [done|].
      assert (gb_len g = gb_len e + gb_len x) as Hl.
      { rewrite <- !(to_vec_length CAP) by done. rewrite Vg, !app_length, take_length, drop_length. lia. }
      split; [done|]. intros _. lia.
    + right. apply gb_try_insert_err. lia.
  - intros a b Wa Wb Hc. cbn in *. destruct (gb_merge_right_ok CAP a b Wa Wb Hc) as (g & E & Wg & Vg).
    assert (gb_len g = gb_len a + gb_len b) as Hl.
    { rewrite <- !(to_vec_length CAP) by done. by rewrite Vg, app_length. }
    exists g. split_and!; try done; cbn; try intros _; lia.
  - intros a b Wa Wb Hc. cbn in *. destruct (gb_merge_left_ok CAP b a Wb Wa Hc) as (g & E & Wg & Vg).
    assert (gb_len g = gb_len a + gb_len b) as Hl.
    { rewrite <- !(to_vec_length CAP) by done. by rewrite Vg, app_length. }
    exists g. split_and!; try done; cbn; try intros _; lia.
  - intros e W Hr. split; [done|]. cbn in *. apply (gb_can_remove_spec CAP e W) in Hr.
    rewrite <- (to_vec_length CAP) by done. by rewrite Hr.
  - intros c. cbn. apply Z.eqb_refl.
Defined.

(** ** Range-number map *)
Definition RNMLaw : Lawful RNMTrait.
Proof.
  refine (mkLaw RNMTrait (fun _ => True) (fun _ => True) sum_list (fun x d y => Z.of_nat y = (Z.of_nat x + d)%Z) true
    _ _ _ _ _ _ _ _ _ _ _ _ _ _ _ _ _ _ _); cbn [Elem Cache Diff RNMTrait] in *.
  - done.
  - done.
  - done.
  - done.
  - intros l m r _ _. rewrite !sum_list_with_app. cbn. rewrite ?sum_list_with_app. lia.
  - intros c _. cbn. lia.
  - intros c0 cs _ _. cbn. eexists. split; [done|]. intros _. lia.
  - intros c0. cbn. eauto.
  - intros x d y Hd. cbn. f_equal. lia.
  - intros l r x d y Hd. rewrite !sum_list_with_app. cbn. lia.
  - intros l r c _. rewrite !sum_list_with_app. cbn. lia.
  - intros a d1 b d2 c. cbn. lia.
  - intros a b _. cbn. lia.
  - intros e off _ Ho. cbn in *. eexists _, _. split; [done|]. cbn. split_and!; try done; lia.
  - intros e off x _ _ _. cbn. by right.
  - intros a b _ _ _. cbn. eexists. split; [done|]. cbn. split_and!; try done; try intros _; lia.
  - intros a b _ _ _. cbn. eexists. split; [done|]. cbn. split_and!; try done; try intros _; lia.
  - intros e _ Hr. cbn in *. apply bool_decide_eq_true in Hr. done.
  - intros c. cbn. apply Nat.eqb_refl.
Defined.

(** ** Ordered map *)
Section ord.
Context {Key Value : Type} (kcmp : Key -> Key -> comparison) (Hrefl : forall k, kcmp k k = Eq).
Definition osumm (cs : list (option (Key * Key))) : option (Key * Key) :=
  match cs with
  | Some (mn, _) :: _ => match last cs with Some (Some (_, mx)) => Some (mn, mx) | _ => None end
  | _ => None
  end.
Lemma osumm_some cs : Forall is_Some cs -> cs <> [] ->
  exists mn mx x y, cs !! 0 = Some (Some (mn, x)) /\ last cs = Some (Some (y, mx)) /\ osumm cs = Some (mn, mx).
Proof.
  intros F Hne. destruct cs as [|c cs]; [done|]. pose proof F as F0. apply Forall_cons in F as [[[mn x] ->] F].
  destruct (last (Some (mn, x) :: cs)) as [o|] eqn:El; [|by apply last_None in El].
  assert (is_Some o) as [[y mx] ->].
  { eapply Forall_forall; [exact F0|]. apply last_Some in El as [l' ->]. set_solver. }
  exists mn, mx, x, y. split; [done|]. split; [done|]. unfold osumm. by rewrite El.
Qed.
Lemma osumm_flat l m r : Forall is_Some (l ++ m ++ r) -> m <> [] -> osumm (l ++ osumm m :: r) = osumm (l ++ m ++ r).
Proof.
  intros (Fl & Fm & Fr)%(fun H => let '(conj a b) := proj1 (Forall_app _ _ _) H in conj a (proj1 (Forall_app _ _ _) b)) Hne.
  destruct (osumm_some m Fm Hne) as (mn & mx & x & y & H0 & Hl & Es). rewrite Es.
  assert (last (l ++ Some (mn, mx) :: r) = match r with [] => Some (Some (mn, mx)) | _ => last r end) as E1.
  { rewrite last_app. destruct r as [|r0 r]; [done|]. change (last (Some (mn, mx) :: r0 :: r)) with (last (r0 :: r)).
    destruct (last (r0 :: r)) eqn:E; [done|by apply last_None in E]. }
  assert (last (l ++ m ++ r) = match r with [] => Some (Some (y, mx)) | _ => last r end) as E2.
  { rewrite !last_app, Hl. destruct r as [|r0 r]; [done|]. destruct (last (r0 :: r)) eqn:E; [done|by apply last_None in E]. }
  destruct m as [|m0 m]; [done|]. cbn in H0. injection H0 as ->.
  destruct l as [|l0 l]; cbn [app] in *; unfold osumm; rewrite ?E1, ?E2.
  - destruct r as [|r0 r]; done.
  - cbn in E1, E2. destruct l0 as [[a b]|]; [|done]. destruct r as [|r0 r]; done.
Qed.

Definition OrdLaw : Lawful (@OrdTrait Key Value kcmp).
Proof.
  refine (mkLaw (@OrdTrait Key Value kcmp) (fun _ => True) is_Some osumm (fun _ _ _ => False) false
    _ _ _ _ _ _ _ _ _ _ _ _ _ _ _ _ _ _ _); cbn [Elem Cache Diff OrdTrait] in *; try done.
  - intros cs F [Hne|?]; [|done]. destruct (osumm_some cs F Hne) as (mn & mx & x & y & _ & _ & ->). eauto.
  - intros l m r F [Hne|?]; [|done]. by apply osumm_flat.
  - intros c [[a b] ->]. done.
  - intros c0 cs F [Hne|?]; [|done]. exists tt. split; [|done].
    destruct (osumm_some cs F Hne) as (mn & mx & x & y & H0 & Hl & Es). rewrite Es.
    cbn. destruct cs as [|c cs]; [done|]. cbn in H0. injection H0 as ->. cbn. rewrite Hl. done.
  - intros c0. cbn. eauto.
  - intros e off _ Ho. cbn in Ho. lia.
  - intros e off x _ _ _. cbn. by right.
  - intros [[a b]|]; cbn; [|done]. by rewrite !Hrefl.
Defined.
End ord.
