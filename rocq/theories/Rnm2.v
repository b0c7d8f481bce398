(** Rnm2.v — RangeNumMap: histories on arrays of bounded length never panic. *)
From Verif Require Export Rnm Thick3.

(** the map describes the array [u], and its inner nodes off the left spine have five children or more *)
Definition RnmMd (m : rnm) (u : list (option Z)) : Prop := RnmOf m u /\ MDw true m.

Lemma rnm_shallow m u k : RnmMd m u -> 1 <= k -> length u <= 5 ^ k -> Shallow m k.
Proof.
  intros [(xs & T & <-) M] Hk Hl. apply (thick_shallow RNL m xs k T M Hk).
  rewrite <- (rnm_tlen m xs T) in Hl. etrans; [|exact Hl]. pose proof (rnm_nz m xs T) as Hn. clear -Hn.
  induction xs as [|[l e] xs IH]; [done|]. rewrite tlen_cons. cbn [length].
  pose proof (Hn l e ltac:(left)). enough (length xs <= tlen xs) by lia. apply IH. intros l' e' Hin. apply (Hn l' e'). by right.
Qed.
Lemma rnm_reserve_md m u en m' : RnmMd m u -> rnm_reserve m en = Ok m' -> RnmMd m' (arr_reserve u en).
Proof.
  intros [HR M] E. split.
  { destruct (rnm_reserve_ok m u en HR) as (m1 & E1 & HR1). rewrite E in E1. by injection E1 as <-. }
  pose proof (rnm_len_ok m u HR) as Hl. destruct HR as (xs & T & _). unfold rnm_reserve in E. case_decide as Hc; [|by injection E as <-].
  destruct (t_push RNL m xs (mkRE None (en - rnm_len m + 10)) T) as (cur & t1 & E1 & M' & _); [cbn; lia|].
  rewrite E1 in E. cbn [rbind] in E. injection E as <-. auto.
Qed.
Lemma rnm_upd_md ord m u st en (fu : unit -> Elem RNMTrait -> unit * Elem RNMTrait * option (Diff RNMTrait)) (g : option Z -> option Z) a b new s m' :
  (forall l, ord l ≡ₚ l) -> RnmMd m u -> st <= en -> en <= length u -> u <> [] ->
  (forall s e, fu s e = (tt, mkRE (g (re_value e)) (re_len e), None)) ->
  range RNMFinder m st en = Ok (Some (a, b)) -> @update RNMTrait unit ord m (qr_cursor a) (qr_cursor b) fu tt = Ok (new, s, m') -> MDw true m'.
Proof.
  intros Hord [(xs & T & <-) M] Hse Hen Hne Hfu Er Eu. rewrite <- (rnm_tlen m xs T) in Hen. assert (Hx : xs <> []) by (intros ->; by apply Hne).
  destruct (len_cur RNL (fun c => c) rnl_LenCache m xs st T Hx) as (ca & sa & Ea & Ca); [lia|].
  destruct (len_cur RNL (fun c => c) rnl_LenCache m xs en T Hx) as (cb & sb & Eb & Cb); [lia|].
  assert (Hor : st < en \/ ca = cb). { destruct (decide (st = en)) as [->|]; [|left; lia]. right. rewrite Ea in Eb. by injection Eb. }
  unfold range in Er. rewrite (t_is_empty RNL m xs T), bool_decide_eq_false_2 in Er by done. cbn [rbind] in Er. unfold query, RNMFinder in Er.
  rewrite Ea in Er. cbn [rbind ropt] in Er. rewrite Eb in Er. cbn [rbind ropt] in Er. injection Er as <- <-. cbn [qr_cursor] in Eu.
  destruct (curat_in _ _ _ Ca) as (ea & Ha & Hoa). destruct (curat_in _ _ _ Cb) as (eb & Hb & Hob).
  assert (Hle : cur_le xs ca cb). { destruct Hor as [Hpq| ->]; [by eapply curat_le; [exact (tree_nodup RNL _ _ T)|..]|]. by left. }
  assert (Hs : upd_sound RNL fu). { intros s0 e s' e' od Ve E. rewrite Hfu in E. injection E as <- <- <-. by split. }
  destruct (t_update_full RNL fu ord m xs ca cb ea eb tt T Ha Hoa Hb Hob Hle Hord Hs) as (A & Z & A1 & W & t2 & Ec & T2 & G2 & S2 & C1 & C2 & HO & HP).
  pose proof (md_cuts RNL m xs ca cb ea eb t2 T Ha Hoa Hb Hob Hle Ec M) as M2.
  assert (W ++ Z = [] \/ Shallow t2 9) as HS.
  { destruct (decide (length (W ++ Z) = 0)) as [E0|E0]; [left; by apply nil_length_inv|]. assert (W ++ Z <> []) as E0' by (intros E1; by rewrite E1 in E0). right.
    destruct (shallow_dec RNL t2 (A1 ++ W ++ Z) 9 T2) as [?|Hn]; [|done|rewrite HP in Eu by done; done].
    intros [_ ?]%app_eq_nil. done. }
  destruct (HO HS) as (t1 & E1 & _ & _ & M'). rewrite E1 in Eu. injection Eu as _ _ <-. by apply M'.
Qed.
Lemma mop_run_md ord o m u m' : (forall l, ord l ≡ₚ l) -> RnmMd m u -> mop_ok o u -> mop_run ord o m = Ok m' -> RnmMd m' (arr_op o u).
Proof.
  intros Hord HM Ho E. pose proof HM as [HR M]. split.
  { destruct (mop_run_ok ord o m u Hord HR Ho) as [(m1 & E1 & HR1)|[E1 _]]; rewrite E in E1; [by injection E1 as <-|done]. }
  destruct o as [st en v|st en c|st en]; cbn [mop_ok mop_run] in *.
  - destruct Ho as [Hse Hne]. unfold rnm_insert in E. destruct (rnm_reserve_ok m u en HR) as (m1 & E1 & HR1).
    pose proof (rnm_reserve_md m u en m1 HM E1) as HM1. rewrite E1 in E. cbn [rbind] in E.
    destruct (arr_reserve_len u en) as [Hl1 Hl2]. set (u1 := arr_reserve u en) in *.
    assert (u1 <> []). { intros E0. rewrite E0 in *. cbn in *. destruct Hne as [?|Hne]; [lia|]. by destruct u; cbn in *; [|lia]. }
    destruct (rnm_upd_ok ord m1 u1 st en (fun s e => (s, mkRE (Some v) (re_len e), None)) (fun _ => Some v) Hord HR1 Hse Hl1) as (a & b & Er & _); [done|by intros []|].
    rewrite Er in E. cbn [rbind] in E. destruct (update _ _ _ _ _ _) as [[[new s] m2]| |] eqn:Eu in E; [|done..]. cbn [rbind] in E. injection E as <-.
    eapply (rnm_upd_md ord m1 u1 st en _ (fun _ => Some v)); [done|done|done|done|done| |exact Er|exact Eu]. by intros [].
  - unfold rnm_plus in E. destruct (rnm_reserve_ok m u en HR) as (m1 & E1 & HR1).
    pose proof (rnm_reserve_md m u en m1 HM E1) as HM1. rewrite E1 in E. cbn [rbind] in E.
    destruct (arr_reserve_len u en) as [Hl1 Hl2]. set (u1 := arr_reserve u en) in *. clearbody u1.
    destruct (decide (length u1 = 0)) as [E0|E0].
    + apply nil_length_inv in E0 as ->. destruct HR1 as (xs & T & Ef). assert (xs = []) as ->.
      { pose proof (rnm_tlen m1 xs T) as Hl. rewrite Ef in Hl. cbn in Hl. destruct xs as [|[l e] xs]; [done|]. rewrite tlen_cons in Hl.
        pose proof (rnm_nz m1 _ T l e ltac:(left)). lia. }
      unfold range in E. rewrite (t_is_empty RNL m1 [] T) in E. cbn in E. injection E as <-. by destruct HM1.
    + destruct (rnm_upd_ok ord m1 u1 st en (fun s e => (s, mkRE ((fun x => (x + c)%Z) <$> re_value e) (re_len e), None)) (fmap (fun x => (x + c)%Z)) Hord HR1 Ho Hl1) as (a & b & Er & _);
        [by destruct u1|by intros []|].
      rewrite Er in E. cbn [rbind] in E. destruct (update _ _ _ _ _ _) as [[[new s] m2]| |] eqn:Eu in E; [|done..]. cbn [rbind] in E. injection E as <-.
      eapply (rnm_upd_md ord m1 u1 st en _ (fmap (fun x => (x + c)%Z))); [done|done|done|done|by destruct u1| |exact Er|exact Eu]. by intros [].
  - destruct Ho as (Hse & Hen & Hst). destruct HR as (xs & T & Eu). rewrite <- Eu, <- (rnm_tlen m xs T) in Hen, Hst. assert (Hx : xs <> []) by (intros ->; cbn in Hst; lia).
    destruct (len_cur RNL (fun c => c) rnl_LenCache m xs st T Hx) as (ca & sa & Ea & Ca); [lia|].
    destruct (len_cur RNL (fun c => c) rnl_LenCache m xs en T Hx) as (cb & sb & Eb & Cb); [lia|].
    assert (Hor : st < en \/ ca = cb). { destruct (decide (st = en)) as [->|]; [|left; lia]. right. rewrite Ea in Eb. by injection Eb. }
    unfold rnm_drain, query, RNMFinder in E. rewrite Ea in E. cbn [rbind] in E. rewrite Eb in E. cbn [rbind] in E.
    destruct (drain_range _ _ _ _) as [[es m2]| |] eqn:Ed in E; [|done..]. cbn [rbind] in E. injection E as <-.
    eapply (fs_drain_md RNL m xs); [done|by eapply rnm_nz|exact Ca|exact Cb|done|done|exact Ed|done].
Qed.
(** the arrays at all times, with the room reserved by each call, have at most [N] entries *)
Fixpoint MFits (N : nat) (os : list mop) (u : list (option Z)) : Prop :=
  length u <= N /\ match os with
  | [] => True
  | o :: os' => match o with MIns _ en _ | MPlus _ en _ => length (arr_reserve u en) <= N | MDrain _ _ => True end /\ MFits N os' (arr_op o u)
  end.
Theorem mrun_short ord os : (forall l, ord l ≡ₚ l) -> forall m u, RnmMd m u -> mops_ok os u -> MFits (5 ^ 7) os u ->
  exists m', mrun ord os m = Ok m' /\ RnmMd m' (arr_run os u).
Proof.
  intros Hord. induction os as [|o os IH]; intros m u HM Ho Hf; [by exists m|]. cbn [mops_ok MFits] in Ho, Hf. destruct Ho as [Ho1 Ho2]. destruct Hf as (Hl & Hf1 & Hf2).
  cbn [mrun arr_run]. pose proof HM as [HR M]. destruct (mop_run_ok ord o m u Hord HR Ho1) as [(m1 & E1 & _)|[_ D]].
  - rewrite E1. cbn [rbind]. apply IH; [|done|done]. by eapply mop_run_md.
  - exfalso. destruct o as [st en v|st en c|st en]; cbn [TooDeep] in D.
    1,2: destruct D as (m1 & E1 & D); apply D; eapply (rnm_shallow m1 _ 7 (rnm_reserve_md m u en m1 HM E1)); [lia|done].
    apply D. eapply (rnm_shallow m u 7 HM); [lia|done].
Qed.
Lemma rnm_new_md : RnmMd rnm_new [].
Proof. split; [apply rnm_new_ok|apply MD_new]. Qed.
(** from an empty map *)
Theorem rnm_history_short ord os : (forall l, ord l ≡ₚ l) -> mops_ok os [] -> MFits (5 ^ 7) os [] ->
  exists m ps, mrun ord os rnm_new = Ok m /\ RnmOf m (arr_run os []) /\ (forall i, rnm_get m i = Ok (mjoin (arr_run os [] !! i))) /\
    rnm_iter m = Ok ps /\ Gapless 0 ps (omap id (arr_run os [])).
Proof.
  intros Hord Ho Hf. destruct (mrun_short ord os Hord rnm_new [] rnm_new_md Ho Hf) as (m & E & HM). pose proof HM as [HR _].
  assert (length (arr_run os []) <= 5 ^ 7) as Hl.
  { clear -Hf. revert Hf. generalize (@nil (option Z)) as u. induction os as [|o os IH]; intros u [Hl Hf]; [done|]. apply IH. by destruct Hf. }
  destruct (rnm_iter_ok m _ HR) as (ps & E2 & G). { eapply (rnm_shallow m _ 9 HM); [lia|]. etrans; [exact Hl|]. apply Nat.pow_le_mono_r; lia. }
  exists m, ps. split; [done|]. split; [done|]. split; [intros i; by apply rnm_get_ok|]. done.
Qed.
