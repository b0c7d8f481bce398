(** Spec.v — an independent, readable specification: the in-order content of a heap of
    nodes, what it means for the heap to be intact, and the bridge from the working
    invariant [OK] of the proofs. *)
From Verif Require Export Path.

Section defs.
Context {B : BTreeTrait}.
Notation btree := (btree B).

(** [InOrder t a d xs]: the subtree of [a] has all its leaves exactly [d] levels below [a]
    and lists (handle, element) from left to right as [xs]. *)
Inductive InOrder (t : btree) : aidx -> nat -> list (nat * Elem B) -> Prop :=
| io_leaf l lf : a_get (leaf_nodes t) l = Some lf -> InOrder t (ALeaf l) 0 [(l, l_elem lf)]
| io_node i n d xs : a_get (in_nodes t) i = Some n ->
    InOrders t (map c_arena (n_children n)) d xs -> InOrder t (AInt i) (S d) xs
with InOrders (t : btree) : list aidx -> nat -> list (nat * Elem B) -> Prop :=
| io_nil d : InOrders t [] d []
| io_cons a r d xs ys : InOrder t a d xs -> InOrders t r d ys -> InOrders t (a :: r) d (xs ++ ys).

(** nodes reachable from the root *)
Inductive Reach (t : btree) : aidx -> Prop :=
| rc_root : Reach t (root t)
| rc_child i n c : Reach t (AInt i) -> a_get (in_nodes t) i = Some n -> c ∈ n_children n -> Reach t (c_arena c).

(** aggregate of a list of elements *)
Definition agg (L : Lawful B) (xs : list (nat * Elem B)) : Cache B :=
  summ L (map (fun x => get_elem_cache (snd x)) xs).

(** the user-visible state predicate: an intact tree with content [xs] *)
Record Intact (L : Lawful B) (t : btree) (d : nat) (xs : list (nat * Elem B)) : Prop := {
  (* all leaves at depth [d], content in order *)
  in_order : InOrder t (root t) d xs;
  in_nodup : NoDup xs.*1;
  (* fan-out, non-emptiness, parent links and slots *)
  in_fan : forall i n, a_get (in_nodes t) i = Some n -> length (n_children n) <= 11;
  in_ne : forall i n, a_get (in_nodes t) i = Some n -> AInt i <> root t -> n_children n <> [];
  in_up : forall i n k c m cn, a_get (in_nodes t) i = Some n -> n_children n !! k = Some c ->
    c_arena c = AInt m -> a_get (in_nodes t) m = Some cn -> n_parent cn = Some (AInt i) /\ n_slot cn = k;
  in_lup : forall i n k c l lf, a_get (in_nodes t) i = Some n -> n_children n !! k = Some c ->
    c_arena c = ALeaf l -> a_get (leaf_nodes t) l = Some lf -> l_parent lf = i;
  in_top : exists r rn, root t = AInt r /\ a_get (in_nodes t) r = Some rn /\ n_parent rn = None;
  (* no leaks, no dangling references *)
  in_reach_in : forall i, Reach t (AInt i) <-> is_Some (a_get (in_nodes t) i);
  in_reach_lf : forall l, Reach t (ALeaf l) <-> is_Some (a_get (leaf_nodes t) l);
  in_old_in : forall i, is_Some (a_get (in_nodes t) i) -> i < anext (in_nodes t);
  in_old_lf : forall l, is_Some (a_get (leaf_nodes t) l) -> l < anext (leaf_nodes t);
  in_leaf : forall l e, (l, e) ∈ xs <-> l_elem <$> a_get (leaf_nodes t) l = Some e;
  (* caches are the aggregates of the elements below *)
  in_cache : forall i n c d' ys, a_get (in_nodes t) i = Some n -> c ∈ n_children n ->
    InOrder t (c_arena c) d' ys -> c_cache c = agg L ys;
  in_root_cache : xs <> [] \/ mono L = true -> root_cache t = agg L xs;
  (* elements are valid *)
  in_valid : forall l e, (l, e) ∈ xs -> evalid L e;
}.

(** the predicate carried by all theorems about operations *)
Definition Content (t : btree) (xs : list (nat * Elem B)) : Prop := exists d, InOrder t (root t) d xs.
Definition Tree (L : Lawful B) (t : btree) (xs : list (nat * Elem B)) : Prop := exists d, Intact L t d xs.
End defs.
Scheme InOrder_ind2 := Induction for InOrder Sort Prop
  with InOrders_ind2 := Induction for InOrders Sort Prop.
Combined Scheme InOrder_mut from InOrder_ind2, InOrders_ind2.

Section bridge.
Context {B : BTreeTrait} (L : Lawful B).
Notation btree := (btree B).
Notation child := (child B).
Notation act := (act L).
Notation CO := (CO L).
Notation RC := (RC L).
Notation VA := (VA L).
Notation OK := (OK L).
Implicit Types (t : btree) (i j m p q k s : nat) (a b : aidx) (c : child) (cs : list child).

Lemma io_det t : (forall a d xs, InOrder t a d xs -> forall d' ys, InOrder t a d' ys -> xs = ys) /\
  (forall r d xs, InOrders t r d xs -> forall d' ys, InOrders t r d' ys -> xs = ys).
Proof.
  apply InOrder_mut.
  - intros l lf Hl d' ys Hy. inversion Hy; subst. congruence.
  - intros i n d xs Hn _ IH d' ys Hy. inversion Hy; subst. assert (n0 = n) as -> by congruence. eauto.
  - intros d d' ys Hy. by inversion Hy.
  - intros a r d xs ys _ IH1 _ IH2 d' zs Hz. inversion Hz; subst. f_equal; eauto.
Qed.
Lemma content_det t xs ys : Content t xs -> Content t ys -> xs = ys.
Proof. intros [d Hx] [d' Hy]. by eapply (proj1 (io_det t)). Qed.
Lemma io_app t r1 r2 d xs ys : InOrders t r1 d xs -> InOrders t r2 d ys -> InOrders t (r1 ++ r2) d (xs ++ ys).
Proof. induction 1; cbn; [done|]. intros. rewrite <- app_assoc. constructor; eauto. Qed.

Lemma io_gen t H lv : WT NoE t H lv -> forall n a, live t a -> alv lv a = n -> InOrder t a n (pel t (gen t n a)).
Proof.
  intros W n. induction n as [|n IH]; intros a Ha Hn.
  - destruct a as [l|m]; [|done]. destruct Ha as [e He]. cbn [gen]. rewrite (pel_cons _ _ e) by done. cbn.
    unfold el in He. destruct (a_get (leaf_nodes t) l) as [lf|] eqn:E; [|done]. cbn in He. injection He as <-. by constructor.
  - destruct a as [l|m]; [done|]. destruct Ha as [cs Hk]. pose proof (chs_kids _ _ _ Hk) as Hc.
    assert (forall b, b ∈ chs t m -> live t b /\ alv lv b = n) as Hb.
    { intros b Hb. apply elem_of_list_lookup in Hb as [k Hb]. destruct (wt_ch W _ _ _ Hb) as [? Hl]. split; [done|].
      cbn in Hn. lia. }
    unfold kids in Hk. destruct (a_get (in_nodes t) m) as [nd|] eqn:E; [|done]. cbn in Hk. injection Hk as Hk.
    eapply io_node; [done|]. rewrite Hk, <- Hc. cbn [gen achs]. revert Hb. generalize (chs t m). clear -IH.
    induction l as [|b r IHr]; intros Hb; [constructor|]. rewrite bind_cons, pel_app. constructor.
    + destruct (Hb b) as [? ?]; [left|]. by apply IH.
    + apply IHr. intros x Hx. apply Hb. by right.
Qed.
Lemma content_cont t H lv : WT NoE t H lv -> InOrder t (root t) (S H) (cont t H).
Proof. intros W. unfold cont. apply (io_gen t H lv W); [apply (root_live W)|apply (alv_root W)]. Qed.
(** ** aggregates *)
Definition ec (xs : list (nat * Elem B)) : list (Cache B) := map (fun x => get_elem_cache (snd x)) xs.
Lemma ec_app xs ys : ec (xs ++ ys) = ec xs ++ ec ys.
Proof. apply map_app. Qed.
Lemma ec_valid t (r : list aidx) : VA t -> Forall (cvalid L) (ec (pel t r)).
Proof.
  intros V. apply Forall_forall. intros x ([l e] & -> & Hx)%elem_of_list_fmap. cbn.
  apply lw_get. apply (va_el _ _ V l). unfold pel in Hx. apply elem_of_list_omap in Hx as (a & _ & Ha).
  destruct a as [y|]; [|done]. destruct (el t y) as [e'|] eqn:E; [|done]. cbn in Ha. congruence.
Qed.
Lemma act_valid t H lv a : WT NoE t H lv -> VA t -> live t a -> achs t a <> [] \/ is_leaf a = true -> cvalid L (act t a).
Proof.
  intros W V Ha Hne. destruct a as [l|m]; cbn in *.
  - destruct Ha as [e He]. rewrite (act_leaf L _ _ _ He). apply lw_get. by apply (va_el _ _ V l).
  - destruct Ha as [cs Hk]. rewrite (act_int L _ _ _ Hk). apply lw_summ; [by eapply VA_kids|]. left. destruct Hne as [Hne|]; [|done].
    rewrite (chs_kids _ _ _ Hk) in Hne. by destruct cs.
Qed.
Lemma act_leaves t H lv : WT NoE t H lv -> CO t (fun _ => False) -> VA t ->
  forall n a u v, live t a -> alv lv a = n -> (forall i, a = AInt i -> chs t i <> [] \/ mono L = true) ->
    Forall (cvalid L) u -> Forall (cvalid L) v ->
    summ L (u ++ act t a :: v) = summ L (u ++ ec (pel t (gen t n a)) ++ v).
Proof.
  intros W C V n. induction n as [|n IH]; intros a u v Ha Hn Hne Hu Hv.
  - destruct a as [l|]; [|done]. destruct Ha as [e He]. cbn [gen]. rewrite (pel_cons _ _ e) by done. by rewrite (act_leaf L _ _ _ He).
  - destruct a as [|m]; [done|]. destruct Ha as [cs Hk]. rewrite (act_int L _ _ _ Hk).
    assert (Forall (cvalid L) (map c_cache cs)) as Hcv by (by eapply VA_kids).
    rewrite lw_flat.
    2:{ by rewrite !Forall_app. }
    2:{ destruct (Hne m eq_refl) as [Hm|]; [left|by right]. rewrite (chs_kids _ _ _ Hk) in Hm. by destruct cs. }
    cbn [gen achs]. rewrite (chs_kids _ _ _ Hk).
    assert (forall c, c ∈ cs -> c_cache c = act t (c_arena c) /\ live t (c_arena c) /\ alv lv (c_arena c) = n /\
      (forall i, c_arena c = AInt i -> chs t i <> [])) as Hcs.
    { intros c Hc. assert (c_arena c ∈ chs t m) as Hcm by (rewrite (chs_kids _ _ _ Hk); by apply elem_of_list_fmap_1).
      split_and!.
      - apply (C m cs); [done|done|tauto].
      - by apply (wt_live_child W) in Hcm.
      - apply elem_of_list_lookup in Hcm as [k Hcm]. destruct (wt_ch W _ _ _ Hcm) as [_ ?]. cbn in Hn. lia.
      - intros i Hi. rewrite Hi in Hcm. by apply (child_ne W m). }
    clear Hk Hne Hn. revert u Hu. induction cs as [|c cs IHc]; intros u Hu; [done|].
    cbn [map fmap list_fmap]. rewrite bind_cons, pel_app, ec_app. cbn [app]. destruct (Hcs c) as (Hc & Hl & Hlv & Hi); [left|].
    rewrite Hc. rewrite IH; [|done|done|eauto|done|].
    2:{ cbn in Hcv. apply Forall_cons in Hcv as [_ Hcv]. by apply Forall_app. }
    rewrite (app_assoc u), IHc.
    + by rewrite <- !app_assoc.
    + by apply Forall_cons in Hcv as [_ ?].
    + intros; apply Hcs. by right.
    + apply Forall_app. split; [done|]. by apply ec_valid.
Qed.
Lemma root_act t H lv : OK t H lv -> cont t H <> [] \/ mono L = true -> root_cache t = agg L (cont t H).
Proof.
  intros O Hne. pose proof (ok_wt _ _ _ _ O) as W.
  assert (chs t (raw (root t)) <> [] \/ mono L = true) as Hr.
  { destruct Hne as [Hx|]; [left|by right]. intros He. apply Hx. unfold cont. cbn [gen]. rewrite (wt_root_id W). cbn. by rewrite He. }
  rewrite (ok_rc _ _ _ _ O Hr).
  pose proof (act_leaves t H lv W (ok_co _ _ _ _ O) (ok_va _ _ _ _ O) (S H) (root t) [] []) as G.
  cbn [app] in G. rewrite app_nil_r in G. rewrite <- (lw_one B L (act t (root t))).
  - apply G; try done; [apply (root_live W)|apply (alv_root W)|].
    intros i Hi. rewrite Hi in Hr. done.
  - rewrite (wt_root_id W). destruct (wt_root_live W) as [cs Hk]. rewrite (act_int L _ _ _ Hk).
    apply lw_summ; [by eapply VA_kids, Hk; apply (ok_va _ _ _ _ O)|]. destruct Hr as [Hr|]; [left|by right].
    rewrite (chs_kids _ _ _ Hk) in Hr. by destruct cs.
Qed.

(** ** the working invariant implies the readable one *)
Lemma el_get t l e : el t l = Some e <-> l_elem <$> a_get (leaf_nodes t) l = Some e.
Proof. done. Qed.
Lemma kids_get t i n : a_get (in_nodes t) i = Some n -> kids t i = Some (n_children n).
Proof. unfold kids. by intros ->. Qed.
Lemma get_kids t i : is_Some (kids t i) <-> is_Some (a_get (in_nodes t) i).
Proof. unfold kids. by rewrite fmap_is_Some. Qed.
Lemma get_el t l : is_Some (el t l) <-> is_Some (a_get (leaf_nodes t) l).
Proof. unfold el. by rewrite fmap_is_Some. Qed.
Lemma reach_live t H lv : WT NoE t H lv -> forall a, Reach t a -> live t a.
Proof.
  intros W a. induction 1 as [|i n c _ _ Hn Hc]; [apply (root_live W)|].
  assert (c_arena c ∈ chs t i) as Hin; [|by apply (wt_live_child W) in Hin].
  rewrite (chs_kids _ _ _ (kids_get _ _ _ Hn)). by apply elem_of_list_fmap_1.
Qed.
Lemma live_reach t H lv : WT NoE t H lv -> forall a, live t a -> Reach t a.
Proof.
  intros W. assert (forall n a, S H - alv lv a = n -> live t a -> Reach t a) as G; [|eauto].
  induction n as [n IH] using lt_wf_ind. intros a Hn Ha.
  destruct (decide (a = root t)) as [->|Hr]; [constructor|].
  destruct (wt_up W a Ha Hr) as (p & k & Hp). destruct (wt_ch W _ _ _ Hp) as [_ Hl].
  pose proof (chs_lookup_live _ _ _ _ Hp) as Hpl. pose proof (wt_lv W p Hpl) as Hlp.
  destruct (chs_lookup _ _ _ _ Hp) as (cs & c & Hk & Hc & <-).
  unfold kids in Hk. destruct (a_get (in_nodes t) p) as [nd|] eqn:E; [|done]. cbn in Hk. injection Hk as Hk.
  eapply rc_child; [|done|].
  - eapply IH; [|done|]; [|exact Hpl]. cbn. lia.
  - rewrite Hk. by eapply elem_of_list_lookup_2.
Qed.
Lemma OK_Intact t H lv : OK t H lv -> Intact L t (S H) (cont t H).
Proof.
  intros O. pose proof (ok_wt _ _ _ _ O) as W. pose proof (ok_lk _ _ _ _ O) as K. constructor.
  - by eapply content_cont.
  - by eapply cont_nodup.
  - intros i n Hn. pose proof (ok_sz _ _ _ _ O i) as Hz. rewrite (chs_kids _ _ _ (kids_get _ _ _ Hn)), map_length in Hz. done.
  - intros i n Hn Hr He. apply (wt_ne W i); [rewrite (kids_get _ _ _ Hn); eauto|done|by intros []|].
    by rewrite (chs_kids _ _ _ (kids_get _ _ _ Hn)), He.
  - intros i n k c m cn Hn Hc Ha Hcn.
    assert (chs t i !! k = Some (AInt m)) as Hk by (rewrite (chs_kids _ _ _ (kids_get _ _ _ Hn)), list_lookup_fmap, Hc; cbn; by rewrite Ha).
    apply (lk_ch K) in Hk. cbn in Hk. unfold lnk in Hk. rewrite Hcn in Hk. cbn in Hk. split; congruence.
  - intros i n k c l lf Hn Hc Ha Hlf.
    assert (chs t i !! k = Some (ALeaf l)) as Hk by (rewrite (chs_kids _ _ _ (kids_get _ _ _ Hn)), list_lookup_fmap, Hc; cbn; by rewrite Ha).
    apply (lk_ch K) in Hk. cbn in Hk. unfold llnk in Hk. rewrite Hlf in Hk. cbn in Hk. congruence.
  - destruct (wt_root W) as (r & Hr & Hrl & _). apply get_kids in Hrl as [rn Hrn]. exists r, rn. split_and!; try done.
    destruct (lk_root K r Hr) as [s Hs]. unfold lnk in Hs. rewrite Hrn in Hs. cbn in Hs. congruence.
  - intros i. rewrite <- get_kids. split; [apply (reach_live t H lv W (AInt i))|apply (live_reach t H lv W (AInt i))].
  - intros i. rewrite <- get_el. split; [apply (reach_live t H lv W (ALeaf i))|apply (live_reach t H lv W (ALeaf i))].
  - intros i. rewrite <- get_kids. apply (wt_fresh W).
  - intros l. rewrite <- get_el. apply (wt_lfresh W).
  - intros l e. split; [apply cont_el|]. intros He. by apply (cont_in l e W).
  - intros i n c d' ys Hn Hc Hy. pose proof (kids_get _ _ _ Hn) as Hk.
    assert (c_arena c ∈ chs t i) as Hin by (rewrite (chs_kids _ _ _ Hk); by apply elem_of_list_fmap_1).
    pose proof (wt_live_child W _ _ Hin) as Hl.
    pose proof (io_gen t H lv W _ (c_arena c) Hl eq_refl) as Hy2. rewrite (proj1 (io_det t) _ _ _ Hy _ _ Hy2).
    rewrite (ok_co _ _ _ _ O i _ c Hk Hc ltac:(tauto)).
    assert (forall j, c_arena c = AInt j -> chs t j <> []) as Hne.
    { intros j Hj. rewrite Hj in Hin. by apply (child_ne W i). }
    rewrite <- (lw_one B L (act t (c_arena c))).
    + pose proof (act_leaves t H lv W (ok_co _ _ _ _ O) (ok_va _ _ _ _ O) _ (c_arena c) [] [] Hl eq_refl) as G.
      cbn [app] in G. rewrite app_nil_r in G. apply G; eauto.
    + apply (act_valid t H lv); [done|apply (ok_va _ _ _ _ O)|done|].
      destruct (c_arena c) as [|j]; [by right|left]. by apply Hne.
  - by apply root_act with lv.
  - intros l e He. apply (va_el _ _ (ok_va _ _ _ _ O) l). by eapply cont_el.
Qed.

(** ** ... and conversely *)
Fixpoint ht (f : nat) t a : nat :=
  match f, a with
  | S f, AInt i => match chs t i with [] => 1 | b :: _ => S (ht f t b) end
  | _, _ => 0
  end.
  Lemma io_live t a d ys : InOrder t a d ys -> live t a.
  Proof. inversion 1; subst; cbn [live]; [apply get_el|apply get_kids]; eauto. Qed.
  Lemma ios_in t r d ys : InOrders t r d ys -> forall b, b ∈ r -> exists zs, InOrder t b d zs /\ (forall z, z ∈ zs -> z ∈ ys).
  Proof.
    induction 1 as [|a r d ys zs Ha Hr IH]; intros b Hb; [by apply not_elem_of_nil in Hb|].
    apply elem_of_cons in Hb as [->|Hb]; [exists ys; split; [done|set_solver]|].
    destruct (IH b Hb) as (us & ? & ?). exists us. split; [done|set_solver].
  Qed.
Section conv.
  Context (t : btree) (d0 : nat) (xs : list (nat * Elem B)) (I : Intact L t d0 xs).
  Lemma it_child_nr i n c : a_get (in_nodes t) i = Some n -> c ∈ n_children n -> c_arena c <> root t.
  Proof.
    intros Hn Hc Hr. destruct (in_top _ _ _ _ I) as (r & rn & Hroot & Hrn & Hp).
    apply elem_of_list_lookup in Hc as [k Hc]. rewrite Hroot in Hr.
    destruct (in_up _ _ _ _ I _ _ _ _ _ _ Hn Hc Hr Hrn) as [? _]. congruence.
  Qed.
  Lemma it_nonempty : forall a d ys, InOrder t a d ys -> a <> root t -> ys <> [].
  Proof.
    enough ((forall a d ys, InOrder t a d ys -> a <> root t -> ys <> []) /\
      (forall r d ys, InOrders t r d ys -> r <> [] -> (forall a, a ∈ r -> a <> root t) -> ys <> [])) by tauto.
    apply InOrder_mut.
    - done.
    - intros i n d ys Hn _ IH Hr. apply IH.
      + pose proof (in_ne _ _ _ _ I _ _ Hn Hr). by destruct (n_children n).
      + intros a (c & -> & Hc)%elem_of_list_fmap. by eapply it_child_nr.
    - done.
    - intros a r d ys zs _ IH1 _ _ _ Ha Hy. apply app_eq_nil in Hy as [Hy _]. revert Hy. apply IH1, Ha. left.
  Qed.
  Lemma it_ht : forall a d ys, InOrder t a d ys -> ys <> [] -> forall f, d <= f -> ht f t a = d.
  Proof.
    enough ((forall a d ys, InOrder t a d ys -> ys <> [] -> forall f, d <= f -> ht f t a = d) /\
      (forall r d ys, InOrders t r d ys -> (forall a, a ∈ r -> a <> root t) ->
        forall f, d <= f -> match r with [] => True | b :: _ => ht f t b = d end)) by tauto.
    apply InOrder_mut.
    - intros l lf _ _ [|f]; done.
    - intros i n d ys Hn Hio IH Hne f Hf. destruct f as [|f]; [lia|]. cbn [ht].
      rewrite (chs_kids _ _ _ (kids_get _ _ _ Hn)).
      assert (map c_arena (n_children n) <> []) as Hnn by (intros E; rewrite E in Hio; inversion Hio; subst; done).
      assert (forall a, a ∈ map c_arena (n_children n) -> a <> root t) as Hnr.
      { intros a (c & -> & Hc)%elem_of_list_fmap. by eapply it_child_nr. }
      specialize (IH Hnr f ltac:(lia)). destruct (map c_arena (n_children n)); [done|]. by rewrite IH.
    - done.
    - intros a r d ys zs Ha IH1 _ _ Hnr f Hf. apply IH1; [|done]. eapply it_nonempty; [done|]. apply Hnr. left.
  Qed.
End conv.
Ltac shadow I := pose proof (it_child_nr _ _ _ I) as it_child_nr; pose proof (it_nonempty _ _ _ I) as it_nonempty;
  pose proof (it_ht _ _ _ I) as it_ht.
  Lemma it_top t d0 xs (I : Intact L t d0 xs) : exists D, InOrder t (root t) (S D) xs /\ ht (S D) t (root t) = S D.
  Proof.
    shadow I. destruct (in_top _ _ _ _ I) as (r & rn & Hroot & Hrn & Hp). pose proof (in_order _ _ _ _ I) as Hio.
    rewrite Hroot in *. inversion Hio as [|i n d ys Hn Hios]; subst. assert (n = rn) as -> by congruence.
    destruct (decide (length xs = 0)) as [E|E].
    - apply nil_length_inv in E as ->. exists 0.
      assert (map c_arena (n_children rn) = []) as Hnil.
      { destruct (n_children rn) as [|c cs] eqn:Ec; [done|]. exfalso. cbn in Hios. inversion Hios as [|? ? ? us vs Hus Hvs]; subst.
        apply app_eq_nil in H2 as [-> _]. eapply it_nonempty; [exact Hus| |done]. eapply it_child_nr; [done|]. rewrite Ec. left. }
      split; [eapply io_node; [done|]; rewrite Hnil; constructor|]. cbn. by rewrite (chs_kids _ _ _ (kids_get _ _ _ Hrn)), Hnil.
    - exists d. split; [done|]. apply (it_ht _ _ _ Hio); [by destruct xs|done].
  Qed.
  Lemma it_reach t d0 xs (I : Intact L t d0 xs) D : InOrder t (root t) D xs -> forall a, Reach t a -> exists d ys, InOrder t a d ys /\ d <= D.
  Proof.
    intros HD a. induction 1 as [|i n c _ (d & ys & Hio & Hd) Hn Hc]; [eauto|].
    inversion Hio as [|? n' d' ? Hn' Hios]; subst. assert (n' = n) as -> by congruence.
    destruct (ios_in _ _ _ _ Hios (c_arena c)) as (zs & Hz & _); [by apply elem_of_list_fmap_1|].
    exists d', zs. split; [done|lia].
  Qed.
  Lemma Intact_OK t d0 xs (I : Intact L t d0 xs) : exists H lv, OK t H lv /\ InOrder t (root t) (S H) xs.
  Proof.
    shadow I. pose proof (it_reach _ _ _ I) as it_reach.
    destruct (it_top _ _ _ I) as (D & HD & HhD). set (lv := fun i => pred (ht (S D) t (AInt i))). exists D, lv. split; [|done].
    assert (Hk : forall i cs, kids t i = Some cs -> exists n, a_get (in_nodes t) i = Some n /\ n_children n = cs).
    { intros i cs Hi. unfold kids in Hi. destruct (a_get (in_nodes t) i) as [n|]; [|done]. cbn in Hi. exists n. split; [done|congruence]. }
    assert (Hck : forall p k a, chs t p !! k = Some a -> exists n c, a_get (in_nodes t) p = Some n /\ n_children n !! k = Some c /\
      c_arena c = a /\ exists d ys zs, InOrder t (AInt p) (S d) ys /\ InOrder t a d zs /\ zs <> [] /\ ys <> [] /\ S d <= S D /\ a <> root t).
    { intros p k a Hp. destruct (chs_lookup _ _ _ _ Hp) as (cs & c & Hcs & Hc & Ha). destruct (Hk _ _ Hcs) as (n & Hn & <-).
      exists n, c. split_and!; try done. pose proof (elem_of_list_lookup_2 _ _ _ Hc) as Hci.
      destruct (it_reach _ HD (AInt p)) as (d & ys & Hio & Hd); [apply (in_reach_in _ _ _ _ I); eauto|].
      inversion Hio as [|? n' d' ? Hn' Hios]; subst. assert (n' = n) as -> by congruence.
      destruct (ios_in _ _ _ _ Hios (c_arena c)) as (zs & Hz & Hsub); [by apply elem_of_list_fmap_1|].
      pose proof (it_child_nr _ _ _ Hn Hci) as Hnr. pose proof (it_nonempty _ _ _ Hz Hnr) as Hzn.
      exists d', ys, zs. split_and!; try done. destruct zs as [|z zs]; [done|]. intros ->. eapply not_elem_of_nil, Hsub. left. }
    assert (Hup : forall p k a, chs t p !! k = Some a -> linked t a p k).
    { intros p k a Hp. destruct (Hck _ _ _ Hp) as (n & c & Hn & Hc & <- & d & ys & zs & _ & Hz & _).
      pose proof (io_live _ _ _ _ Hz) as Hlv. destruct (c_arena c) as [l|m] eqn:Ea; cbn [linked live] in *.
      - apply get_el in Hlv as [lf Hlf]. unfold llnk. rewrite Hlf. cbn. f_equal. by eapply (in_lup _ _ _ _ I).
      - apply get_kids in Hlv as [mn Hmn]. unfold lnk. rewrite Hmn. cbn.
        by destruct (in_up _ _ _ _ I _ _ _ _ _ _ Hn Hc Ea Hmn) as [-> ->]. }
    assert (Hrl : forall a, live t a -> Reach t a).
    { intros [l|m] Ha; cbn in Ha; [apply (in_reach_lf _ _ _ _ I); by apply get_el|apply (in_reach_in _ _ _ _ I); by apply get_kids]. }
    assert (Hlvd : forall p d ys, InOrder t (AInt p) (S d) ys -> ys <> [] -> S d <= S D -> lv p = d).
    { intros p d ys Hio Hne Hd. unfold lv. by rewrite (it_ht _ _ _ Hio Hne _ Hd). }
    assert (Hla : forall a, live t a -> exists d ys, InOrder t a d ys /\ d <= S D /\ (a <> root t -> ys <> [])).
    { intros a Ha. destruct (it_reach _ HD a (Hrl a Ha)) as (d & ys & Hio & Hd). exists d, ys. split_and!; try done.
      by apply (it_nonempty _ _ _ Hio). }
    assert (W : WT NoE t D lv).
    { constructor.
      - destruct (in_top _ _ _ _ I) as (r & rn & Hr & Hrn & _). exists r. split_and!; [done|apply get_kids; eauto|].
        unfold lv. rewrite <- Hr, HhD. done.
      - intros p k a Hp. destruct (Hck _ _ _ Hp) as (n & c & Hn & Hc & <- & d & ys & zs & Hy & Hz & Hzn & Hyn & Hd & _).
        split; [by eapply io_live|]. rewrite (Hlvd p d ys) by done. destruct (c_arena c) as [l|m]; cbn [alv].
        + by inversion Hz.
        + inversion Hz; subst. f_equal. symmetry. by apply (Hlvd m _ zs); [| |lia].
      - intros p k p' k' a H1 H2. pose proof (Hup _ _ _ H1) as L1. pose proof (Hup _ _ _ H2) as L2.
        destruct a as [l|m]; cbn [linked] in *; [|split; congruence].
        assert (p' = p) as -> by congruence. split; [done|].
        (* leaves are pairwise distinct in the content *)
        assert (forall a d ys, InOrder t a d ys -> forall z, z ∈ ys -> True) as _ by done.
        assert (Hnd : forall a d ys, InOrder t a d ys -> Reach t a -> NoDup ys.*1).
        { intros a d ys Hio Ha. revert d ys Hio. induction Ha as [|i n c Hi IH Hn Hc]; intros d ys Hio.
          - assert (ys = xs) as ->; [|apply (in_nodup _ _ _ _ I)]. eapply (proj1 (io_det t)); [done|apply HD].
          - destruct (it_reach _ HD _ Hi) as (d1 & us & Hus & _). specialize (IH _ _ Hus).
            inversion Hus as [|? n' d' ? Hn' Hios]; subst. assert (n' = n) as -> by congruence.
            assert (forall r d us, InOrders t r d us -> NoDup us.*1 -> forall b, b ∈ r -> exists zs, InOrder t b d zs /\ NoDup zs.*1) as G.
            { clear. induction 1 as [|a r d us vs Ha Hr IH]; intros Hnd b Hb; [by apply not_elem_of_nil in Hb|].
              rewrite fmap_app in Hnd. apply NoDup_app in Hnd as (N1 & _ & N2).
              apply elem_of_cons in Hb as [->|Hb]; [eauto|]. by apply IH. }
            destruct (G _ _ _ Hios IH (c_arena c)) as (zs & Hz & Nz); [by apply elem_of_list_fmap_1|].
            by rewrite (proj1 (io_det t) _ _ _ Hio _ _ Hz). }
        pose proof (chs_lookup_live _ _ _ _ H1) as Hpl.
        destruct (Hla (AInt p) Hpl) as (d & ys & Hio & _ & _). pose proof (Hnd _ _ _ Hio (Hrl (AInt p) Hpl)) as N.
        inversion Hio as [|? n d' ? Hn Hios]; subst. rewrite (chs_kids _ _ _ (kids_get _ _ _ Hn)) in *.
        revert H1 H2 N. clear -Hios. revert k k'. induction Hios as [|a r d us vs Ha Hr IH]; intros k k' H1 H2 N; [done|].
        rewrite fmap_app in N. apply NoDup_app in N as (N1 & N2 & N3).
        assert (Hd : forall k, r !! k = Some (ALeaf l) -> a = ALeaf l -> False).
        { intros j Hj ->. apply (elem_of_list_lookup_2) in Hj. destruct (ios_in _ _ _ _ Hr _ Hj) as (zs & Hz & Hs).
          inversion Ha; subst. inversion Hz; subst. apply (N2 l); [cbn; left|].
          apply elem_of_list_fmap. exists (l, l_elem lf0). split; [done|]. apply Hs. left. }
        destruct k as [|k], k' as [|k']; cbn in H1, H2; try done.
        + injection H1 as ->. exfalso. by eapply Hd.
        + injection H2 as ->. exfalso. by eapply Hd.
        + f_equal. by eapply IH.
      - intros a Ha Hr. pose proof (Hrl a Ha) as Hre. destruct Hre as [|i n c _ Hn Hc]; [done|].
        apply elem_of_list_lookup in Hc as [k Hc]. exists i, k. by rewrite (chs_kids _ _ _ (kids_get _ _ _ Hn)), list_lookup_fmap, Hc.
      - intros m Hm. destruct (Hla (AInt m) Hm) as (d & ys & Hio & Hd & Hne). inversion Hio; subst.
        destruct (decide (AInt m = root t)) as [Hr|Hr]; [unfold lv; rewrite Hr, HhD; cbn; lia|].
        pose proof (Hlvd m _ ys Hio (Hne Hr) Hd). lia.
      - intros m Hm Hr _. apply get_kids in Hm as [n Hn]. rewrite (chs_kids _ _ _ (kids_get _ _ _ Hn)).
        pose proof (in_ne _ _ _ _ I _ _ Hn Hr). by destruct (n_children n).
      - intros m Hm. apply (in_old_in _ _ _ _ I). by apply get_kids.
      - intros l Hl. apply (in_old_lf _ _ _ _ I). by apply get_el. }
    assert (Vel : forall l e, el t l = Some e -> evalid L e).
    { intros l e He. apply (in_valid _ _ _ _ I l). by apply (in_leaf _ _ _ _ I). }
    assert (Vio : forall a d ys, InOrder t a d ys -> Forall (cvalid L) (ec ys)).
    { enough ((forall a d ys, InOrder t a d ys -> Forall (cvalid L) (ec ys)) /\ (forall r d ys, InOrders t r d ys -> Forall (cvalid L) (ec ys))) by tauto.
      apply InOrder_mut.
      - intros l lf Hl. cbn. constructor; [|constructor]. apply lw_get. apply (Vel l). unfold el. by rewrite Hl.
      - done.
      - constructor.
      - intros. rewrite ec_app. by apply Forall_app. }
    assert (Hagg : forall i n, a_get (in_nodes t) i = Some n -> forall c, c ∈ n_children n ->
      exists d ys, InOrder t (c_arena c) d ys /\ ys <> [] /\ c_cache c = agg L ys /\ cvalid L (c_cache c)).
    { intros i n Hn c Hc. assert (Reach t (c_arena c)) as Hr by (eapply rc_child; [apply (in_reach_in _ _ _ _ I)| |]; eauto).
      destruct (it_reach _ HD _ Hr) as (d & ys & Hio & _). pose proof (it_nonempty _ _ _ Hio (it_child_nr _ _ _ Hn Hc)) as Hne.
      pose proof (in_cache _ _ _ _ I _ _ _ _ _ Hn Hc Hio) as Ecc. exists d, ys. split_and!; try done. rewrite Ecc. unfold agg.
      apply lw_summ; [by eapply Vio|left]. by destruct ys. }
    assert (Hflat : forall i n d ys, a_get (in_nodes t) i = Some n -> InOrder t (AInt i) d ys -> n_children n <> [] \/ mono L = true ->
      agg L ys = act t (AInt i)).
    { intros i n d ys Hn Hio Hne. rewrite (act_int L _ _ _ (kids_get _ _ _ Hn)). inversion Hio as [|? n' d' ? Hn' Hios]; subst.
      assert (n' = n) as -> by congruence. specialize (Hagg i n Hn).
      assert (Forall (cvalid L) (map c_cache (n_children n))) as Fv.
      { apply Forall_forall. intros x (c & -> & Hc)%elem_of_list_fmap. by destruct (Hagg c Hc) as (? & ? & _ & _ & _ & ?). }
      assert (G : forall u, Forall (cvalid L) u -> summ L (u ++ map c_cache (n_children n)) = summ L (u ++ ec ys)); [|symmetry; by apply (G [])].
      clear Hio Hne Hn Hn'. revert d' ys Hios. induction (n_children n) as [|c cs IH]; intros d' ys Hios u Fu.
      - by inversion Hios.
      - inversion Hios as [|? ? ? us vs Hus Hvs]; subst. destruct (Hagg c) as (d1 & ys1 & H1 & Hne1 & Hcc & Hcv); [left|].
        rewrite (proj1 (io_det t) _ _ _ H1 _ _ Hus) in *. cbn [map] in *. rewrite Hcc, ec_app. unfold agg. fold (ec us).
        apply Forall_cons in Fv as [_ Fv]. rewrite lw_flat.
        + rewrite (app_assoc u), (IH ltac:(intros; apply Hagg; by right) Fv d' vs).
          * by rewrite <- app_assoc.
          * done.
          * apply Forall_app. split; [done|]. by eapply Vio.
        + rewrite !Forall_app. split_and!; [done|by eapply Vio|done].
        + left. by destruct us. }
    constructor.
    - done.
    - constructor; [done|]. intros r Hr. destruct (in_top _ _ _ _ I) as (r' & rn & Hr' & Hrn & Hp).
      assert (r' = r) as -> by congruence. exists (n_slot rn). unfold lnk. rewrite Hrn. cbn. by rewrite Hp.
    - intros i. unfold chs. destruct (kids t i) as [cs|] eqn:E; cbn; [|lia]. destruct (Hk _ _ E) as (n & Hn & <-).
      rewrite map_length. by apply (in_fan _ _ _ _ I i).
    - intros p cs c Hp Hc _. destruct (Hk _ _ Hp) as (n & Hn & <-). destruct (Hagg p n Hn c Hc) as (d & ys & Hio & Hne & -> & _).
      destruct (c_arena c) as [l|m] eqn:Ea.
      + inversion Hio as [? lf Hlf|]; subst. assert (el t l = Some (l_elem lf)) as Hel by (unfold el; by rewrite Hlf).
        rewrite (act_leaf L _ _ _ Hel). unfold agg. cbn. apply lw_one. apply lw_get. by eapply Vel.
      + pose proof (io_live _ _ _ _ Hio) as [mn Hmn]%get_kids. eapply Hflat; [done|done|left].
        apply (in_ne _ _ _ _ I _ _ Hmn). rewrite <- Ea. exact (it_child_nr p n c Hn Hc).
    - intros Hr. destruct (in_top _ _ _ _ I) as (r & rn & Hroot & Hrn & _). rewrite Hroot in *. cbn [raw] in Hr.
      rewrite (chs_kids _ _ _ (kids_get _ _ _ Hrn)) in Hr.
      rewrite (in_root_cache _ _ _ _ I).
      + eapply Hflat; [done|apply HD|]. destruct Hr as [Hr|]; [left|by right]. by destruct (n_children rn).
      + destruct Hr as [Hr|]; [left|by right]. destruct (n_children rn) as [|c cs] eqn:Ec; [done|].
        intros ->. destruct (Hagg r rn Hrn c) as (d & ys & Hio & Hne & _); [rewrite Ec; left|].
        inversion HD as [|? n' d' ? Hn' Hios]; subst. assert (n' = rn) as -> by congruence.
        destruct (ios_in _ _ _ _ Hios (c_arena c)) as (zs & Hz & Hs); [rewrite Ec; left|].
        rewrite (proj1 (io_det t) _ _ _ Hio _ _ Hz) in Hne. destruct zs as [|z zs]; [done|]. eapply not_elem_of_nil, Hs. left.
    - constructor; [done|]. intros p cs c Hp Hc. destruct (Hk _ _ Hp) as (n & Hn & <-). by destruct (Hagg p n Hn c Hc) as (? & ? & _ & _ & _ & ?).
  Qed.
Lemma Intact_content t d xs : Intact L t d xs -> Content t xs.
Proof. intros I. exists d. apply (in_order _ _ _ _ I). Qed.
Lemma OK_Tree t H lv : OK t H lv -> Tree L t (cont t H).
Proof. intros O. exists (S H). by eapply OK_Intact. Qed.
Lemma Tree_OK t xs : Tree L t xs -> exists H lv, OK t H lv /\ xs = cont t H.
Proof.
  intros [d I]. destruct (Intact_OK _ _ _ I) as (H & lv & O & Hio). exists H, lv. split; [done|]. eapply content_det.
  - by eapply Intact_content.
  - exists (S H). by eapply content_cont, ok_wt.
Qed.
Lemma Tree_elems t xs : Tree L t xs -> elems t = xs.
Proof. intros (H & lv & O & ->)%Tree_OK. by eapply elems_cont, ok_wt. Qed.
Theorem Tree_intact t xs : Tree L t xs -> exists d, Intact L t d xs.
Proof. done. Qed.
Lemma Tree_content t xs : Tree L t xs -> Content t xs.
Proof. intros [d I]. by eapply Intact_content. Qed.

(** ** the empty tree *)
Lemma OK_new : OK bt_new 0 (fun _ => 0).
Proof.
  assert (forall i, kids (@bt_new B) i = if decide (i = 0) then Some [] else None) as Hk.
  { intros i. unfold kids, bt_new, a_get, a_insert, a_new. cbn. case_decide as Hi; [by subst|].
    by rewrite lookup_insert_ne, lookup_empty by congruence. }
  assert (forall i, chs (@bt_new B) i = []) as Hc.
  { intros i. unfold chs. rewrite Hk. by case_decide. }
  assert (forall l, el (@bt_new B) l = None) as He by done.
  constructor.
  - constructor.
    + exists 0. rewrite Hk. split_and!; [done|eauto|done].
    + intros p k a. by rewrite Hc.
    + intros p k p' k' a. by rewrite Hc.
    + intros [l|m]; cbn [live]; [rewrite He; by intros [? ?]|]. rewrite Hk. case_decide; [subst|by intros [? ?]].
      intros _ Hr. by destruct Hr.
    + lia.
    + intros m. rewrite Hk. case_decide; [subst|by intros [? ?]]. intros _ Hr. by destruct Hr.
    + intros m. rewrite Hk. case_decide; [subst|by intros [? ?]]. cbn. lia.
    + intros l. rewrite He. by intros [? ?].
  - constructor.
    + intros p k a. by rewrite Hc.
    + intros r [= <-]. eexists. reflexivity.
  - intros i. rewrite Hc. cbn. lia.
  - intros p cs c. rewrite Hk. case_decide; [|done]. intros [= <-] Hx. by apply not_elem_of_nil in Hx.
  - intros [Hr|Hm]; [by rewrite Hc in Hr|]. cbn. by apply lw_default.
  - constructor; [by intros l e; rewrite He|]. intros p cs c. rewrite Hk. case_decide; [|done].
    intros [= <-] Hx. by apply not_elem_of_nil in Hx.
Qed.
Lemma MD_new w : MDw w (@bt_new B).
Proof.
  constructor.
  - intros m Hm Hr. exfalso. apply Hr. f_equal.
    unfold kids, bt_new, a_get, a_insert, a_new in Hm |- *. cbn in *. destruct (decide (m = 0)) as [->|]; [done|].
    rewrite lookup_insert_ne, lookup_empty in Hm by congruence. by destruct Hm.
  - intros m Hm. cbn in Hm. unfold chs, kids in Hm. cbn in Hm. by apply not_elem_of_nil in Hm.
Qed.
Lemma Tree_new : Tree L bt_new [].
Proof. exact (OK_Tree _ _ _ OK_new). Qed.

(** ** counting *)
Lemma leaf_count t xs : Tree L t xs -> a_len (leaf_nodes t) = length xs.
Proof.
  intros (H & lv & O & ->)%Tree_OK. pose proof (ok_wt _ _ _ _ O) as W.
  rewrite <- (map_length fst (cont t H)). change (map fst (cont t H)) with (cont t H).*1.
  unfold a_len. rewrite <- (size_list_to_set (C := gset nat)) by (by eapply cont_nodup).
  rewrite <- size_dom. f_equal. apply set_eq. intros l. rewrite elem_of_dom, elem_of_list_to_set.
  rewrite <- (elems_cont t H lv W). change ((elems t).*1) with (map fst (elems t)). rewrite (elems_fst W), (leaves_live W). unfold el, a_get. by rewrite fmap_is_Some.
Qed.

(** minimum degree 6 gives an exponential lower bound *)
Lemma gen_min t H lv : WT NoE t H lv -> MD t -> forall n m, is_Some (kids t m) -> AInt m <> root t -> lv m = n ->
  6 ^ S n <= length (gen t (S n) (AInt m)).
Proof.
  intros W M n. induction n as [|n IH]; intros m Hm Hr Hn; pose proof (md_in _ _ M m Hm Hr) as H6; cbn in H6.
  - cbn [gen achs]. rewrite bind_singleton_id. cbn. lia.
  - change (gen t (S (S n)) (AInt m)) with (chs t m ≫= gen t (S n)).
    assert (forall b, b ∈ chs t m -> 6 ^ S n <= length (gen t (S n) b)) as Hb.
    { intros b Hb. destruct (wt_int_child W m b Hb ltac:(lia)) as (j & -> & Hj).
      apply IH; [by apply (wt_live_child W) in Hb| |lia]. intros Hjr. rewrite <- Hjr in *.
      pose proof (wt_root_lv W) as Hl. rewrite <- Hjr in Hl. cbn in Hl. pose proof (wt_lv W m Hm). lia. }
    assert (forall r, (forall b, b ∈ r -> 6 ^ S n <= length (gen t (S n) b)) -> length r * 6 ^ S n <= length (r ≫= gen t (S n))) as G.
    { clear. induction r as [|b r IH]; intros Hb; [cbn; lia|]. rewrite bind_cons, app_length. cbn [length].
      pose proof (Hb b ltac:(left)). pose proof (IH ltac:(intros; apply Hb; by right)). lia. }
    pose proof (G _ Hb). pose proof (Nat.mul_le_mono_r 6 (length (chs t m)) (6 ^ S n) H6).
    rewrite (Nat.pow_succ_r' 6 (S n)). lia.
Qed.
Lemma cont_length t H lv : WT NoE t H lv -> length (cont t H) = length (gen t (S H) (root t)).
Proof.
  intros W. rewrite <- (map_length fst (cont t H)), <- (elems_cont t H lv W), (elems_fst W), (leaves_raw W). by rewrite map_length.
Qed.
Lemma depth_min t H lv : WT NoE t H lv -> MD t -> 0 < H -> cont t H <> [] -> 2 * 6 ^ H <= length (cont t H).
Proof.
  intros W M HH Hne. rewrite (cont_length t H lv W). destruct H as [|H]; [lia|].
  rewrite (wt_root_id W). change (gen t (S (S H)) (AInt (raw (root t)))) with (chs t (raw (root t)) ≫= gen t (S H)).
  assert (chs t (raw (root t)) <> []) as Hr.
  { intros Hr. apply Hne. unfold cont. rewrite (wt_root_id W). cbn [gen achs]. by rewrite Hr. }
  pose proof (wt_root_lv W) as Hrl.
  assert (forall b, b ∈ chs t (raw (root t)) -> 6 ^ S H <= length (gen t (S H) b) /\ exists j, b = AInt j) as Hb.
  { intros b Hb. destruct (wt_int_child W _ b Hb ltac:(lia)) as (j & -> & Hj). split; [|eauto].
    apply (gen_min t (S H) lv W M H); [by apply (wt_live_child W) in Hb| |lia].
    intros Hjr. rewrite <- Hjr in *. cbn in Hrl, Hj. lia. }
  assert (2 <= length (chs t (raw (root t)))) as H2.
  { destruct (chs t (raw (root t))) as [|b r] eqn:E; [done|]. destruct (Hb b) as [_ [j ->]]; [left|].
    rewrite <- E. apply (md_root _ _ M j). rewrite E. left. }
  assert (forall r, (forall b, b ∈ r -> 6 ^ S H <= length (gen t (S H) b)) -> length r * 6 ^ S H <= length (r ≫= gen t (S H))) as G.
  { clear. induction r as [|b r IH]; intros Hb; [cbn; lia|]. rewrite bind_cons, app_length. cbn [length].
    pose proof (Hb b ltac:(left)). pose proof (IH ltac:(intros; apply Hb; by right)). lia. }
  pose proof (G _ (fun b Hx => proj1 (Hb b Hx))).
  pose proof (Nat.mul_le_mono_r 2 (length (chs t (raw (root t)))) (6 ^ S H) H2). lia.
Qed.

(** five children off the left spine still give one *)
Lemma gen_min5 t H lv : WT NoE t H lv -> MDw true t -> forall n m, is_Some (kids t m) -> AInt m <> root t -> ~ SP t m -> lv m = n ->
  5 ^ S n <= length (gen t (S n) (AInt m)).
Proof.
  intros W M n. induction n as [|n IH]; intros m Hm Hr Hs Hn; pose proof (md_in _ _ M m Hm Hr) as [?|H5]; try done.
  - cbn [gen achs]. rewrite bind_singleton_id. cbn. lia.
  - change (gen t (S (S n)) (AInt m)) with (chs t m ≫= gen t (S n)).
    assert (forall b, b ∈ chs t m -> 5 ^ S n <= length (gen t (S n) b)) as Hb.
    { intros b Hb. destruct (wt_int_child W m b Hb ltac:(lia)) as (j & -> & Hj).
      apply IH; [by apply (wt_live_child W) in Hb| | |lia].
      - intros Hjr. rewrite <- Hjr in *. pose proof (wt_root_lv W) as Hl. rewrite <- Hjr in Hl. cbn in Hl. pose proof (wt_lv W m Hm). lia.
      - intros Hsj. destruct Hs. inversion Hsj as [Er|q j' Hq Hh Ej].
        + apply elem_of_list_lookup in Hb as [k Hk]. rewrite <- Er, <- (wt_root_id W) in Hk. by apply (wt_root_nochild W) in Hk.
        + subst j'. pose proof (head_Some_in _ _ Hh) as [k' Hk']%elem_of_list_lookup. apply elem_of_list_lookup in Hb as [k Hk].
          by destruct (wt_uniq W _ _ _ _ _ Hk Hk') as [-> _]. }
    assert (forall r, (forall b, b ∈ r -> 5 ^ S n <= length (gen t (S n) b)) -> length r * 5 ^ S n <= length (r ≫= gen t (S n))) as G.
    { clear. induction r as [|b r IH]; intros Hb; [cbn; lia|]. rewrite bind_cons, app_length. cbn [length].
      pose proof (Hb b ltac:(left)). pose proof (IH ltac:(intros; apply Hb; by right)). lia. }
    pose proof (G _ Hb). pose proof (Nat.mul_le_mono_r 5 (length (chs t m)) (5 ^ S n) H5).
    rewrite (Nat.pow_succ_r' 5 (S n)). lia.
Qed.
Lemma depth_min5 t H lv : WT NoE t H lv -> MDw true t -> 0 < H -> cont t H <> [] -> 5 ^ H < length (cont t H).
Proof.
  intros W M HH Hne. rewrite (cont_length t H lv W). destruct H as [|H]; [lia|].
  rewrite (wt_root_id W). change (gen t (S (S H)) (AInt (raw (root t)))) with (chs t (raw (root t)) ≫= gen t (S H)).
  assert (chs t (raw (root t)) <> []) as Hr.
  { intros Hr. apply Hne. unfold cont. rewrite (wt_root_id W). cbn [gen achs]. by rewrite Hr. }
  pose proof (wt_root_lv W) as Hrl.
  assert (forall b, b ∈ chs t (raw (root t)) -> exists j, b = AInt j /\ is_Some (kids t j) /\ lv j = H /\ AInt j <> root t) as Hb.
  { intros b Hb. destruct (wt_int_child W _ b Hb ltac:(lia)) as (j & -> & Hj). exists j. split; [done|].
    split; [by apply (wt_live_child W) in Hb|]. split; [lia|]. intros Hjr. rewrite <- Hjr in *. cbn in Hrl, Hj. lia. }
  pose proof (wt_nodup W (raw (root t))) as Hnd.
  assert (Hch : chs t (raw (root t)) = chs t (raw (root t))) by done.
  destruct (chs t (raw (root t))) as [|b1 [|b2 r]] eqn:E; [done| |].
  { destruct (Hb b1) as (j & -> & _); [left|]. pose proof (md_root _ _ M j) as H2. rewrite E in H2. specialize (H2 ltac:(left)). cbn in H2. lia. }
  destruct (Hb b1) as (j1 & -> & L1 & V1 & R1); [left|]. destruct (Hb b2) as (j2 & -> & L2 & V2 & R2); [right; left|].
  assert (~ SP t j2) as Hs.
  { intros Hs. inversion Hs as [Er|q j' Hq Hh Ej]; [by apply R2; rewrite <- Er, <- (wt_root_id W)|]. subst j'.
    pose proof (head_Some_in _ _ Hh) as [k' Hk']%elem_of_list_lookup.
    assert (chs t (raw (root t)) !! 1 = Some (AInt j2)) as Hk by (by rewrite E).
    destruct (wt_uniq W _ _ _ _ _ Hk Hk') as [<- _]. rewrite E in Hh. cbn in Hh. injection Hh as ->.
    apply NoDup_cons in Hnd as [Hn _]. apply Hn. left. }
  pose proof (gen_min5 t (S H) lv W M H j2 L2 R2 Hs V2) as G2.
  assert (1 <= length (gen t (S H) (AInt j1))) as G1.
  { destruct (gen t (S H) (AInt j1)) eqn:Eg; [|cbn; lia]. exfalso.
    apply (sub_ne W H j1); [|done|done]. apply (wt_ne W); [done|done|intros []]. }
  rewrite !bind_cons, !app_length. lia.
Qed.

(** ** check() *)
Lemma rall_ok {A} (f : A -> res unit) l : (forall x, x ∈ l -> f x = Ok tt) -> rall f l = Ok tt.
Proof. induction l as [|x l IH]; intros Hf; [done|]. cbn. rewrite Hf by left. cbn. apply IH. intros; apply Hf. by right. Qed.
Lemma calc_ok0 t H lv i n (c0 : Cache B) : OK t H lv -> a_get (in_nodes t) i = Some n -> n_children n <> [] \/ mono L = true ->
  exists d, calc_cache n c0 None = Ok (act t (AInt i), d).
Proof.
  intros O Hn Hne. pose proof (kids_get _ _ _ Hn) as Hk. pose proof (VA_kids L _ _ _ (ok_va _ _ _ _ O) Hk) as Hv.
  unfold calc_cache. rewrite (act_int L _ _ _ Hk).
  destruct (lw_calc B L c0 (map c_cache (n_children n)) Hv) as (d & Hd & _); [|eauto].
  destruct Hne as [Hne|]; [left|by right]. by destruct (n_children n).
Qed.
Lemma level_ok t H lv : WT NoE t H lv -> LK t -> forall n f i, is_Some (kids t i) -> H - lv i = n -> n < f ->
  level_f f t i = Ok (S n).
Proof.
  intros W K n. induction n as [|n IH]; intros f i Hi Hn Hf; (destruct f as [|f]; [lia|]); cbn [level_f].
  - destruct (decide (i = raw (root t))) as [->|Hr]; [done|]. exfalso.
    assert (AInt i <> root t) as Hr' by (intros Hx; apply Hr; by rewrite <- Hx).
    destruct (wt_up W (AInt i) Hi Hr') as (p & k & Hp). destruct (wt_ch W _ _ _ Hp) as [_ Hl]. cbn in Hl.
    pose proof (wt_lv W p (chs_lookup_live _ _ _ _ Hp)). lia.
  - rewrite decide_False.
    2:{ intros ->. pose proof (wt_root_lv W). lia. }
    assert (AInt i <> root t) as Hr'.
    { intros Hx. pose proof (wt_root_lv W) as Hl. rewrite <- Hx in Hl. cbn in Hl. lia. }
    destruct (wt_up W (AInt i) Hi Hr') as (p & k & Hp). destruct (wt_ch W _ _ _ Hp) as [_ Hl]. cbn in Hl.
    pose proof (lk_ch K _ _ _ Hp) as Hlk. cbn in Hlk. destruct (live_get_in t i Hi) as [nd Hg]. rewrite Hg. cbn.
    apply get_in_inv in Hg as [_ Hg]. rewrite Hlk in Hg. injection Hg as Hg _. rewrite <- Hg. cbn.
    rewrite (IH f p); [done|by eapply chs_lookup_live|lia|lia].
Qed.
Lemma get_path_live t H lv a : WT NoE t H lv -> LK t -> live t a -> H <= 8 -> exists r, get_path t a = Ok r.
Proof.
  intros W K Ha HH. destruct (rpath_exists W a Ha) as [r Hr]. exists (rev r).
  eapply get_path_ok; [done|done|done|]. pose proof (rpath_len W _ _ Hr). lia.
Qed.
Lemma check_ok t H lv : OK t H lv -> H <= 8 -> cont t H <> [] \/ mono L = true -> check t = Ok tt.
Proof.
  intros O HH Hne. pose proof (ok_wt _ _ _ _ O) as W. pose proof (ok_lk _ _ _ _ O) as K.
  pose proof (OK_Intact _ _ _ O) as I. unfold check.
  rewrite rall_ok; cbn [rbind].
  2:{ intros [i n] Hin. apply elem_of_map_to_list in Hin. change (a_get (in_nodes t) i = Some n) in Hin.
      pose proof (kids_get _ _ _ Hin) as Hk. unfold check_node.
      assert (bool_decide (i = raw (root t)) || negb (n_is_empty n) = true) as ->.
      { destruct (decide (i = raw (root t))); [by rewrite bool_decide_eq_true_2|]. apply orb_true_intro. right.
        assert (n_children n <> []) as Hx. { apply (in_ne _ _ _ _ I i n Hin). intros Hr. rewrite <- Hr in *. done. }
        unfold n_is_empty. by destruct (n_children n). }
      cbn [rassert rbind]. rewrite rall_ok; cbn [rbind].
      2:{ intros [k c] Hc. apply elem_of_lookup_imap in Hc as (k' & c' & [= -> ->] & Hc). unfold check_child.
          destruct (c_arena c') as [|m] eqn:Ea; [done|].
          assert (chs t i !! k' = Some (AInt m)) as Hkc by (rewrite (chs_kids _ _ _ Hk), list_lookup_fmap, Hc; cbn; by rewrite Ea).
          assert (is_child_leaf n = false) as ->.
          { unfold is_child_leaf. destruct (n_children n) as [|c0 cs0] eqn:En; [done|]. cbn.
            destruct (wt_ch W _ _ _ Hkc) as [_ Hl1]. cbn in Hl1.
            destruct (c_arena c0) eqn:Ec0; [|done]. exfalso.
            assert (chs t i !! 0 = Some (ALeaf i0)) as Hk0 by (rewrite (chs_kids _ _ _ Hk); cbn; by rewrite Ec0).
            destruct (wt_ch W _ _ _ Hk0) as [_ Hl2]. cbn in Hl2. lia. }
          cbn [negb rassert rbind].
          destruct (wt_ch W _ _ _ Hkc) as [Hm _]. apply get_kids in Hm as [cn Hcn].
          unfold get_in. rewrite Hcn. cbn [ropt rbind].
          destruct (in_up _ _ _ _ I i n k' c' m cn Hin Hc Ea Hcn) as [Hp Hs].
          assert (n_children cn <> []) as Hcne.
          { apply elem_of_list_lookup_2 in Hkc. pose proof (child_ne W _ _ Hkc) as Hx. rewrite (chs_kids _ _ _ (kids_get _ _ _ Hcn)) in Hx. by destruct (n_children cn). }
          destruct (calc_ok0 t H lv m cn cache_default O Hcn ltac:(by left)) as [d ->]. cbn [rbind].
          rewrite Hs, Hp. rewrite !bool_decide_eq_true_2 by done. cbn [rassert rbind].
          assert (c' ∈ n_children n) as Hcin by (by eapply elem_of_list_lookup_2).
          rewrite (ok_co _ _ _ _ O i _ c' Hk Hcin ltac:(tauto)), Ea. by rewrite (lw_eqb B L). }
      destruct (decide (AInt i = root t)) as [Hr|Hr].
      { destruct (in_top _ _ _ _ I) as (r & rn & Hroot & Hrn & Hpn). rewrite Hroot in Hr. injection Hr as <-.
        assert (rn = n) as -> by congruence. rewrite Hpn, Hroot. cbn. by rewrite bool_decide_eq_true_2. }
      assert (live t (AInt i)) as Hl by (cbn; rewrite Hk; eauto).
      destruct (wt_up W (AInt i) Hl Hr) as (p & k & Hp).
      destruct (chs_lookup _ _ _ _ Hp) as (cs & c & Hkp & Hc & Ha).
      destruct (get_in_kids t p cs Hkp) as (po & s' & Hg & _).
      assert (n_parent n = Some (AInt p) /\ n_slot n = k) as [-> ->].
      { unfold get_in in Hg. destruct (a_get (in_nodes t) p) as [pn|] eqn:Ep; [|done]. cbn in Hg. injection Hg as ->.
        by apply (in_up _ _ _ _ I p _ k c i n Ep). }
      unfold get_internal. cbn [unwrap_internal rbind]. rewrite Hg. cbn [rbind n_children]. unfold vec_get. rewrite Hc. cbn [ropt rbind].
      rewrite bool_decide_eq_true_2 by done. cbn [rassert rbind].
      by destruct (get_path_live t H lv _ W K Hl HH) as [r ->]. }
  rewrite (wt_root_id W). unfold get_internal. cbn [unwrap_internal rbind].
  destruct (wt_root_live W) as [cs Hk]. destruct (get_in_kids t _ _ Hk) as (po & s & Hg & _). rewrite Hg. cbn [rbind].
  assert (chs t (raw (root t)) <> [] \/ mono L = true) as Hr.
  { destruct Hne as [Hx|]; [left|by right]. intros He. apply Hx. unfold cont. cbn [gen]. rewrite (wt_root_id W). cbn. by rewrite He. }
  destruct (calc_ok0 t H lv (raw (root t)) (mkNode po s cs) cache_default O) as [d Hd].
  { unfold get_in in Hg. destruct (a_get (in_nodes t) (raw (root t))); [|done]. cbn in Hg. congruence. }
  { destruct Hr as [Hr|]; [left|by right]. rewrite (chs_kids _ _ _ Hk) in Hr. cbn. by destruct cs. }
  rewrite Hd. cbn [rbind]. rewrite (ok_rc _ _ _ _ O Hr). rewrite (wt_root_id W) at 1. cbn [raw]. rewrite (lw_eqb B L). cbn [rassert rbind].
  assert (forall ls lev, (forall l lf, (l, lf) ∈ ls -> a_get (leaf_nodes t) l = Some lf) -> (lev = None \/ lev = Some (S H)) ->
    check_leaves t ls lev = Ok tt) as G.
  2:{ apply G; [|by left]. intros l lf Hl. by apply elem_of_map_to_list in Hl. }
  induction ls as [|[l lf] ls IH]; intros lev Hls Hlev; [done|]. cbn [check_leaves].
  assert (a_get (leaf_nodes t) l = Some lf) as Hlf by (apply Hls; left).
  assert (el t l = Some (l_elem lf)) as Hel by (unfold el; by rewrite Hlf).
  destruct (leaf_at W K _ _ Hel) as (p & cs' & k & c & Hlp & Hkp & Hc & Hac & Hlv & Hget & Hck).
  assert (l_parent lf = p) as ->. { unfold llnk in Hlp. rewrite Hlf in Hlp. cbn in Hlp. congruence. }
  assert (is_Some (kids t p)) as Hpl by (rewrite Hkp; eauto).
  rewrite (level_ok t H lv W K H); [|done|lia|].
  2:{ pose proof (wt_height_bound W) as Hb. unfold fuel. assert (chs t (raw (root t)) <> []) as Hne2.
      { intros He. apply (cont_in l _ W) in Hel. unfold cont in Hel. cbn [gen] in Hel. rewrite (wt_root_id W) in Hel. cbn in Hel. rewrite He in Hel.
        by apply not_elem_of_nil in Hel. }
      specialize (Hb Hne2). lia. }
  cbn [rbind].
  assert ((match lev with Some e => let? _ := rassert (bool_decide (S H = e)) in Ok e | None => Ok (S H) end) = Ok (S H)) as ->.
  { destruct Hlev as [->| ->]; [done|]. by rewrite bool_decide_eq_true_2. }
  cbn [rbind]. destruct (get_in_kids t p cs' Hkp) as (po' & s' & Hg' & _). rewrite Hg'. cbn [rbind n_children].
  assert (leaf_slot_from cs' l 0 = Ok k) as ->.
  { destruct (at_leaf_ok t H lv l _ W K Hel) as (p2 & A & c2 & Z & AL). pose proof AL as (Hk2 & Ha2 & _ & _ & Hl2 & _ & _ & Hsl & _).
    rewrite Hlp in Hl2. injection Hl2 as <-. rewrite Hkp in Hk2. injection Hk2 as ->. 
    assert (chs t p !! length A = Some (ALeaf l)) as Hk3.
    { rewrite (chs_kids _ _ _ Hkp), map_app. cbn. rewrite <- (map_length c_arena A). rewrite Ha2. by apply list_lookup_middle. }
    destruct (wt_uniq W _ _ _ _ _ Hck Hk3) as [_ ->]. exact Hsl. }
  cbn [rbind]. unfold vec_get. rewrite Hc. cbn [ropt rbind].
  rewrite (ok_co _ _ _ _ O p _ c Hkp ltac:(by eapply elem_of_list_lookup_2) ltac:(tauto)), Hac.
  rewrite (act_leaf L _ _ _ Hel), (lw_eqb B L). cbn [rassert rbind].
  destruct (get_path_live t H lv (ALeaf l) W K) as [r ->]; [cbn; rewrite Hel; eauto|done|]. cbn [rbind].
  apply IH; [|by right]. intros; apply Hls. by right.
Qed.
End bridge.
