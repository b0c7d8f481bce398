(** Prune.v — a tree with a set of leaves removed: the shape reached by dropping a drain. *)
From Verif Require Export Upd.

Section prune.
Context {B : BTreeTrait} (L : Lawful B).
Notation btree := (btree B).
Notation child := (child B).
Notation CO := (CO L).
Notation RC := (RC L).
Notation VA := (VA L).
Notation act := (act L).
Notation OK := (OK L).
Implicit Types (t : btree) (i j m p q k s : nat) (a b : aidx) (c : child) (cs : list child).

(** leaves below a node *)
Definition lun t (lv : nat -> nat) a : list nat := map raw (gen t (alv lv a) a).

Section lu.
  Context {t : btree} {H : nat} {lv : nat -> nat} (W : WT NoE t H lv).
  Notation lu := (lun t lv).
  Lemma lu_leaf l : lu (ALeaf l) = [l].
  Proof. done. Qed.
  Lemma lu_gen a : live t a -> map ALeaf (lu a) = gen t (alv lv a) a.
  Proof.
    intros Ha. unfold lun. rewrite map_map. rewrite <- (map_id (gen t (alv lv a) a)) at 2.
    apply map_ext_in. intros b Hb. apply elem_of_list_In in Hb.
    apply (gen_live W) in Hb as [_ Hb]; [|done]. destruct b; [done|cbn in Hb; lia].
  Qed.
  Lemma lu_int p : is_Some (kids t p) -> lu (AInt p) = chs t p ≫= lu.
  Proof.
    intros Hp. unfold lun. cbn [alv gen achs].
    assert (Hc : forall a, a ∈ chs t p -> lv p = alv lv a).
    { intros a [k Hk]%elem_of_list_lookup. by apply (wt_ch W) in Hk as [_ ?]. }
    revert Hc. generalize (chs t p) as l. induction l as [|a l IH]; intros Hc; [done|]. cbn.
    rewrite map_app, IH by (intros; apply Hc; by right). by rewrite <- (Hc a) by left.
  Qed.
  Lemma lu_root : lu (root t) = leaves t.
  Proof. unfold lun. by rewrite (alv_root W), (leaves_raw W). Qed.
  Lemma lu_ne a : live t a -> a <> root t -> lu a <> [].
  Proof.
    intros Ha Hr He. assert (forall n b, alv lv b = n -> live t b -> b <> root t -> lu b <> []) as HH; [|by eapply HH].
    clear -W. induction n as [|n IH]; intros b Hn Hb Hr.
    - destruct b; [done|cbn in Hn; lia].
    - destruct b as [|m]; [done|]. rewrite lu_int by done. cbn in Hn, Hb.
      pose proof (wt_ne W m Hb Hr ltac:(intros [])) as Hne. destruct (chs t m) as [|c l] eqn:Ec; [done|].
      assert (c ∈ chs t m) as Hc by (rewrite Ec; left). pose proof (wt_live_child W _ _ Hc) as Hlc.
      apply elem_of_list_lookup in Hc as [k Hc]. pose proof (wt_ch W _ _ _ Hc) as [_ Hlv].
      cbn. intros [Hz _]%app_nil. revert Hz. apply IH; [lia|done|]. intros ->. by apply (wt_root_nochild W) in Hc.
  Qed.
  Lemma lu_row n : n <= S H -> leaves t = gen t n (root t) ≫= lu.
  Proof.
    intros Hn. rewrite (leaves_raw W). replace (S H) with (n + (S H - n)) by lia. rewrite gen_app.
    assert (Hl : forall a, a ∈ gen t n (root t) -> S H - n = alv lv a).
    { intros a Ha. apply (row_live W) in Ha as [_ ?]. lia. }
    revert Hl. generalize (gen t n (root t)) as l. induction l as [|a l IH]; intros Hl; [done|]. cbn.
    rewrite map_app, IH by (intros; apply Hl; by right). unfold lun. by rewrite <- (Hl a) by left.
  Qed.
  Lemma lu_seg a : live t a -> exists X Y, leaves t = X ++ lu a ++ Y.
  Proof.
    intros Ha. assert (alv lv a <= S H) as Hle.
    { destruct a as [|m]; cbn; [lia|]. pose proof (wt_lv W m Ha). lia. }
    pose proof (gen_complete W (S H - alv lv a) a Ha ltac:(lia)) as Hin.
    apply elem_of_list_split in Hin as (X & Y & Hx).
    rewrite (lu_row (S H - alv lv a)) by lia. rewrite Hx, bind_app. cbn. eauto.
  Qed.
  Lemma lu_pair a b : live t a -> live t b -> alv lv a = alv lv b -> a <> b ->
    exists X Y Z, leaves t = X ++ lu a ++ Y ++ lu b ++ Z \/ leaves t = X ++ lu b ++ Y ++ lu a ++ Z.
  Proof.
    intros Ha Hb Hab Hne. assert (alv lv a <= S H) as Hle.
    { destruct a as [|m]; cbn; [lia|]. pose proof (wt_lv W m Ha). lia. }
    pose proof (gen_complete W (S H - alv lv a) a Ha ltac:(lia)) as Hin.
    pose proof (gen_complete W (S H - alv lv a) b Hb ltac:(lia)) as Hin2.
    apply elem_of_list_split in Hin as (X & Y & Hx). rewrite Hx in Hin2.
    rewrite (lu_row (S H - alv lv a)) by lia. rewrite Hx.
    apply elem_of_app in Hin2 as [(X1 & X2 & ->)%elem_of_list_split|[?|(Y1 & Y2 & ->)%elem_of_list_split]%elem_of_cons]; [|congruence|].
    - exists (X1 ≫= lu), (X2 ≫= lu), (Y ≫= lu). right. rewrite !bind_app. cbn. rewrite <- !app_assoc. done.
    - exists (X ≫= lu), (Y1 ≫= lu), (Y2 ≫= lu). left. rewrite !bind_app. cbn. rewrite ?bind_app. done.
  Qed.
  Lemma lu_live a l : live t a -> l ∈ lu a -> is_Some (el t l).
  Proof.
    intros Ha Hl. destruct (lu_seg a Ha) as (X & Y & E). apply (leaves_live W). rewrite E. set_solver.
  Qed.
End lu.

(** removing the leaves [M] *)
Section keep.
  Context (t : btree) (lv : nat -> nat) (M : list nat).
  Definition kpn a : Prop := Exists (fun l => l ∉ M) (lun t lv a).
  Global Instance kp_dec a : Decision (kpn a).
  Proof. apply Exists_dec. intros x. apply _. Defined.
  Definition kpcn c : Prop := kpn (c_arena c).
  Global Instance kpc_dec c : Decision (kpcn c) := kp_dec (c_arena c).
  Definition fkn a : Prop := Forall (fun l => l ∉ M) (lun t lv a).

  (** the tree [T] is [t] without the leaves [M] and the inner nodes left without leaves *)
  Record PR (T : btree) : Prop := {
    pr_root : root T = root t;
    pr_kids : forall i, kids T i = if decide (AInt i = root t \/ kpn (AInt i)) then filter kpcn <$> kids t i else None;
    pr_el : forall l, el T l = if decide (l ∈ M) then None else el t l;
    pr_lk : LK T;
    pr_an : anext (in_nodes T) = anext (in_nodes t);
    pr_al : anext (leaf_nodes T) = anext (leaf_nodes t);
  }.
End keep.
Arguments pr_root {t lv M T} _.
Arguments pr_kids {t lv M T} _ _.
Arguments pr_el {t lv M T} _ _.
Arguments pr_lk {t lv M T} _.
Arguments pr_an {t lv M T} _.
Arguments pr_al {t lv M T} _.

Section pr.
  Context {t : btree} {H : nat} {lv : nat -> nat} (W : WT NoE t H lv) (M : list nat).
  Notation kp := (kpn t lv M).
  Notation kpc := (kpcn t lv M).
  Notation fk := (fkn t lv M).
  Notation lu := (lun t lv).

  Lemma kp_leaf l : kp (ALeaf l) <-> l ∉ M.
  Proof. unfold kpn. rewrite lu_leaf. by rewrite Exists_cons, Exists_nil; intuition. Qed.
  Lemma kp_int p : is_Some (kids t p) -> kp (AInt p) <-> exists a, a ∈ chs t p /\ kp a.
  Proof.
    intros Hp. unfold kpn. rewrite (lu_int W) by done. rewrite Exists_exists. split.
    - intros (l & (a & Hl & Ha)%elem_of_list_bind & HM). exists a. split; [done|]. apply Exists_exists. eauto.
    - intros (a & Ha & (l & Hl & HM)%Exists_exists). exists l. split; [|done]. apply elem_of_list_bind. eauto.
  Qed.
  Lemma kp_child p a : a ∈ chs t p -> kp a -> kp (AInt p).
  Proof.
    intros Ha Hk. apply kp_int; [|eauto]. apply chs_live. intros E. rewrite E in Ha. by apply elem_of_nil in Ha.
  Qed.
  Lemma filter_arena cs : map c_arena (filter kpc cs) = filter kp (map c_arena cs).
  Proof.
    induction cs as [|c cs IH]; [done|]. cbn [map]. rewrite !filter_cons. unfold kpcn at 1.
    destruct (decide (kpc c)) as [D|D]; destruct (decide (kp (c_arena c))) as [D'|D']; try (by exfalso).
    - cbn. by rewrite IH.
    - done.
  Qed.
  Lemma fk_kp a : live t a -> a <> root t -> fk a -> kp a.
  Proof.
    intros Ha Hr Hf. pose proof (lu_ne W a Ha Hr) as Hne. unfold kpn, fkn in *.
    destruct (lu a) as [|x l]; [done|]. inversion Hf; subst. by constructor.
  Qed.
  Lemma fk_child p a : a ∈ chs t p -> fk (AInt p) -> fk a.
  Proof.
    intros Ha. unfold fkn. rewrite (lu_int W). 2:{ apply chs_live. intros E. rewrite E in Ha. by apply elem_of_nil in Ha. }
    rewrite !Forall_forall. intros Hf l Hl. apply Hf. apply elem_of_list_bind. eauto.
  Qed.

  Context {T : btree} (P : PR t lv M T).
  Lemma pr_chs i : chs T i = if decide (AInt i = root t \/ kp (AInt i)) then filter kp (chs t i) else [].
  Proof.
    unfold chs. rewrite (pr_kids P). case_decide; [|done]. destruct (kids t i); [|done]. cbn. apply filter_arena.
  Qed.
  Lemma pr_ch p k a : chs T p !! k = Some a -> a ∈ chs t p /\ kp a /\ (AInt p = root t \/ kp (AInt p)).
  Proof.
    rewrite pr_chs. case_decide; [|done]. intros Hx%elem_of_list_lookup_2. apply elem_of_list_filter in Hx as [? ?]. tauto.
  Qed.
  Lemma pr_live a : live T a <-> live t a /\ (a = root t \/ kp a).
  Proof.
    destruct a as [l|i]; cbn.
    - rewrite (pr_el P), kp_leaf. case_decide as D.
      + split; [by intros []|]. intros [_ [Hx|?]]; [|done]. by rewrite (wt_root_id W) in Hx.
      + split; [intros ?; split; [done|by right]|by intros [? _]].
    - rewrite (pr_kids P). case_decide as D; [rewrite fmap_is_Some; tauto|].
      split; [by intros []|]. intros [_ ?]. tauto.
  Qed.
  Lemma pr_WT : WT NoE T H lv.
  Proof.
    assert (Hsub : forall p k a, chs T p !! k = Some a -> exists k', chs t p !! k' = Some a).
    { intros p k a (Ha & _)%pr_ch. by apply elem_of_list_lookup in Ha. }
    constructor.
    - destruct (wt_root W) as (r & Er & Hr & Hlv). exists r. rewrite (pr_root P). split; [done|]. split; [|done].
      apply (pr_live (AInt r)). split; [done|]. left. by rewrite Er.
    - intros p k a Hk. pose proof (pr_ch _ _ _ Hk) as (Hin & Ha & _). apply Hsub in Hk as [k' Hk].
      apply (wt_ch W) in Hk as [Hl ?]. split; [|done]. apply pr_live. auto.
    - intros p k p' k' a Hk Hk'. destruct (Hsub _ _ _ Hk) as [j Hj]. destruct (Hsub _ _ _ Hk') as [j' Hj'].
      destruct (wt_uniq W _ _ _ _ _ Hj Hj') as [-> _]. split; [done|].
      assert (NoDup (chs T p')) as Hnd.
      { rewrite pr_chs. case_decide; [|constructor]. apply NoDup_filter, (wt_nodup W). }
      by eapply NoDup_lookup.
    - intros a Ha Hr. rewrite (pr_root P) in Hr. apply pr_live in Ha as [Ha [?|Hk]]; [done|].
      destruct (wt_up W a Ha Hr) as (p & k & Hp). apply elem_of_list_lookup_2 in Hp.
      assert (a ∈ chs T p) as [k' Hx]%elem_of_list_lookup; [|eauto].
      rewrite pr_chs. rewrite decide_True by (right; by eapply kp_child). apply elem_of_list_filter. done.
    - intros m Hm. apply (pr_live (AInt m)) in Hm as [Hm _]. by apply (wt_lv W).
    - intros m Hm Hr _. rewrite (pr_root P) in Hr. apply (pr_live (AInt m)) in Hm as [Hm [?|Hk]]; [done|].
      rewrite pr_chs. rewrite decide_True by by right. apply kp_int in Hk as (a & Ha & Hk); [|done].
      intros Hz. assert (a ∈ filter kp (chs t m)) as Hx by (by apply elem_of_list_filter). rewrite Hz in Hx. by apply elem_of_nil in Hx.
    - intros m Hm. rewrite (pr_an P). apply (pr_live (AInt m)) in Hm as [Hm _]. by apply (wt_fresh W).
    - intros l Hl. rewrite (pr_al P). apply (pr_live (ALeaf l)) in Hl as [Hl _]. by apply (wt_lfresh W).
  Qed.
  Lemma pr_gen n : forall a, live t a -> n <= alv lv a -> (a = root t \/ kp a) -> gen T (S n) a = filter kp (gen t (S n) a).
  Proof.
    assert (Hnk : forall n a, live t a -> ~ kp a -> filter kp (gen t n a) = []).
    { clear -W. intros n a Ha Hk.
      destruct (filter kp (gen t n a)) as [|b l] eqn:E; [done|exfalso].
      assert (b ∈ filter kp (gen t n a)) as [Hb Hin]%elem_of_list_filter by (rewrite E; left).
      apply Hk. clear Hk E. revert a Ha b Hb Hin. induction n as [|n IH]; intros a Ha b Hb Hin; cbn in Hin.
      - by apply elem_of_list_singleton in Hin as ->.
      - apply elem_of_list_bind in Hin as (c & Hc & Hin). destruct a as [l0|m]; cbn in Hin; [by apply elem_of_nil in Hin|].
        eapply kp_child; [exact Hin|]. eapply IH; [|exact Hb|exact Hc]. by eapply wt_live_child. }
    assert (Hbind : forall (l : list aidx) (f g : aidx -> list aidx), (forall a, a ∈ l -> kp a -> f a = filter kp (g a)) ->
      (forall a, a ∈ l -> ~ kp a -> filter kp (g a) = []) -> filter kp l ≫= f = filter kp (l ≫= g)).
    { clear. induction l as [|a l IH]; intros f g H1 H2; [done|]. cbn [mbind list_bind]. rewrite filter_app, filter_cons.
      destruct (decide (kp a)) as [D|D].
      - cbn. rewrite (H1 a) by (done || left). f_equal. apply IH; intros; [apply H1|apply H2]; by try right.
      - rewrite (H2 a) by (done || left). cbn. apply IH; intros; [apply H1|apply H2]; by try right. }
    induction n as [|n IH]; intros a Ha Hn Hk.
    - cbn [gen]. destruct a as [l|m]; [done|]. cbn [achs]. rewrite pr_chs, decide_True by done.
      apply Hbind; [|intros b Hb Hnb; by apply (Hnk 0); [eapply wt_live_child|]].
      intros b Hb Hkb. rewrite filter_cons, decide_True; done.
    - destruct a as [l|m]; [done|]. cbn [gen achs]. rewrite pr_chs, decide_True by done.
      apply Hbind; [|intros b Hb Hnb; by apply (Hnk (S n)); [eapply wt_live_child|]].
      intros b Hb Hkb. apply IH; [by eapply wt_live_child| |by right].
      apply elem_of_list_lookup in Hb as [k Hb]. apply (wt_ch W) in Hb as [_ Hb]. cbn in Hn. lia.
  Qed.
  Lemma pr_leaves : leaves T = filter (fun l => l ∉ M) (leaves t).
  Proof.
    rewrite (leaves_raw pr_WT), (pr_root P). rewrite pr_gen; [|apply (root_live W)|rewrite (alv_root W); lia|by left].
    rewrite <- (leaves_gen W). generalize (leaves t) as l. induction l as [|x l IH]; [done|]. cbn [map].
    rewrite !filter_cons. destruct (decide (x ∉ M)) as [D|D].
    - rewrite decide_True by by apply kp_leaf. cbn. by rewrite IH.
    - rewrite decide_False; [done|]. by rewrite kp_leaf.
  Qed.
  Lemma pr_SZ n : SZ t n -> SZ T n.
  Proof.
    intros Z i. rewrite pr_chs. case_decide; [|cbn; lia].
    etransitivity; [|apply (Z i)]. apply filter_length.
  Qed.
  Lemma pr_VA : VA t -> VA T.
  Proof.
    intros V. constructor.
    - intros l e. rewrite (pr_el P). case_decide; [done|]. apply V.
    - intros p cs c. rewrite (pr_kids P). case_decide; [|done]. intros (cs0 & E & ->)%fmap_Some_1.
      intros [_ Hc]%elem_of_list_filter. by eapply va_ch.
  Qed.
  (** entries go stale only above both a removed and a kept leaf *)
  Definition stale a : Prop := exists m, a = AInt m /\ (exists x, x ∈ lu a /\ x ∈ M) /\ (exists y, y ∈ lu a /\ y ∉ M).
  Lemma pr_CO : CO t (fun _ => False) -> CO T stale.
  Proof.
    intros C p cs c Hk Hc Hn. rewrite (pr_kids P) in Hk. case_decide as D; [|done].
    apply fmap_Some_1 in Hk as (cs0 & E & ->). apply elem_of_list_filter in Hc as [Hkc Hc].
    rewrite (C p cs0 c E Hc) by tauto. assert (c_arena c ∈ chs t p) as Hin.
    { rewrite (chs_kids _ _ _ E). by apply elem_of_list_fmap_1. }
    destruct (c_arena c) as [l|m] eqn:Ea; unfold Law.act.
    - rewrite (pr_el P), decide_False; [done|]. apply kp_leaf. unfold kpcn in Hkc. by rewrite Ea in Hkc.
    - rewrite (pr_kids P). unfold kpcn in Hkc. rewrite Ea in Hkc. rewrite decide_True by by right.
      assert (is_Some (kids t m)) as [csm Hm] by (apply (wt_live_child W _ _ Hin)). rewrite Hm. cbn.
      rewrite filter_all; [done|]. intros c' Hc'. unfold kpcn.
      assert (c_arena c' ∈ chs t m) as Hin'. { rewrite (chs_kids _ _ _ Hm). by apply elem_of_list_fmap_1. }
      assert (c_arena c' <> root t) as Hr'.
      { intros Hr. apply elem_of_list_lookup in Hin' as [k' Hin']. rewrite Hr in Hin'. by apply (wt_root_nochild W) in Hin'. }
      apply fk_kp; [by eapply wt_live_child|done|]. eapply fk_child; [exact Hin'|].
      apply Forall_forall. intros x Hx HM. apply Hn. exists m. split; [done|]. split; [eauto|].
      apply Exists_exists in Hkc as (y & Hy & Hy'). eauto.
  Qed.
End pr.
End prune.
