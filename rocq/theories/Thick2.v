(** Thick2.v — drain keeps the tree thick: the underflow handling along the two cut paths gives
    every node below the left spine five or more children again. *)
From Verif Require Export Drain5 Flat Thick.

Section ab.
Context {B : BTreeTrait} (L : Lawful B).
Notation btree := (btree B).
Notation child := (child B).
Notation OK := (OK L).
Notation RD := (RD L).
Implicit Types (t : btree) (i j m n p q k z : nat) (a b : aidx) (c : child) (cs : list child).

(** the leaf [z] is below the node [m] *)
Inductive Ab t z : nat -> Prop :=
| Ab_leaf m : ALeaf z ∈ chs t m -> Ab t z m
| Ab_int m j : AInt j ∈ chs t m -> Ab t z j -> Ab t z m.
Definition AbZ (Z : nat -> Prop) t m : Prop := exists z, Z z /\ Ab t z m.

Lemma Ab_SH t t' z m : SH t t' -> Ab t z m -> Ab t' z m.
Proof.
  intros S. induction 1 as [m Hm|m j Hj _ IH]; [apply Ab_leaf; by rewrite (sh_chs S)|].
  apply (Ab_int _ _ _ j); [by rewrite (sh_chs S)|done].
Qed.
Lemma Ab_live t z m : Ab t z m -> is_Some (kids t m).
Proof. destruct 1 as [m Hm|m j Hj _]; apply chs_live; intros E; [rewrite E in Hm|rewrite E in Hj]; by eapply elem_of_nil. Qed.
Lemma lun_Ab t H lv z : WT NoE t H lv -> forall n m, lv m = n -> is_Some (kids t m) -> z ∈ lun t lv (AInt m) -> Ab t z m.
Proof.
  intros W. induction n as [|n IH]; intros m Hn Hm Hin; rewrite (lu_int W) in Hin by done;
    apply elem_of_list_bind in Hin as (a & Hxa & Ha).
  - destruct (wt_leaf_child W _ _ Ha Hn) as [l ->]. cbn in Hxa. apply elem_of_list_singleton in Hxa as ->. by apply Ab_leaf.
  - destruct (wt_int_child W _ _ Ha) as (m' & -> & Hlv); [lia|]. apply (Ab_int _ _ _ m'); [done|]. apply IH; [lia| |done].
    apply (wt_live_child W _ _ Ha).
Qed.

Lemma grand_in (f : list aidx) t a : a ∈ f ≫= achs t -> exists m, AInt m ∈ f /\ a ∈ chs t m.
Proof. intros (b & Hb & Hf)%elem_of_list_bind. destruct b as [|m]; [by apply elem_of_nil in Hb|]. eauto. Qed.
Lemma rd_g t t' p l old new r : RD t t' p l old new r -> map c_arena new ≫= achs t' = map c_arena old ≫= achs t.
Proof. intros R. rewrite <- !kidl_chs. by rewrite (rd_grand _ _ _ _ _ _ _ _ R). Qed.

Lemma rd_Ab E t t' H lv p l old new r z m : WT E t H lv -> 0 < lv p -> RD t t' p l old new r -> Ab t z m ->
  (AInt m ∈ map c_arena old -> exists n, AInt n ∈ map c_arena new /\ Ab t' z n) /\
  (AInt m ∉ map c_arena old -> Ab t' z m).
Proof.
  intros W Hlp R HA.
  assert (Hup : forall m a, AInt m ∈ map c_arena old -> a ∈ chs t m -> exists n, AInt n ∈ map c_arena new /\ a ∈ chs t' n).
  { intros m0 a Hm Ha. apply grand_in. rewrite (rd_g _ _ _ _ _ _ _ R). apply elem_of_list_bind. by exists (AInt m0). }
  assert (Hsame : forall m a, a ∈ chs t m -> m <> p -> AInt m ∉ map c_arena old -> chs t' m = chs t m).
  { intros m0 a Ha Hmp Hmo. unfold chs. rewrite (rd_other _ _ _ _ _ _ _ _ R); [done|done|done|].
    intros Hn. apply Hmo, (rd_new_old L R _ Hn). apply chs_live. intros E0. rewrite E0 in Ha. by apply elem_of_nil in Ha. }
  induction HA as [m Hm|m j Hj HA IH].
  - split.
    + intros Hmo. destruct (Hup _ _ Hmo Hm) as (n & Hn & Ha). exists n. split; [done|]. by apply Ab_leaf.
    + intros Hmo. apply Ab_leaf. rewrite (Hsame m (ALeaf z)); [done|done| |done]. intros ->.
      apply elem_of_list_lookup in Hm as [k Hk]. pose proof (wt_ch W _ _ _ Hk) as [_ Hv]. cbn in Hv. lia.
  - split.
    + intros Hmo. destruct (Hup _ _ Hmo Hj) as (n & Hn & Ha). exists n. split; [done|]. apply (Ab_int _ _ _ j); [done|]. apply IH.
      intros Hjo. destruct (rd_old_int L W Hlp R _ Hjo) as (j' & [= <-] & Hv1 & _). destruct (rd_old_int L W Hlp R _ Hmo) as (m' & [= <-] & Hv2 & _).
      apply elem_of_list_lookup in Hj as [k Hk]. pose proof (wt_ch W _ _ _ Hk) as [_ Hv]. cbn in Hv. lia.
    + intros Hmo. destruct (decide (m = p)) as [->|Hmp].
      * destruct (decide (AInt j ∈ map c_arena old)) as [Hjo|Hjo].
        -- destruct (proj1 IH Hjo) as (n & Hn & Ha). apply (Ab_int _ _ _ n); [|done]. rewrite (rd_chs' L R). clear -Hn; set_solver.
        -- apply (Ab_int _ _ _ j); [|by apply IH]. rewrite (rd_chs L R) in Hj. rewrite (rd_chs' L R). clear -Hj Hjo; set_solver.
      * apply (Ab_int _ _ _ j); [by rewrite (Hsame m (AInt j))|]. apply IH. intros Hjo. apply (rd_old_in L R) in Hjo.
        apply elem_of_list_lookup in Hjo as [k1 H1]. apply elem_of_list_lookup in Hj as [k2 H2]. by destruct (wt_uniq W _ _ _ _ _ H1 H2).
Qed.

(** a chain of nodes, each the child of the one before *)
Fixpoint chain t p (xs : list aidx) : Prop :=
  match xs with [] => True | AInt m :: xs' => AInt m ∈ chs t p /\ chain t m xs' | ALeaf _ :: _ => False end.
Lemma chain_low t t' H lv n xs : WT NoE t H lv -> (forall j, lv j < n -> kids t' j = kids t j) -> forall p, lv p < n -> chain t p xs -> chain t' p xs.
Proof.
  intros W Hk. induction xs as [|a xs IH]; intros p Hp; [done|]. destruct a as [|m]; [done|]. cbn. intros [H1 H2].
  split; [unfold chs; by rewrite Hk|]. apply IH; [|done]. apply elem_of_list_lookup in H1 as [k H1]. apply (wt_ch W) in H1 as [_ Hv]. cbn in Hv. lia.
Qed.
Lemma chain_lv t H lv xs : WT NoE t H lv -> forall p m, chain t p xs -> AInt m ∈ xs -> lv m < lv p.
Proof.
  intros W. induction xs as [|a xs IH]; intros p m Hc Hm; [by apply elem_of_nil in Hm|]. destruct a as [|x]; [done|]. destruct Hc as [H1 H2].
  apply elem_of_list_lookup in H1 as [k H1]. apply (wt_ch W) in H1 as [_ Hv]. cbn in Hv.
  apply elem_of_cons in Hm as [[= ->]|Hm]; [lia|]. specialize (IH _ _ H2 Hm). lia.
Qed.
Lemma chain_snoc t xs : forall p q (b : nat), chain t p xs -> last (AInt p :: xs) = Some (AInt q) -> AInt b ∈ chs t q -> chain t p (xs ++ [AInt b]).
Proof.
  induction xs as [|a xs IH]; intros p q b Hc Hl Hb; cbn in *.
  - injection Hl as ->. done.
  - destruct a as [|m]; [done|]. destruct Hc as [H1 H2]. split; [done|]. by apply (IH m q).
Qed.

Lemma app_pre {X} (A B0 A' B' : list X) x : A ++ B0 = A' ++ B' -> length A <= length A' -> x ∈ A -> x ∈ A'.
Proof.
  intros E Hl Hx. apply (f_equal (take (length A'))) in E. rewrite take_app in E. rewrite <- E. rewrite take_app_ge by lia. apply elem_of_app. by left.
Qed.
Lemma app_suf {X} (A B0 A' B' : list X) x : A ++ B0 = A' ++ B' -> length B0 <= length B' -> x ∈ B0 -> x ∈ B'.
Proof.
  intros E Hl Hx. assert (length A' <= length A) as Hl'. { apply (f_equal length) in E. rewrite !app_length in E. lia. }
  apply (f_equal (drop (length A'))) in E. rewrite drop_app in E. rewrite <- E. rewrite drop_app_le by lia. apply elem_of_app. by right.
Qed.

(** one step of a pass along a path *)
Lemma step_thick Z t H lv x p xs o t' : OK t H lv -> AInt x ∈ chs t p -> lv p = S (lv x) -> chain t x xs -> length (chs t x) < 6 ->
  (forall m, is_Some (kids t m) -> AInt m <> root t -> big true t m \/ AbZ Z t m \/ AInt m ∈ AInt x :: xs) ->
  SP t p \/ 6 <= length (chs t p) \/ AbZ Z t p ->
  hls_res L t x p o t' ->
  chain t' x xs /\
  (forall m, is_Some (kids t' m) -> AInt m <> root t' -> big true t' m \/ AbZ Z t' m \/ AInt m ∈ xs) /\
  (SP t' x \/ 6 <= length (chs t' x) \/ AbZ Z t' x).
Proof.
  intros O Hx Hlv Hch Hlack Ha Hb HR. pose proof (ok_wt _ _ _ _ O) as W. assert (Hlp : 0 < lv p) by lia.
  assert (Hcr : forall j, AInt j ∈ chs t p -> AInt j <> root t).
  { intros j Hj Er. rewrite Er in Hj. apply elem_of_list_lookup in Hj as [k Hk]. by apply (wt_root_nochild W) in Hk. }
  assert (Hnx : forall m, AInt m ∈ xs -> lv m < lv x) by (intros m; by apply (chain_lv t H lv)).
  assert (Hfin : forall t1, (SP t1 x \/ 6 <= length (chs t1 x) \/ AbZ Z t1 x) -> big true t1 x \/ AbZ Z t1 x).
  { intros t1 [?|[?|?]]; [left; by left|left; by apply big_6|by right]. }
  inversion HR as [Hp1 Hp2|l c r t0 Ec He R|l ca cb r ai bi A' B' t0 Ea Eb Hxab Hne R Ka Kb Hsum Hsum2 LA LB L1 L2|l ca cb r ai bi y cs t0 Ea Eb Hxab Hne Hy R Ky Hsum Hlt]; subst o t'.
  - assert (SP t x \/ 6 <= length (chs t x) \/ AbZ Z t x) as Hb'.
    { destruct Hb as [Hb|[Hb|(z & Hz & Hb)]]; [left; apply (SP_first _ p _ Hb); by rewrite Hp1|rewrite Hp1 in Hb; cbn in Hb; lia|].
      right; right. exists z. split; [done|]. inversion Hb as [m Hm E1|m j Hj Hj2 E1]; subst m; rewrite Hp1 in *.
      - by apply elem_of_list_singleton in Hm.
      - apply elem_of_list_singleton in Hj. by injection Hj as ->. }
    split; [done|]. split; [|done]. intros m Hm Hmr. destruct (Ha m Hm Hmr) as [?|[?|[[= ->]|?]%elem_of_cons]]; auto.
    destruct (Hfin t Hb'); auto.
  - exfalso. revert He. apply (wt_ne W); [by apply (wt_live_child W) in Hx|by apply Hcr|by intros []].
  - (* borrow *)
    assert (Hold : forall m, AInt m ∈ map c_arena [ca; cb] <-> m = ai \/ m = bi).
    { intros m. cbn. rewrite Ea, Eb, !elem_of_cons, elem_of_nil. split; [intros [[= ->]|[[= ->]|[]]]; auto|intros [-> | ->]; auto]. }
    assert (Hab : forall j, j = ai \/ j = bi -> lv j = lv x).
    { intros j Hj. apply Hold in Hj. apply (rd_old_in L R) in Hj as [k Hk]%elem_of_list_lookup. apply (wt_ch W) in Hk as [_ Hv]. cbn in Hv. lia. }
    assert (Hoth : forall j, j <> p -> j <> ai -> j <> bi -> kids t0 j = kids t j).
    { intros j Hj1 Hj2 Hj3. apply (rd_other _ _ _ _ _ _ _ _ R); [done|rewrite Hold; tauto|]. cbn. rewrite !elem_of_cons, elem_of_nil.
      intros [[= ->]|[[= ->]|[]]]; done. }
    assert (Hsp : forall z, SP t z -> is_Some (kids t0 z) -> SP t0 z).
    { apply (rd_SP L _ _ _ _ _ _ _ _ _ _ W Hlp R); [|done]. cbn. rewrite Ea. by intros m _ [= ->] _. }
    assert (Hlow : forall j, lv j < lv x -> kids t0 j = kids t j).
    { intros j Hj. apply Hoth; intros ->; [lia|rewrite (Hab ai) in Hj by auto; lia|rewrite (Hab bi) in Hj by auto; lia]. }
    assert (Hg : chs t0 ai ++ chs t0 bi = chs t ai ++ chs t bi).
    { pose proof (rd_g _ _ _ _ _ _ _ R) as Hg. cbn in Hg. rewrite Ea, Eb in Hg. cbn in Hg. rewrite !app_nil_r in Hg. done. }
    assert (La : 6 <= length (chs t0 ai)) by (by rewrite (chs_kids _ _ _ Ka), map_length).
    assert (Lb : 6 <= length (chs t0 bi)) by (by rewrite (chs_kids _ _ _ Kb), map_length).
    split; [|split].
    + destruct xs as [|[|y] xs]; [done|done|]. destruct Hch as [H1 H2]. split.
      * destruct Hxab as [-> | ->].
        -- eapply app_pre; [symmetry; exact Hg|lia|done].
        -- eapply app_suf; [symmetry; exact Hg|lia|done].
      * eapply chain_low; [exact W|exact Hlow| |done]. apply Hnx. left.
    + intros m Hm Hmr. rewrite (rd_root _ _ _ _ _ _ _ _ R) in Hmr. destruct (decide (m = ai)) as [->|D1]; [left; by apply big_6|].
      destruct (decide (m = bi)) as [->|D2]; [left; by apply big_6|]. assert (AInt m ∉ map c_arena [ca; cb]) as Hmo by (rewrite Hold; tauto).
      destruct (decide (m = p)) as [->|D3].
      * destruct Hb as [Hb|[Hb|(z & Hz & Hb)]].
        -- left. left. by apply Hsp.
        -- left. apply big_6. rewrite (rd_chs' L R). rewrite (rd_chs L R) in Hb. rewrite !app_length in *. cbn in *. lia.
        -- right; left. exists z. split; [done|]. by apply (rd_Ab _ _ _ _ _ _ _ _ _ _ _ _ W Hlp R Hb).
      * pose proof (Hoth m D3 D1 D2) as Ek. rewrite Ek in Hm. destruct (Ha m Hm Hmr) as [Hbig|[(z & Hz & Hz2)|[[= ->]|?]%elem_of_cons]].
        -- left. apply (big_mono true t); [intros; apply Hsp; [done|by rewrite Ek]|unfold chs; by rewrite Ek|done].
        -- right; left. exists z. split; [done|]. by apply (rd_Ab _ _ _ _ _ _ _ _ _ _ _ _ W Hlp R Hz2).
        -- tauto.
        -- auto.
    + right; left. by destruct Hxab as [-> | ->].
  - (* merge *)
    subst y.
    assert (Hold : forall m, AInt m ∈ map c_arena [ca; cb] <-> m = ai \/ m = bi).
    { intros m. cbn. rewrite Ea, Eb, !elem_of_cons, elem_of_nil. split; [intros [[= ->]|[[= ->]|[]]]; auto|intros [-> | ->]; auto]. }
    assert (Hnew : forall m, AInt m ∈ map c_arena [mkChild (AInt x) (summ L (map c_cache cs))] <-> m = x).
    { intros m. cbn. rewrite elem_of_cons, elem_of_nil. split; [intros [[= ->]|[]]; done|intros ->; by left]. }
    assert (Hab : forall j, j = ai \/ j = bi -> lv j = lv x /\ AInt j ∈ chs t p).
    { intros j Hj. apply Hold in Hj. apply (rd_old_in L R) in Hj. split; [|done]. apply elem_of_list_lookup in Hj as [k Hk].
      apply (wt_ch W) in Hk as [_ Hv]. cbn in Hv. lia. }
    assert (ai <> bi) as Hne2.
    { pose proof (rd_nodup L W R) as Hnd. apply NoDup_app in Hnd as (_ & _ & Hnd). apply NoDup_app in Hnd as (Hnd & _).
      cbn in Hnd. rewrite Ea, Eb in Hnd. apply NoDup_cons in Hnd as [Hnd _]. intros ->. apply Hnd. left. }
    assert (Hoth : forall j, j <> p -> j <> ai -> j <> bi -> kids t0 j = kids t j).
    { intros j Hj1 Hj2 Hj3. apply (rd_other _ _ _ _ _ _ _ _ R); [done|rewrite Hold; tauto|]. rewrite Hnew. intros ->. tauto. }
    assert (Hsp : forall z, SP t z -> is_Some (kids t0 z) -> SP t0 z).
    { apply (rd_SP L _ _ _ _ _ _ _ _ _ _ W Hlp R); [|done]. cbn. by intros m _ _ ->%elem_of_list_singleton. }
    assert (Hlow : forall j, lv j < lv x -> kids t0 j = kids t j).
    { intros j Hj. apply Hoth; intros ->; [lia|rewrite (proj1 (Hab ai ltac:(auto))) in Hj; lia|rewrite (proj1 (Hab bi ltac:(auto))) in Hj; lia]. }
    assert (Hg : chs t0 x = chs t ai ++ chs t bi).
    { pose proof (rd_g _ _ _ _ _ _ _ R) as Hg. cbn in Hg. rewrite Ea, Eb in Hg. cbn in Hg. rewrite !app_nil_r in Hg. done. }
    assert (Hpl : is_Some (kids t0 p)) by (rewrite (rd_p' _ _ _ _ _ _ _ _ R); eauto).
    assert (Hxl : 1 <= length (chs t x)) by (destruct (chs t x); [done|cbn; lia]).
    assert (exists n, (n = ai \/ n = bi) /\ n <> x /\ length (chs t ai) + length (chs t bi) = length (chs t x) + length (chs t n)) as (n & Hz1 & Hz2 & Hz3).
    { destruct Hxab as [-> | ->]; [exists bi|exists ai]; (split; [auto|split; [congruence|lia]]). }
    destruct (Hab n Hz1) as [Hnlv Hnp].
    assert (SP t0 x \/ 6 <= length (chs t0 x) \/ AbZ Z t0 x) as Hb'.
    { destruct (Ha n) as [[Hzs|?]|[(z & Hz & Hzn)|[[= ->]|Hin]%elem_of_cons]]; [by apply (wt_live_child W) in Hnp|by apply Hcr| | | |done|].
      - left. destruct (SP_up _ _ _ _ _ _ W Hzs Hnp) as [Hps Hhd].
        assert (l = []) as ->.
        { rewrite (rd_chs L R) in Hhd. destruct l as [|c0 l]; [done|]. cbn in Hhd. injection Hhd as Hc0.
          pose proof (rd_nodup L W R) as Hnd. cbn in Hnd. apply NoDup_cons in Hnd as [Hn _]. destruct Hn. rewrite Hc0.
          rewrite elem_of_app. right. rewrite Ea, Eb. destruct Hz1 as [-> | ->]; [left|right; left]. }
        apply (SP_first _ p); [by apply Hsp|]. rewrite (rd_chs' L R). done.
      - right; left. rewrite Hg, app_length. lia.
      - right; right. exists z. split; [done|]. apply Hold in Hz1. destruct (rd_Ab _ _ _ _ _ _ _ _ _ _ _ _ W Hlp R Hzn) as [Hq _].
        destruct (Hq Hz1) as (x' & ->%Hnew & Hq2). done.
      - specialize (Hnx _ Hin). lia. }
    split; [|split].
    + destruct xs as [|[|y] xs]; [done|done|]. destruct Hch as [H1 H2]. split.
      * rewrite Hg. apply elem_of_app. destruct Hxab as [-> | ->]; auto.
      * eapply chain_low; [exact W|exact Hlow| |done]. apply Hnx. left.
    + intros m Hm Hmr. rewrite (rd_root _ _ _ _ _ _ _ _ R) in Hmr. destruct (decide (m = x)) as [->|D1]; [destruct (Hfin t0 Hb'); auto|].
      destruct (decide (m = n)) as [->|D2].
      { exfalso. rewrite (rd_del _ _ _ _ _ _ _ _ R n) in Hm; [by destruct Hm|by apply Hold|by rewrite Hnew]. }
      assert (m <> ai /\ m <> bi) as [D4 D5] by (destruct Hxab as [-> | ->]; destruct Hz1 as [-> | ->]; done).
      assert (AInt m ∉ map c_arena [ca; cb]) as Hmo by (rewrite Hold; tauto).
      destruct (decide (m = p)) as [->|D3].
      * destruct Hb as [Hb|[Hb|(z & Hz & Hb)]].
        -- left. left. by apply Hsp.
        -- left. apply big_5. rewrite (rd_chs' L R). rewrite (rd_chs L R) in Hb. rewrite !app_length in *. cbn in *. lia.
        -- right; left. exists z. split; [done|]. by apply (rd_Ab _ _ _ _ _ _ _ _ _ _ _ _ W Hlp R Hb).
      * pose proof (Hoth m D3 D4 D5) as Ek. rewrite Ek in Hm. destruct (Ha m Hm Hmr) as [Hbig|[(z & Hz & Hz0)|[[= ->]|?]%elem_of_cons]].
        -- left. apply (big_mono true t); [intros; apply Hsp; [done|by rewrite Ek]|unfold chs; by rewrite Ek|done].
        -- right; left. exists z. split; [done|]. by apply (rd_Ab _ _ _ _ _ _ _ _ _ _ _ _ W Hlp R Hz0).
        -- done.
        -- auto.
    + exact Hb'.
Qed.

Lemma pass_thick Z xs : forall t H lv p cnt cnt' t', OK t H lv -> chain t p xs ->
  (forall m, is_Some (kids t m) -> AInt m <> root t -> big true t m \/ AbZ Z t m \/ AInt m ∈ xs) ->
  SP t p \/ 6 <= length (chs t p) \/ AbZ Z t p ->
  lack_pass t xs cnt = Ok (cnt', t') ->
  forall m, is_Some (kids t' m) -> AInt m <> root t' -> big true t' m \/ AbZ Z t' m.
Proof.
  induction xs as [|a xs IH]; intros t H lv p cnt cnt' t' O Hch Ha Hb E.
  { cbn in E. injection E as _ <-. intros m Hm Hr. destruct (Ha m Hm Hr) as [?|[?|?%elem_of_nil]]; auto. done. }
  destruct a as [|x]; [done|]. destruct Hch as [Hx Hch]. pose proof (ok_wt _ _ _ _ O) as W.
  assert (Hxl : is_Some (kids t x)) by (by apply (wt_live_child W) in Hx).
  assert (Hxr : AInt x <> root t).
  { intros Er. rewrite Er in Hx. apply elem_of_list_lookup in Hx as [k Hk]. by apply (wt_root_nochild W) in Hk. }
  cbn [lack_pass unwrap_internal rbind] in E. destruct (live_get_in t x Hxl) as [nd Hg]. rewrite Hg in E. cbn [rbind] in E. unfold is_lack in E.
  apply get_in_inv in Hg as [Hk _]. assert (length (chs t x) = length (n_children nd)) as Hl by (by rewrite (chs_kids _ _ _ Hk), map_length).
  case_bool_decide as Dl.
  - destruct (hls_OK L t H lv x O Hxl Hxr) as (p' & o & t1 & lv1 & E1 & Hlv & Hin & HR & O1 & _).
    rewrite E1 in E. cbn [rbind] in E.
    assert (p' = p) as ->.
    { apply elem_of_list_lookup in Hin as [k1 H1]. apply elem_of_list_lookup in Hx as [k2 H2]. by destruct (wt_uniq W _ _ _ _ _ H1 H2). }
    destruct (step_thick Z t H lv x p xs o t1 O Hx Hlv Hch ltac:(lia) Ha Hb HR) as (H1 & H2 & H3). by eapply (IH t1).
  - eapply (IH t); [exact O|exact Hch| |right; left; lia|exact E].
    intros m Hm Hr. destruct (Ha m Hm Hr) as [?|[?|[[= ->]|?]%elem_of_cons]]; auto. left. apply big_6. lia.
Qed.

(** the path to a leaf *)
Lemma rp_chain t (p : list idx) a : rpath t p a -> forall i, a = AInt i -> exists r xs, root t = AInt r /\ map i_arena p = rev (AInt r :: xs) /\
  chain t r xs /\ last (AInt r :: xs) = Some (AInt i).
Proof.
  induction 1 as [|i a k p Hp IH Hk]; intros i0 E.
  - exists i0, []. cbn. by rewrite E.
  - destruct (IH i eq_refl) as (r & xs & Er & Em & Hc & Hl). subst a. exists r, (xs ++ [AInt i0]). split; [done|]. split; [|split].
    + cbn [map i_arena]. rewrite Em. rewrite app_comm_cons, rev_app_distr. done.
    + eapply chain_snoc; [exact Hc|exact Hl|by eapply elem_of_list_lookup_2].
    + by rewrite app_comm_cons, last_snoc.
Qed.
Lemma Ab_ext t z m : Ab t z m -> forall r0, rpath t r0 (AInt m) -> exists s, rpath t (s ++ r0) (ALeaf z).
Proof.
  induction 1 as [m Hm|m j Hj _ IH]; intros r0 Hr.
  - apply elem_of_list_lookup in Hm as [k Hk]. exists [mkIdx (ALeaf z) k]. cbn. by econstructor.
  - apply elem_of_list_lookup in Hj as [k Hk]. destruct (IH (mkIdx (AInt j) k :: r0)) as [s Hs]; [by econstructor|].
    exists (s ++ [mkIdx (AInt j) k]). by rewrite <- app_assoc.
Qed.
Lemma path_chain t H lv r leaf : WT NoE t H lv -> rpath t r (ALeaf leaf) ->
  let xs := map i_arena (removelast (tail (rev r))) in
  chain t (raw (root t)) xs /\ (forall m, Ab t leaf m -> AInt m <> root t -> AInt m ∈ xs).
Proof.
  intros W Hr. pose proof (wt_root_id W) as Hrt. inversion Hr as [E1 E2|i a k p Hp Hk E1 E2].
  { by rewrite E2 in Hrt. }
  subst a r. destruct (rp_chain _ _ _ Hp i eq_refl) as (r0 & xs & Er & Em & Hc & _).
  assert (map i_arena (removelast (tail (rev (mkIdx (ALeaf leaf) k :: p)))) = xs) as Ex.
  { cbn [rev]. assert (map i_arena (rev p) = AInt r0 :: xs) as Hrev by (by rewrite map_rev, Em, rev_involutive).
    destruct (rev p) as [|i0 ps]; [done|]. cbn in Hrev. injection Hrev as _ <-. cbn [app tail]. by rewrite removelast_last. }
  cbn zeta. rewrite Ex. split; [by rewrite Er|].
  intros m HA Hm. destruct (rpath_exists W (AInt m) (Ab_live _ _ _ HA)) as [rm Hrm]. destruct (Ab_ext _ _ _ HA _ Hrm) as [s Hs].
  pose proof (rpath_unique W _ _ Hr _ Hs) as Eu. destruct (rpath_head _ _ _ Hrm) as (km & r' & ->).
  assert (AInt m ∈ map i_arena (mkIdx (ALeaf leaf) k :: p)) as Hin.
  { rewrite Eu, map_app. apply elem_of_app. right. left. }
  cbn [map i_arena] in Hin. apply elem_of_cons in Hin as [?|Hin]; [done|]. rewrite Em in Hin. apply elem_of_list_In, in_rev, elem_of_list_In in Hin.
  apply elem_of_cons in Hin as [E|?]; [|done]. destruct Hm. by rewrite Er.
Qed.

Lemma lack_path_thick Z leaf f : forall t H lv lastc t', OK t H lv -> H <= 8 -> leaf ∈ leaves t -> lack_path_f f t (ALeaf leaf) lastc = Ok t' ->
  (forall m, is_Some (kids t m) -> AInt m <> root t -> big true t m \/ AbZ Z t m \/ Ab t leaf m) ->
  forall m, is_Some (kids t' m) -> AInt m <> root t' -> big true t' m \/ AbZ Z t' m.
Proof.
  induction f as [|f IH]; intros t H lv lastc t' O HH Hin E Ha; [done|]. cbn [lack_path_f] in E.
  pose proof (ok_wt _ _ _ _ O) as W. pose proof (ok_lk _ _ _ _ O) as K.
  destruct (leaf_path W K leaf Hin HH) as (r & Hr & Ep). rewrite Ep in E. cbn [rbind] in E.
  assert (D : desc t lv H (map i_arena (removelast (tail (rev r))))).
  { apply path_desc; [done|by eapply rpath_PTH|]. rewrite rev_length. pose proof (rpath_len W _ _ Hr). cbn in *. lia. }
  destruct (lack_pass_ok L (seq 0 (anext (in_nodes t))) _ t H lv H 0 O D (NoDup_seq _ _)) as (cnt & t1 & lv1 & E1 & O1 & G1 & El1 & R1 & A1 & Sub1 & _).
  { intros i Hi. apply elem_of_seq. pose proof (wt_fresh W i Hi). lia. }
  rewrite E1 in E. cbn [rbind] in E.
  destruct (path_chain t H lv r leaf W Hr) as [Hc Hab].
  assert (Ha1 : forall m, is_Some (kids t1 m) -> AInt m <> root t1 -> big true t1 m \/ AbZ Z t1 m).
  { eapply pass_thick; [exact O|exact Hc| |left; apply SP_root|exact E1].
    intros m Hm Hmr. destruct (Ha m Hm Hmr) as [?|[?|?]]; auto. }
  destruct (bool_decide (cnt = 0) || bool_decide (cnt = lastc)) eqn:Es; [by injection E as <-|].
  eapply (IH t1); [exact O1|done| |exact E|].
  - rewrite (leaves_raw (ok_wt _ _ _ _ O1)), G1, <- (leaves_raw W). done.
  - intros m Hm Hmr. destruct (Ha1 m Hm Hmr); auto.
Qed.

Lemma seal_thick t H lv leaf X Y t' : OK t H lv -> H <= 8 -> leaves t = X ++ leaf :: Y -> seal t (ALeaf leaf) = Ok t' ->
  (forall m, is_Some (kids t m) -> AInt m <> root t -> big true t m \/ (exists z, head Y = Some z /\ Ab t z m) \/ Ab t leaf m) ->
  MDw true t'.
Proof.
  intros O HH HL E Ha. unfold seal in E.
  destruct (hlpath_ok L t H lv leaf O HH) as (t1 & lv1 & E1 & O1 & G1 & El1 & R1 & A1); [rewrite HL; clear; set_solver|].
  rewrite E1 in E. cbn [rbind] in E. unfold handle_lack_on_path_to_leaf in E1.
  assert (Ha1 : forall m, is_Some (kids t1 m) -> AInt m <> root t1 -> big true t1 m \/ AbZ (fun z => head Y = Some z) t1 m).
  { eapply (lack_path_thick (fun z => head Y = Some z)); [exact O|done| |exact E1|]; [rewrite HL; clear; set_solver|].
    intros m Hm Hr. destruct (Ha m Hm Hr) as [?|[?|?]]; auto. }
  pose proof (ok_wt _ _ _ _ O1) as W1. pose proof (ok_lk _ _ _ _ O1) as K1.
  assert (Hl1 : leaves t1 = X ++ leaf :: Y) by (by rewrite (leaves_raw W1), G1, <- (leaves_raw (ok_wt _ _ _ _ O))).
  rewrite (next_leaf_ok W1 K1 leaf (map ALeaf X) (map ALeaf Y)) in E.
  2:{ rewrite <- (leaves_gen W1), Hl1, map_app. done. }
  cbn [rbind] in E.
  assert (exists t2 lv2, (match head (map ALeaf Y) with Some s => handle_lack_on_path_to_leaf t1 s | None => Ok t1 end) = Ok t2 /\ OK t2 H lv2 /\
    (forall m, is_Some (kids t2 m) -> AInt m <> root t2 -> big true t2 m)) as (t2 & lv2 & E2 & O2 & Ha2).
  { destruct Y as [|y Y].
    - exists t1, lv1. split; [done|]. split; [done|]. intros m Hm Hr. destruct (Ha1 m Hm Hr) as [?|(z & Hz & _)]; done.
    - cbn [map head]. destruct (hlpath_ok L t1 H lv1 y O1 HH) as (t2 & lv2 & E2 & O2 & _); [rewrite Hl1; clear; set_solver|].
      exists t2, lv2. split; [done|]. split; [done|]. unfold handle_lack_on_path_to_leaf in E2.
      assert (forall m, is_Some (kids t2 m) -> AInt m <> root t2 -> big true t2 m \/ AbZ (fun _ => False) t2 m) as Hx.
      { eapply (lack_path_thick (fun _ => False)); [exact O1|done| |exact E2|]; [rewrite Hl1; clear; set_solver|].
        intros m Hm Hr. destruct (Ha1 m Hm Hr) as [?|(z & [= ->] & ?)]; auto. }
      intros m Hm Hr. destruct (Hx m Hm Hr) as [?|(z & [] & _)]; done. }
  rewrite E2 in E. cbn [rbind] in E.
  destruct (try_reduce_ok L t2 H lv2 O2) as (t3 & H' & lv' & E' & O' & R' & G' & El' & K' & S' & Sp' & _ & Al).
  rewrite E in E'. injection E' as <-. constructor; [|exact S'].
  intros m Hm Hr. rewrite R' in Hr. pose proof (K' m Hm Hr) as Ek. apply (big_mono true t2); [intros; by apply Sp'|unfold chs; by rewrite Ek|].
  apply Ha2; [by rewrite <- Ek|done].
Qed.

Lemma reduce_thick t H lv t' : OK t H lv -> try_reduce_levels t = Ok t' ->
  (forall m, is_Some (kids t m) -> AInt m <> root t -> big true t m) -> MDw true t'.
Proof.
  intros O E Ha. destruct (try_reduce_ok L t H lv O) as (t3 & H' & lv' & E' & O' & R' & G' & El' & K' & S' & Sp' & _ & Al).
  rewrite E in E'. injection E' as <-. constructor; [|exact S'].
  intros m Hm Hr. rewrite R' in Hr. pose proof (K' m Hm Hr) as Ek. apply (big_mono true t); [intros; by apply Sp'|unfold chs; by rewrite Ek|].
  apply Ha; [by rewrite <- Ek|done].
Qed.

(** the nodes above the first leaf are the left spine *)
Lemma first_SP t H lv z : WT NoE t H lv -> head (leaves t) = Some z -> forall n m, H - lv m = n -> is_Some (kids t m) -> z ∈ lun t lv (AInt m) -> SP t m.
Proof.
  intros W Hz. pose proof (leaves_nodup W) as Nd.
  assert (Hhd : forall m, is_Some (kids t m) -> z ∈ lun t lv (AInt m) -> head (lun t lv (AInt m)) = Some z).
  { intros m Hm Hin. destruct (lu_seg W (AInt m) Hm) as (X & Y & E). rewrite E in Hz, Nd. destruct X as [|x X].
    - cbn [app] in Hz. destruct (lun t lv (AInt m)); [by apply elem_of_nil in Hin|done].
    - cbn in Hz. injection Hz as ->. cbn in Nd. apply NoDup_cons in Nd as [Nd _]. destruct Nd. clear -Hin; set_solver. }
  induction n as [|n IH]; intros m Hn Hm Hin.
  - pose proof (wt_lv W m Hm). destruct (decide (AInt m = root t)) as [Er|Er].
    + replace m with (raw (root t)) by (by rewrite <- Er). apply SP_root.
    + exfalso. destruct (wt_up W (AInt m) Hm Er) as (p & k & Hp). pose proof (wt_ch W _ _ _ Hp) as [_ Hv]. cbn in Hv.
      pose proof (wt_lv W p (chs_lookup_live _ _ _ _ Hp)). lia.
  - destruct (decide (AInt m = root t)) as [Er|Er].
    { replace m with (raw (root t)) by (by rewrite <- Er). apply SP_root. }
    destruct (wt_up W (AInt m) Hm Er) as (p & k & Hp). pose proof (wt_ch W _ _ _ Hp) as [_ Hv]. cbn in Hv.
    pose proof (chs_lookup_live _ _ _ _ Hp) as Hpl. pose proof (wt_lv W p Hpl) as Hle.
    assert (Hzp : z ∈ lun t lv (AInt p)).
    { rewrite (lu_int W) by done. apply elem_of_list_bind. exists (AInt m). split; [done|by eapply elem_of_list_lookup_2]. }
    apply (SP_first _ p); [apply IH; [lia|done|done]|].
    destruct k as [|k]; [destruct (chs t p); [done|by injection Hp as ->]|]. exfalso.
    pose proof (Hhd p Hpl Hzp) as Hh. destruct (lu_seg W (AInt p) Hpl) as (X & Y & E). rewrite E in Nd. apply NoDup_app in Nd as (_ & _ & Nd). apply NoDup_app in Nd as (Nd & _).
    rewrite (lu_int W) in Hh, Nd by done. destruct (chs t p) as [|c0 l] eqn:Ec; [done|]. cbn in Hh, Nd, Hp.
    assert (lun t lv c0 <> []) as Hne.
    { assert (c0 ∈ chs t p) as Hc0 by (rewrite Ec; left). apply (lu_ne W); [by apply (wt_live_child W) in Hc0|].
      intros ->. apply elem_of_list_lookup in Hc0 as [k0 Hk0]. by apply (wt_root_nochild W) in Hk0. }
    destruct (lun t lv c0) as [|y l0] eqn:E0; [done|]. cbn in Hh. injection Hh as ->. cbn in Nd. apply NoDup_cons in Nd as [Nd _]. destruct Nd.
    apply elem_of_app. right. apply elem_of_list_bind. exists (AInt m). split; [done|by eapply elem_of_list_lookup_2].
Qed.

(** pruning: only the nodes that lose leaves get thin *)
Lemma pr_SP t H lv M T m : WT NoE t H lv -> PR t lv M T -> SP t m -> is_Some (kids T m) -> SP T m.
Proof.
  intros W P Hs. induction Hs as [|p m Hp IH Hm]; intros Hl; [rewrite <- (pr_root _ _ _ _ P); apply SP_root|].
  pose proof (head_Some_in _ _ Hm) as Hin. apply (pr_live W M P (AInt m)) in Hl as [Hlt [Er|Hk]].
  { rewrite Er in Hin. apply elem_of_list_lookup in Hin as [k0 Hk0]. by apply (wt_root_nochild W) in Hk0. }
  pose proof (kp_child W M _ _ Hin Hk) as Hkp. assert (is_Some (kids t p)) as Hpl. { apply chs_live. intros E. by rewrite E in Hm. }
  apply (SP_first _ p). { apply IH, (pr_live W M P (AInt p)). auto. }
  rewrite (pr_chs M P), decide_True by auto. destruct (chs t p) as [|c0 l]; [done|]. cbn in Hm. injection Hm as ->. rewrite filter_cons, decide_True by done. done.
Qed.
Lemma pr_thick t H lv M T : WT NoE t H lv -> PR t lv M T -> MDw true t ->
  forall m, is_Some (kids T m) -> AInt m <> root T -> big true T m \/ stale (t := t) (lv := lv) M (AInt m).
Proof.
  intros W P HM m Hm Hr. rewrite (pr_root _ _ _ _ P) in Hr. pose proof Hm as Hl. apply (pr_live W M P (AInt m)) in Hl as [Hlt [?|Hk]]; [done|].
  destruct (decide (Exists (fun x => x ∈ M) (lun t lv (AInt m)))) as [D|D].
  { right. exists m. split; [done|]. apply Exists_exists in D. unfold kpn in Hk. apply Exists_exists in Hk. destruct D as (x & ? & ?). destruct Hk as (y & ? & ?). split; eauto. }
  left. assert (chs T m = chs t m) as Ec.
  { rewrite (pr_chs M P), decide_True by auto. apply filter_all. intros a Ha. apply (fk_kp W M); [by apply (wt_live_child W) in Ha| |].
    - intros ->. apply elem_of_list_lookup in Ha as [k0 Hk0]. by apply (wt_root_nochild W) in Hk0.
    - apply (fk_child W M m); [done|]. apply Forall_forall. intros x Hx HxM. apply D. apply Exists_exists. eauto. }
  apply (big_mono true t); [intros Hs; by eapply pr_SP|by rewrite Ec|]. by apply (md_in _ _ HM).
Qed.

Lemma drop_tail_thick t H lv P S (af : option nat) (D : aidx -> Prop) t' : WT NoE t H lv -> LK t -> SZ t 11 -> H <= 8 -> leaves t = P ++ S ->
  (forall z, af = Some z -> z ∈ S) -> VA L t -> CO L t D ->
  (forall a, D a -> exists m, a = AInt m /\ ((exists z, last P = Some z /\ z ∈ lun t lv a) \/ (exists z, af = Some z /\ z ∈ lun t lv a)) /\ is_Some (kids t m)) ->
  (forall m, is_Some (kids t m) -> AInt m <> root t -> big true t m \/
    (exists z, last P = Some z /\ z ∈ lun t lv (AInt m)) \/ (exists z, head S = Some z /\ z ∈ lun t lv (AInt m))) ->
  drop_tail t (ALeaf <$> last P) (ALeaf <$> af) = Ok t' -> MDw true t'.
Proof.
  intros W K Z HH HL Haf V C HD Ha. destruct (drop_tail_gen L t H lv P S af D W K HL Haf V C) as (t0 & S0 & El0 & V0 & C0 & R0 & E). rewrite E. clear E.
  assert (C1 : CO L t0 (fun _ => False)).
  { eapply CO_mono; [|exact C0]. intros a [Hd Hu]. destruct (HD a Hd) as (m & -> & [(z & Hz & Hzl)|(z & Hz & Hzl)] & Hm);
      destruct (Hu m eq_refl Hm) as [H1 H2]; [by apply (H1 z)|by apply (H2 z)]. }
  assert (Hbig : forall t1 m, SH t t1 -> big true t m -> big true t1 m).
  { intros t1 m S1. apply big_mono; [by apply SP_SH|by rewrite (sh_chs S1)]. }
  destruct (last P) as [b|] eqn:EP.
  - pose proof EP as EP2. apply last_Some in EP2 as [P' ->].
    pose proof (SH_OK L t t0 H lv W K Z S0 C1 V0 (R0 ltac:(by destruct P'))) as O0.
    assert (leaves t0 = leaves t) as Hlv.
    { rewrite (leaves_raw (ok_wt _ _ _ _ O0)), (leaves_raw W), (sh_root S0). by rewrite (SH_gen _ _ S0). }
    intros E. eapply (seal_thick t0 H lv b P' S); [exact O0|done|by rewrite Hlv, HL, <- app_assoc|exact E|].
    intros m Hm Hr. apply (SH_kids _ _ S0) in Hm. rewrite (sh_root S0) in Hr.
    destruct (Ha m Hm Hr) as [?|[(z & [= <-] & Hz)|(z & Hz & Hz2)]].
    + left. by apply Hbig.
    + right; right. apply (Ab_SH t); [done|]. by eapply lun_Ab.
    + right; left. exists z. split; [done|]. apply (Ab_SH t); [done|]. by eapply lun_Ab.
  - assert (P = []) as -> by (by apply last_None). assert (W0 : WT NoE t0 H lv) by by eapply SH_WT.
    assert (exists v, update_root_cache t0 = Ok (set_root_cache t0 v) /\ RC L (set_root_cache t0 v)) as (v & Ev & Rv).
    { unfold update_root_cache. destruct (decide (chs t0 (raw (root t0)) <> [] \/ mono L = true)) as [Dr|Dr].
      - destruct (calc_root_ok L NoE t0 H lv W0 V0 Dr) as (t1 & Ec & ->). eexists. split; [done|]. by intros _.
      - destruct (calc_root_nil L NoE t0 H lv W0) as (t1 & v & Ec & ->).
        { destruct (chs t0 (raw (root t0))); [done|]. destruct Dr. by left. }
        exists v. split; [done|]. intros Hx. done. }
    rewrite Ev. cbn [rbind]. set (t1 := set_root_cache t0 v) in *.
    assert (S1 : SH t t1) by (eapply SH_trans; [exact S0|apply set_rc_SH]).
    assert (O1 : OK t1 H lv) by (apply (SH_OK L t t1 H lv W K Z S1); [by apply set_rc_CO|by apply set_rc_VA|done]).
    intros E. apply (reduce_thick t1 H lv); [done|done|]. intros m Hm Hr. apply (SH_kids _ _ S1) in Hm. rewrite (sh_root S1) in Hr.
    apply Hbig; [done|]. destruct (Ha m Hm Hr) as [?|[(z & ? & _)|(z & Hz & Hz2)]]; [done|done|].
    left. eapply (first_SP t H lv z W); [by rewrite HL|reflexivity|done|done].
Qed.

Notation Tree := (Tree L).
Lemma md_body t A M Z d k es d' t' : Tree t (A ++ M ++ Z) -> Shallow t 9 -> M ++ Z <> [] ->
  (forall l e, head Z = Some (l, e) -> rle_len e <> 0) ->
  match (fun y => mkCur (fst y) 0) <$> head (M ++ Z) with None => Ok (drain_none t) | Some st => drain_new2 t st ((fun y => mkCur (fst y) 0) <$> head Z) end = Ok d ->
  drain_take k d = Ok (es, d') -> drain_drop d' = Ok t' -> MDw true t -> MDw true t'.
Proof.
  intros T Sh Hne Hz0 Ed Ek Edr HM.
  destruct (drain_body_gen L t A M Z T Sh Hne) as (d1 & T5 & H & lv & (st & -> & Ed1) & Htk & O & HH & W5 & K5 & Z5 & V5 & C5 & HL5 & El5 & A5 & P5 & HD).
  rewrite Ed in Ed1. injection Ed1 as <-. destruct (Htk k) as (d2 & E1 & E2). rewrite Ek in E1. injection E1 as _ <-. rewrite E2 in Edr.
  assert (Haf : after_leaf Z = head Z.*1).
  { destruct Z as [|[l e] Z']; [done|]. cbn. by rewrite decide_False by by apply (Hz0 l e). }
  pose proof (ok_wt _ _ _ _ O) as W.
  assert (HX : forall m, stale (t := t) (lv := lv) M.*1 (AInt m) -> is_Some (kids T5 m) /\
    ((exists z, last A.*1 = Some z /\ z ∈ lun T5 lv (AInt m)) \/ (exists z, head Z.*1 = Some z /\ z ∈ lun T5 lv (AInt m)))).
  { intros m Hs. destruct (HD m Hs) as (_ & Hm5 & Hlun & Hb). split; [done|].
    destruct Hb as [(z & Hz & HzM & Hzl)|(z & Hz & HzM & Hzl)]; [left|right]; exists z; auto. }
  eapply (drop_tail_thick T5 H lv A.*1 Z.*1 (after_leaf Z)); [exact W5|exact K5|exact Z5|done|exact HL5|apply after_leaf_in|exact V5|exact C5| | |exact Edr].
  - intros a Hs. pose proof Hs as (m & -> & _). exists m. split; [done|]. rewrite Haf. destruct (HX m Hs). auto.
  - intros m Hm Hr. destruct (pr_thick t H lv M.*1 T5 W P5 HM m Hm Hr) as [?|Hs]; [by left|]. right. by apply HX.
Qed.

Theorem md_drain t xs (a b : cursor) (ea eb : Elem B) (fa fb : bool) k es t' :
  Tree t xs -> (cu_leaf a, ea) ∈ xs -> cu_offset a <= rle_len ea -> (cu_leaf b, eb) ∈ xs -> cu_offset b <= rle_len eb ->
  cur_le xs a b ->
  (cu_offset b = 0 -> rle_len eb <> 0) ->
  (forall X Y l e, xs = X ++ [(cu_leaf b, eb); (l, e)] ++ Y -> cu_offset b = rle_len eb -> rle_len e <> 0) ->
  (forall X, xs = X ++ [(cu_leaf a, ea)] -> cu_offset a = rle_len ea -> cu_offset a = 0) ->
  drain_range t (Some (mkQR a fa)) (Some (mkQR b fb)) k = Ok (es, t') -> MDw true t -> MDw true t'.
Proof.
  intros T Ha Hoa Hb Hob Hle Hzb0 Hzb Hst E HM. destruct a as [la oa]. destruct b as [lb ob]. cbn [cu_leaf cu_offset] in *.
  destruct (t_cut L t xs lb eb ob T Hb Hob) as (sie & t1 & A & Z & E1 & T1 & C1 & P1 & N1 & G1 & S1).
  pose proof (md_cut L _ _ _ _ _ _ _ T Hb Hob E1 HM) as HM1.
  pose proof (cut_before xs (mkCur la oa) _ _ A Z ea (tree_nodup L _ _ T) Hle C1 Ha Hoa) as Hpos. cbn [cu_leaf cu_offset] in Hpos.
  assert (exists ea', (la, ea') ∈ A ++ Z /\ oa <= rle_len ea') as (ea' & Ha' & Hoa').
  { destruct Hpos as [(ea' & Hx & Hy)|(-> & ea' & Hx)]; exists ea'; (split; [|first [done|lia]]).
    - clear -Hx; set_solver.
    - destruct Z; [done|]. injection Hx as ->. clear; set_solver. }
  destruct (t_cut L t1 (A ++ Z) la ea' oa T1 Ha' Hoa') as (sis & t2 & A1 & R1 & E2 & T2 & C2 & P2 & N2 & G2 & S2).
  pose proof (md_cut L _ _ _ _ _ _ _ T1 Ha' Hoa' E2 HM1) as HM2.
  destruct (cut_left A Z (mkCur la oa) _ A1 R1 (tree_nodup L _ _ T1) C2) as [M ->].
  { cbn [cu_leaf cu_offset]. destruct Hpos as [(? & ? & _)|?]; [left|right]; eauto. }
  assert (Hne : M ++ Z <> []).
  { intros HMZ. rewrite HMZ in C2. apply app_nil in HMZ as [-> ->].
    inversion C2 as [|X l e Y off Hz Hf EX E3 E4 E5|]; subst. rewrite app_nil_r in EX.
    inversion C1 as [|X' l' e' Y' off' Hz' Hf' EX' E3' E4' E5'|]; subst. pose proof (tree_nodup L _ _ T) as Hnd.
    rewrite E4' in Hst, Ha, Hnd.
    assert (ea = e) as -> by (eapply fst_lookup_unique; [exact Hnd|exact Ha|clear; set_solver]).
    apply Hz, (Hst X); [done|done]. }
  assert (Hz0 : forall l e, head Z = Some (l, e) -> rle_len e <> 0).
  { intros l0 e0 Hl0. inversion C1 as [X l e Y EX|X l e Y off Hz Hf EX|X l e Y off e1 e2 n Hz Hs Hl Hn EX]; subst; cbn in Hl0.
    - injection Hl0 as -> ->. assert (eb = e0) as -> by (eapply fst_lookup_unique; [exact (tree_nodup L _ _ T)|exact Hb|clear; set_solver]).
      by apply Hzb0.
    - destruct Z as [|[lz ez] Z]; [done|]. cbn in Hl0. injection Hl0 as -> ->.
      assert (eb = e) as -> by (eapply fst_lookup_unique; [exact (tree_nodup L _ _ T)|exact Hb|clear; set_solver]).
      by apply (Hzb X Z l0 e0).
    - injection Hl0 as <- <-. destruct (lw_split _ L e (rle_len e1)) as (x1 & x2 & Ex & _ & _ & _ & Hx2 & _); [|done|].
      + apply (tree_valid L _ _ lb _ T). clear; set_solver.
      + rewrite Hs in Ex. injection Ex as -> ->. lia. }
  destruct (shallow_dec L t2 _ 9 T2) as [Hsh|Hsh]; [by destruct A1| |].
  2:{ exfalso. unfold drain_range, drain_new in E. cbn [qr_cursor] in E. rewrite E1 in E. cbn [rbind] in E. rewrite E2 in E. cbn [rbind] in E. rewrite P2 in E.
    destruct (M ++ Z) as [|[lm em] R] eqn:EMZ; [done|]. cbn [head fmap option_fmap option_map cu_leaf fst] in E.
    rewrite (t_path_deep L t2 _ lm T2) in E; [done| |done]. rewrite fmap_app. apply elem_of_app. right. left. }
  unfold drain_range, drain_new in E. cbn [qr_cursor] in E. rewrite E1 in E. cbn [rbind] in E. rewrite E2 in E. cbn [rbind] in E. rewrite P2, P1 in E.
  destruct (head (M ++ Z)) as [y|] eqn:Ehd; [|by destruct (M ++ Z)]. cbn [fmap option_fmap option_map] in E.
  destruct (drain_new2 t2 (mkCur (fst y) 0) ((fun y => mkCur (fst y) 0) <$> head Z)) as [d| |] eqn:Ed; pose proof Ed as Ed'; unfold drain_new2 in Ed'; cbn [fst] in Ed';
    rewrite Ed' in E; cbn [rbind] in E; [|done|done].
  destruct (drain_take k d) as [[es' d']| |] eqn:Etk; cbn [rbind] in E; [|done|done].
  destruct (drain_drop d') as [t3| |] eqn:Edr; cbn [rbind] in E; [|done|done]. injection E as _ <-.
  eapply (md_body t2 A1 M Z d k es'); [done|done|done|done|by rewrite Ehd|exact Etk|exact Edr|done].
Qed.
End ab.
