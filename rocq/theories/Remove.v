(** Remove.v — level reduction, recursive underflow handling, leaf removal. *)
From Verif Require Export Lack.

Section remove.
Context {B : BTreeTrait} (L : Lawful B).
Notation btree := (btree B).
Notation child := (child B).
Notation CO := (CO L).
Notation RC := (RC L).
Notation VA := (VA L).
Notation act := (act L).
Notation RD := (RD L).
Notation OK := (OK L).
Implicit Types (t : btree) (i j m p q k s : nat) (a b : aidx) (c : child) (cs : list child).

Lemma act_core t t' : CORE t t' -> forall a, act t' a = act t a.
Proof. intros C [x|m]; unfold Law.act; [by rewrite (co_el C)|by rewrite (co_kids C)]. Qed.
Lemma CO_core t t' D : CORE t t' -> CO t D -> CO t' D.
Proof.
  intros C HC p cs c Hk Hc Hd. rewrite (act_core _ _ C). rewrite (co_kids C) in Hk. by eapply HC.
Qed.
Lemma RC_core t t' : CORE t t' -> RC t -> RC t'.
Proof.
  intros C HR. unfold Law.RC. rewrite (CORE_chs _ _ C), (co_root C), (co_rc C), (act_core _ _ C). apply HR.
Qed.
Lemma VA_core t t' : CORE t t' -> VA t -> VA t'.
Proof.
  intros C V. constructor.
  - intros l e. rewrite (co_el C). apply (va_el _ _ V).
  - intros p cs c. rewrite (co_kids C). apply (va_ch _ _ V).
Qed.
Lemma SZ_core t t' n : CORE t t' -> SZ t n -> SZ t' n.
Proof. intros C Z i. by rewrite (CORE_chs _ _ C). Qed.
Lemma SP_core t t' : CORE t t' -> forall m, SP t m -> SP t' m.
Proof. intros C. apply SP_ext; [apply (co_root C)|]. intros j m _. by rewrite (CORE_chs _ _ C). Qed.
Lemma MD_core w t t' : CORE t t' -> MDw w t -> MDw w t'.
Proof.
  intros C [M1 M2]. constructor.
  - intros m Hm Hr. rewrite (co_kids C) in Hm. rewrite (co_root C) in Hr.
    apply (big_mono w t); [by apply SP_core|by rewrite (CORE_chs _ _ C)|auto].
  - intros m. rewrite (co_root C), (CORE_chs _ _ C). apply M2.
Qed.
Lemma cont_ext t t' H H' : gen t' (S H') (root t') = gen t (S H) (root t) -> (forall x, el t' x = el t x) -> cont t' H' = cont t H.
Proof. intros G He. unfold cont. rewrite G. apply pel_ext. intros; apply He. Qed.

(** links are right except those between the root and its children *)
Record LKX t (r : nat) : Prop := {
  lx_ch : forall p k a, p <> r -> chs t p !! k = Some a -> linked t a p k;
  lx_r : forall k m, chs t r !! k = Some (AInt m) -> exists po, lnk t m = Some (po, k);
}.
Lemma LK_LKX t r : LK t -> LKX t r.
Proof.
  intros K. constructor.
  - intros p k a _. apply (lk_ch K).
  - intros k m Hk. apply (lk_ch K) in Hk. cbn in Hk. eauto.
Qed.

Record PRE t H lv r : Prop := {
  pr_wt : WT NoE t H lv; pr_root : root t = AInt r; pr_lx : LKX t r; pr_sz : SZ t 11;
  pr_co : CO t (fun _ => False); pr_rc : RC t; pr_va : VA t;
}.

Lemma reduce_step t H lv r c m n t1 :
  PRE t H lv r -> kids t r = Some [c] -> c_arena c = AInt m -> get_in t m = Ok n ->
  t1 = set_in (rem_in t m) r n ->
  exists lv1, H = S (lv m) /\ PRE t1 (lv m) lv1 r /\ gen t1 (S (lv m)) (root t1) = gen t (S H) (root t) /\
    (forall x, el t1 x = el t x) /\ (forall j, is_Some (kids t1 j) -> j <> r -> kids t1 j = kids t j) /\
    (forall x, SP t x -> is_Some (kids t1 x) -> SP t1 x) /\
    anext (in_nodes t1) = anext (in_nodes t) /\ anext (leaf_nodes t1) = anext (leaf_nodes t).
Proof.
  intros P Hkr Ec Gm ->. destruct P as [W Er LX Z C R V].
  apply get_in_inv in Gm as [Hkm Hlm]. set (cs := n_children n) in *.
  assert (Hcr : chs t r = [AInt m]) by (rewrite (chs_kids _ _ _ Hkr); cbn; by rewrite Ec).
  assert (Hrm : chs t r !! 0 = Some (AInt m)) by (by rewrite Hcr).
  destruct (wt_ch W _ _ _ Hrm) as [_ Hlv]. cbn in Hlv.
  assert (HlvH : lv r = H). { destruct (wt_root W) as (r' & E1 & _ & E2). congruence. }
  assert (Hne : m <> r) by (intros ->; lia).
  set (t1 := set_in (rem_in t m) r n).
  assert (K1 : forall j, kids t1 j = if decide (r = j) then Some cs else if decide (m = j) then None else kids t j).
  { intros j. unfold t1. by rewrite kids_set_in, kids_rem_in. }
  assert (L1 : forall j, j <> r -> j <> m -> lnk t1 j = lnk t j).
  { intros j J1 J2. unfold t1. rewrite lnk_set_in, lnk_rem_in. by rewrite !decide_False. }
  assert (C1 : forall j, chs t1 j = if decide (r = j) then chs t m else if decide (m = j) then [] else chs t j).
  { intros j. unfold chs. rewrite K1. repeat case_decide; try done. by rewrite Hkm. }
  assert (Hchm : forall k a, chs t m !! k = Some a -> live t a /\ lv m = alv lv a /\ a <> AInt m /\ a <> AInt r).
  { intros k a Hk. destruct (wt_ch W _ _ _ Hk) as [? Ha]. split_and!; try done.
    - intros ->. cbn in Ha. lia.
    - intros ->. cbn in Ha. lia. }
  assert (Hcho : forall q k a, q <> r -> chs t q !! k = Some a -> a <> AInt m /\ a <> AInt r).
  { intros q k a Hq Hk. split.
    - intros ->. by destruct (wt_uniq W _ _ _ _ _ Hk Hrm).
    - intros ->. rewrite <- Er in Hk. by apply (wt_root_nochild W) in Hk. }
  assert (Hlive : forall a, a <> AInt m -> live t a -> live t1 a).
  { intros [x|j] Ha Hl; cbn in *; [done|]. rewrite K1. case_decide; [eauto|]. rewrite decide_False by congruence. done. }
  set (lv1 := fun j => if decide (j = r) then lv m else lv j).
  assert (Hlv1 : forall a, a <> AInt r -> alv lv1 a = alv lv a).
  { intros [x|j] Ha; cbn; [done|]. unfold lv1. rewrite decide_False; [done|congruence]. }
  assert (W1 : WT NoE t1 (lv m) lv1).
  { constructor.
    - exists r. split; [done|]. rewrite K1, decide_True by done. split; [eauto|]. unfold lv1. by rewrite decide_True.
    - intros q k a. rewrite C1. case_decide as D1; [|case_decide as D2; [done|]].
      + subst q. intros Hk. destruct (Hchm _ _ Hk) as (Ha & Hb & Hc1 & Hd). split; [by apply Hlive|].
        rewrite Hlv1 by done. unfold lv1. rewrite decide_True by done. done.
      + intros Hk. destruct (Hcho q k a) as [G1 G2]; [congruence|done|]. destruct (wt_ch W _ _ _ Hk) as [? ?].
        split; [by apply Hlive|]. rewrite Hlv1 by done. unfold lv1. rewrite decide_False by congruence. done.
    - intros q k q' k' a. rewrite !C1. repeat case_decide; try done; subst; intros X1 X2;
        destruct (wt_uniq W _ _ _ _ _ X1 X2); try done; congruence.
    - intros a Ha Hr. change (root t1) with (root t) in Hr. assert (a <> AInt m) as Ham.
      { intros ->. cbn in Ha. rewrite K1 in Ha. rewrite decide_False, decide_True in Ha by done. by destruct Ha. }
      assert (live t a) as Hal.
      { destruct a as [x|j]; cbn in *; [done|]. rewrite K1 in Ha. case_decide; [congruence|]. by rewrite decide_False in Ha by congruence. }
      destruct (wt_up W a Hal Hr) as (q & k & Hk).
      destruct (decide (q = r)) as [->|Hq].
      { rewrite Hcr in Hk. destruct k as [|k]; cbn in Hk; [congruence|done]. }
      destruct (decide (q = m)) as [->|Hq2].
      + exists r, k. rewrite C1, decide_True by done. done.
      + exists q, k. rewrite C1, !decide_False by congruence. done.
    - intros j Hj. unfold lv1. case_decide; [lia|]. rewrite K1, decide_False in Hj by congruence.
      case_decide; [by destruct Hj|]. pose proof (wt_nonroot_lv W j Hj ltac:(congruence)). lia.
    - intros j Hj Hr _. change (root t1) with (root t) in Hr. rewrite C1. rewrite decide_False by congruence.
      rewrite K1, decide_False in Hj by congruence. case_decide; [by destruct Hj|]. apply (wt_ne W); [done|done|intros []].
    - intros j Hj. rewrite K1 in Hj. cbn. destruct (decide (r = j)); [subst; apply (wt_fresh W); rewrite Hkr; eauto|].
      case_decide; [by destruct Hj|]. by apply (wt_fresh W).
    - intros x. apply (wt_lfresh W). }
  assert (Hact : forall a, a <> AInt r -> a <> AInt m -> act t1 a = act t a).
  { intros [x|j] A1 A2; unfold Law.act; [done|]. rewrite K1, !decide_False by congruence. done. }
  exists lv1. split; [lia|]. split; [|split; [|split; [done|split; [|split; [|done]]]]].
  - constructor.
    + done.
    + done.
    + constructor.
      * intros q k a Hq. rewrite C1, decide_False by congruence. case_decide; [done|]. intros Hk.
        destruct (Hcho q k a) as [G1 G2]; [congruence|done|].
        pose proof (lx_ch _ _ LX q k a Hq Hk) as Hl. destruct a as [x|j]; cbn in *; [done|].
        rewrite L1 by congruence. done.
      * intros k j. rewrite C1, decide_True by done. intros Hk. destruct (Hchm _ _ Hk) as (_ & _ & G1 & G2).
        pose proof (lx_ch _ _ LX m k _ Hne Hk) as Hl. cbn in Hl. rewrite L1 by congruence. eauto.
    + intros j. rewrite C1. repeat case_decide; try apply Z. cbn. lia.
    + intros q cs0 c0 Hk Hc0 _. rewrite K1 in Hk. case_decide as D1; [|case_decide as D2; [done|]].
      * injection Hk as <-. assert (c_arena c0 ∈ chs t m) as [k Hin]%elem_of_list_lookup.
        { rewrite (chs_kids _ _ _ Hkm). by apply elem_of_list_fmap_1. }
        destruct (Hchm _ _ Hin) as (_ & _ & G1 & G2). rewrite Hact by done. eapply C; [exact Hkm|done|tauto].
      * assert (c_arena c0 ∈ chs t q) as [k Hin]%elem_of_list_lookup.
        { rewrite (chs_kids _ _ _ Hk). by apply elem_of_list_fmap_1. }
        destruct (Hcho q k (c_arena c0)) as [G1 G2]; [congruence|done|].
        rewrite Hact by done. eapply C; [exact Hk|done|tauto].
    + intros _. change (root_cache t1) with (root_cache t). change (root t1) with (root t).
      rewrite R. 2:{ left. rewrite Er. cbn. by rewrite Hcr. }
      rewrite Er. rewrite (act_int L _ _ _ Hkr). cbn [map].
      rewrite (act_int L t1 r cs) by (by rewrite K1, decide_True).
      rewrite (lw_one _ L) by (eapply (va_ch _ _ V); [exact Hkr|left]).
      rewrite (C r [c] c Hkr) by (try left; tauto). rewrite Ec. by rewrite (act_int L _ _ _ Hkm).
    + constructor.
      * intros x e. apply (va_el _ _ V).
      * intros q cs0 c0. rewrite K1. case_decide as D1; [|case_decide as D2; [done|]]; intros Hk Hc0.
        -- injection Hk as <-. by eapply (va_ch _ _ V).
        -- by eapply (va_ch _ _ V).
  - change (root t1) with (root t). rewrite Er. rewrite <- HlvH, Hlv.
    cbn [gen achs]. rewrite C1, decide_True, Hcr by done. cbn. rewrite app_nil_r.
    apply bind_ext_in. intros a [k Hk]%elem_of_list_lookup. destruct (Hchm _ _ Hk) as (Ha & Hb & _).
    apply (gen_below W t1 (lv m)); [|done|lia].
    intros j Hj Hlj. rewrite C1, !decide_False; [done| |]; intros ->; lia.
  - intros j. rewrite K1. intros Hj Hjr. rewrite decide_False in Hj |- * by congruence.
    case_decide; [by destruct Hj|done].
  - assert (Hsr : SP t1 r).
    { pose proof (SP_root t1) as Hs. change (root t1) with (root t) in Hs. rewrite Er in Hs. done. }
    intros x Hx. induction Hx as [|q x Hq IH Hx]; intros Hl.
    + rewrite Er. done.
    + destruct (decide (q = r)) as [-> |Dr].
      { rewrite Hcr in Hx. injection Hx as ->. rewrite K1, decide_False, decide_True in Hl by done. by destruct Hl. }
      destruct (decide (q = m)) as [-> |Dm].
      { apply (SP_first _ r _ Hsr). rewrite C1, decide_True by done. done. }
      apply (SP_first _ q); [|by rewrite C1, !decide_False by done].
      apply IH. rewrite K1, !decide_False by done. apply chs_live. by intros Hz; rewrite Hz in Hx.
Qed.

Lemma reduce_ok n : forall t H lv r bb f, PRE t H lv r -> H = n -> n < f ->
  exists t' H' lv' bb', reduce_f f t bb = Ok (bb', t') /\ PRE t' H' lv' r /\
    gen t' (S H') (root t') = gen t (S H) (root t) /\ (forall x, el t' x = el t x) /\
    (forall j, is_Some (kids t' j) -> j <> r -> kids t' j = kids t j) /\
    (bb' = false -> t' = t /\ H' = H /\ lv' = lv) /\ (bb = true -> bb' = true) /\
    (forall m, AInt m ∈ chs t' r -> 2 <= length (chs t' r)) /\
    (forall x, SP t x -> is_Some (kids t' x) -> SP t' x) /\
    anext (in_nodes t') = anext (in_nodes t) /\ anext (leaf_nodes t') = anext (leaf_nodes t).
Proof.
  induction n as [n IH] using lt_wf_ind. intros t H lv r bb f P Hn Hf. destruct f as [|f]; [lia|].
  cbn [reduce_f]. rewrite (pr_root _ _ _ _ P). rb.
  assert (is_Some (kids t r)) as [cs Hk].
  { destruct (wt_root (pr_wt _ _ _ _ P)) as (r' & E1 & E2 & _). rewrite (pr_root _ _ _ _ P) in E1. congruence. }
  destruct (get_in_kids _ _ _ Hk) as (po & s & Hg & _). rewrite Hg. rb.
  assert (Hstop : (forall m, AInt m ∈ chs t r -> 2 <= length (chs t r)) -> exists t' H' lv' bb', Ok (bb, t) = Ok (bb', t') /\ PRE t' H' lv' r /\
    gen t' (S H') (root t') = gen t (S H) (root t) /\ (forall x, el t' x = el t x) /\
    (forall j, is_Some (kids t' j) -> j <> r -> kids t' j = kids t j) /\
    (bb' = false -> t' = t /\ H' = H /\ lv' = lv) /\ (bb = true -> bb' = true) /\
    (forall m, AInt m ∈ chs t' r -> 2 <= length (chs t' r)) /\
    (forall x, SP t x -> is_Some (kids t' x) -> SP t' x) /\
    anext (in_nodes t') = anext (in_nodes t) /\ anext (leaf_nodes t') = anext (leaf_nodes t)).
  { intros HS. exists t, H, lv, bb. by split_and!. }
  rewrite (chs_kids _ _ _ Hk) in Hstop. rewrite <- (pr_root _ _ _ _ P).
  destruct cs as [|c [|c2 cs]].
  - apply Hstop. by intros m ?%elem_of_nil.
  - destruct (c_arena c) as [x|m] eqn:Ec.
    + apply Hstop. cbn. rewrite Ec. by intros m ?%elem_of_list_singleton.
    + destruct (wt_live_child (pr_wt _ _ _ _ P) r (AInt m)) as [csm Hkm].
      { rewrite (chs_kids _ _ _ Hk). cbn. rewrite Ec. left. }
      destruct (get_in_kids _ _ _ Hkm) as (pom & sm & Hgm & _). rewrite Hgm. rb.
      assert (Hrm : m <> r).
      { intros ->. assert (chs t r !! 0 = Some (AInt r)) as Hx by (rewrite (chs_kids _ _ _ Hk); cbn; by rewrite Ec).
        apply (wt_ch (pr_wt _ _ _ _ P)) in Hx as [_ Hx]. cbn in Hx. lia. }
      destruct (reduce_step t H lv r c m _ _ P Hk Ec Hgm eq_refl) as (lv1 & HH & P1 & G1 & E1 & K1 & Sp1 & An1 & Al1).
      assert (get_in (rem_in t m) r = Ok (mkNode po s [c])) as ->.
      { apply get_in_inv in Hg as [? Hl]. apply get_in_proj.
        - rewrite kids_rem_in, decide_False by done. done.
        - rewrite lnk_rem_in, decide_False by done. done. }
      rb.
      destruct (IH (lv m) ltac:(lia) _ _ _ _ true f P1 eq_refl ltac:(lia))
        as (t' & H' & lv' & bb' & -> & P' & G' & E' & K' & B1 & B2 & S' & Sp' & An' & Al').
      exists t', H', lv', bb'. split; [done|]. split; [done|]. split; [congruence|].
      split; [intros x; by rewrite E', E1|]. split.
      { intros j Hj Hjr. rewrite K' by done. apply K1; [|done]. rewrite <- K'; done. }
      split; [intros ->; by specialize (B2 eq_refl)|]. split; [by intros _; apply B2|]. split; [done|].
      split; [|by rewrite An', Al'].
      intros x Hx Hl. apply Sp'; [|done]. destruct (decide (x = r)) as [-> |Dx].
      { pose proof (SP_root (set_in (rem_in t m) r (mkNode pom sm csm))) as Hs.
        change (root (set_in (rem_in t m) r (mkNode pom sm csm))) with (root t) in Hs. by rewrite (pr_root _ _ _ _ P) in Hs. }
      apply Sp1; [done|]. by rewrite <- K'.
  - apply Hstop. intros m _. cbn. lia.
Qed.

Lemma try_reduce_ok t H lv : OK t H lv ->
  exists t' H' lv', try_reduce_levels t = Ok t' /\ OK t' H' lv' /\ root t' = root t /\
    gen t' (S H') (root t') = gen t (S H) (root t) /\ (forall x, el t' x = el t x) /\
    (forall j, is_Some (kids t' j) -> AInt j <> root t -> kids t' j = kids t j) /\
    (forall m, AInt m ∈ chs t' (raw (root t')) -> 2 <= length (chs t' (raw (root t')))) /\
    (forall x, SP t x -> is_Some (kids t' x) -> SP t' x) /\
    anext (in_nodes t') = anext (in_nodes t) /\ anext (leaf_nodes t') = anext (leaf_nodes t).
Proof.
  intros O. destruct (wt_root (ok_wt _ _ _ _ O)) as (r & Er & Hkr & HlvH).
  assert (P : PRE t H lv r).
  { constructor; try apply O; [done|]. apply LK_LKX, O. }
  destruct (decide (chs t r = [])) as [De|De].
  { destruct Hkr as [cs Hk]. rewrite (chs_kids _ _ _ Hk) in De. apply fmap_nil_inv in De. subst cs.
    destruct (get_in_kids _ _ _ Hk) as (po & s & Hg & _).
    unfold try_reduce_levels. unfold fuel. cbn [reduce_f]. rewrite Er. rb. rewrite Hg. rb.
    exists t, H, lv. rewrite Er. cbn [raw]. split_and!; try done.
    rewrite (chs_kids _ _ _ Hk). by intros m ?%elem_of_nil. }
  destruct (reduce_ok H t H lv r false (fuel t) P eq_refl) as (t1 & H1 & lv1 & bb & E1 & P1 & G1 & El1 & K1 & B1 & _ & S1 & Sp1 & An1 & Al1).
  { pose proof (wt_height_bound (ok_wt _ _ _ _ O)) as Hh. rewrite Er in Hh. specialize (Hh De). unfold fuel. lia. }
  unfold try_reduce_levels. rewrite E1. rb. destruct bb.
  2:{ destruct (B1 eq_refl) as (-> & -> & ->). exists t, H, lv. rewrite Er. cbn [raw]. by split_and!. }
  destruct P1 as [W1 Er1 LX1 Z1 C1 R1 V1]. rewrite Er1. rb.
  assert (is_Some (kids t1 r)) as [cs Hk].
  { destruct (wt_root W1) as (r' & X1 & X2 & _). congruence. }
  destruct (get_in_kids _ _ _ Hk) as (po & s & Hg & _). rewrite Hg. rb.
  destruct (set_in_link t1 r (mkNode po s cs) None U8_MAX Hg) as (C2 & L2 & O2). cbn [n_children] in C2, L2, O2.
  set (t2 := set_in t1 r (mkNode None U8_MAX cs)) in *.
  change (root t2) with (root t1). rewrite Er1. unfold reset_children_parent_pointer. rb.
  assert (get_in t2 r = Ok (mkNode None U8_MAX cs)) as ->.
  { apply get_in_proj; [by rewrite (co_kids C2)|done]. }
  rb. pose proof (WT_core _ _ _ _ _ C2 W1) as W2.
  assert (Hk2 : kids t2 r = Some cs) by (by rewrite (co_kids C2)).
  destruct (reset_pp_ok cs t2 r) as (t3 & E3 & C3 & O3 & Lf3 & In3).
  { intros a Ha. apply (wt_live_child W2 r). by rewrite (chs_kids _ _ _ Hk2). }
  { rewrite <- (chs_kids _ _ _ Hk2). apply (wt_nodup W2). }
  exists t3, H1, lv1. split; [done|].
  assert (C13 : CORE t1 t3) by (by eapply CORE_trans).
  assert (W3 : WT NoE t3 H1 lv1) by (by eapply WT_core).
  assert (Hrn : AInt r ∉ map c_arena cs).
  { rewrite <- (chs_kids _ _ _ Hk). intros [k Hx]%elem_of_list_lookup. rewrite <- Er1 in Hx. by apply (wt_root_nochild W1) in Hx. }
  assert (Hlk3 : LK t3).
  { constructor.
    - intros q k a. rewrite (CORE_chs _ _ C13). intros Hk1. 
      destruct (decide (q = r)) as [->|Hq].
      + rewrite (chs_kids _ _ _ Hk) in Hk1.
        assert (a ∈ map c_arena cs) as Hin by (by eapply elem_of_list_lookup_2).
        destruct a as [x|m]; cbn; [by apply Lf3|].
        destruct (lx_r _ _ LX1 k m) as [po' Hl]; [by rewrite (chs_kids _ _ _ Hk)|].
        apply (In3 m po' k Hin). destruct (decide (m = r)) as [->|Hmr]; [done|].
        pose proof (O2 (AInt m) ltac:(congruence)) as Hs. cbn in Hs. by rewrite Hs.
      + pose proof (lx_ch _ _ LX1 q k a Hq Hk1) as Hl.
        eapply lnk_same_linked; [|exact Hl]. eapply lnk_same_trans; [apply O2|apply O3].
        * intros ->. rewrite <- Er1 in Hk1. by apply (wt_root_nochild W1) in Hk1.
        * rewrite <- (chs_kids _ _ _ Hk). intros [k' Hx]%elem_of_list_lookup. by destruct (wt_uniq W1 _ _ _ _ _ Hk1 Hx).
    - intros r' Hr'. rewrite (co_root C3) in Hr'. change (root t2) with (root t1) in Hr'. rewrite Er1 in Hr'. injection Hr' as <-.
      pose proof (O3 (AInt r) Hrn) as Hs. cbn in Hs. exists U8_MAX. by rewrite Hs. }
  split; [|].
  { constructor; [done|done| | | |].
    - by eapply SZ_core.
    - by eapply CO_core.
    - by eapply RC_core.
    - by eapply VA_core. }
  assert (Hr3 : root t3 = root t) by (rewrite (co_root C13); congruence).
  split_and!.
  - done.
  - rewrite (gen_core _ _ C13), (co_root C13). done.
  - intros x. by rewrite (co_el C13), El1.
  - intros j. rewrite (co_kids C13). intros Hj Hjr. apply K1; [done|congruence].
  - rewrite Hr3, Er. cbn [raw]. rewrite (CORE_chs _ _ C13). apply S1.
  - intros x Hx. rewrite (co_kids C13). intros Hl. apply (SP_core _ _ C13). by apply Sp1.
  - by rewrite (co_an C13).
  - by rewrite (co_al C13).
Qed.

Lemma rd_OK t t' H lv p l old new r : OK t H lv -> 0 < lv p -> RD t t' p l old new r -> new <> [] ->
  length (l ++ new ++ r) <= 11 -> (forall m, AInt m ∈ map c_arena new -> length (chs t' m) <= 11) ->
  exists lv', OK t' H lv' /\ (forall j, is_Some (kids t j) -> lv' j = lv j) /\
    gen t' (S H) (root t') = gen t (S H) (root t).
Proof.
  intros O Hlp R Hne Hl1 Hl2. pose proof (ok_wt _ _ _ _ O) as W. pose proof (rd_WT L W Hlp R) as W'.
  assert (Ho : forall c, c ∈ old -> kidl t c <> []).
  { intros c Hc. assert (c_arena c ∈ map c_arena old) as Hin by (by apply elem_of_list_fmap_1).
    destruct (rd_old_int L W Hlp R (c_arena c) Hin) as (m & Ec & _ & [cs Hk]). unfold kidl. rewrite Ec, Hk. cbn.
    assert (chs t m <> []) as Hm.
    { apply (wt_ne W); [eauto| |intros []]. rewrite <- Ec. intros Er.
      apply (rd_old_in L R) in Hin as [k Hin]%elem_of_list_lookup. rewrite Er in Hin. by apply (wt_root_nochild W) in Hin. }
    rewrite (chs_kids _ _ _ Hk) in Hm. by intros ->. }
  eexists. split; [|split; [|apply (rd_gen L W Hlp R)]].
  - constructor.
    + eapply WT_shrink; [|exact W']. intros m _ _ [[]| ->] _.
      rewrite (chs_kids _ _ _ (rd_p' _ _ _ _ _ _ _ _ R)). intros Hx. apply fmap_nil_inv in Hx. by destruct l, new.
    + apply (rd_LK L W Hlp R), O.
    + eapply (rd_SZ L Hlp R); [apply O|done|done].
    + eapply (rd_CO L W Hlp R); [apply O|apply O|tauto|]. intros c Hc. left. by apply Ho.
    + eapply (rd_RC L W Hlp R); [apply O|apply O| | |].
      * eapply CO_mono; [|apply O]. tauto.
      * intros c Hc. left. by apply Ho.
      * left. intros [_ [-> _]%app_eq_nil]%app_eq_nil. apply Hne.
        pose proof (rd_grand _ _ _ _ _ _ _ _ R) as G. destruct new as [|c new]; [done|].
        destruct (rd_new _ _ _ _ _ _ _ _ R c) as (m & K0 & E1 & E2 & E3 & _); [left|].
        cbn in G. unfold kidl in G at 1. rewrite E1, E2 in G. by destruct K0.
    + apply (rd_VA L W Hlp R), O.
  - intros j. apply (rd_lv L W Hlp R).
Qed.

(** minimal sizes, except for node [x] *)
Record MDXw (w : bool) t x : Prop := {
  mx_in : forall m, is_Some (kids t m) -> AInt m <> root t -> m <> x -> big w t m;
  mx_root : AInt x <> root t -> forall m, AInt m ∈ chs t (raw (root t)) -> 2 <= length (chs t (raw (root t)));
}.

(** the parent of a spine node is on the spine and has it as its first child *)
Lemma SP_up E t H lv p x : WT E t H lv -> SP t x -> AInt x ∈ chs t p -> SP t p /\ head (chs t p) = Some (AInt x).
Proof.
  intros W Hs [k Hk]%elem_of_list_lookup. destruct Hs as [|q x Hq Hx].
  - rewrite <- (wt_root_id W) in Hk. by apply (wt_root_nochild W) in Hk.
  - pose proof (head_Some_in _ _ Hx) as [k' Hk']%elem_of_list_lookup. destruct (wt_uniq W _ _ _ _ _ Hk Hk') as [<- _]. done.
Qed.

Lemma hls_OK t H lv x : OK t H lv -> is_Some (kids t x) -> AInt x <> root t ->
  exists p o t' lv', handle_lack_single_layer t (AInt x) = Ok (o, t') /\ lv p = S (lv x) /\ AInt x ∈ chs t p /\
    hls_res L t x p o t' /\ OK t' H lv' /\ (forall j, is_Some (kids t j) -> lv' j = lv j) /\
    gen t' (S H) (root t') = gen t (S H) (root t) /\ (forall z, el t' z = el t z) /\ root t' = root t /\
    is_Some (kids t' p) /\ anext (leaf_nodes t) <= anext (leaf_nodes t') /\
    (forall w, MDXw w t x -> match o with Some _ => MDXw w t' p | None => MDw w t' end).
Proof.
  intros O Hx Hr. pose proof (ok_wt _ _ _ _ O) as W.
  destruct (hls_ok L NoE t H lv x W) as (p & o & t' & Hlv & Hin & E & HR); [apply O|apply O| |done|done|].
  { intros j. pose proof (ok_sz _ _ _ _ O j). lia. }
  exists p, o, t'.
  assert (Hlp : 0 < lv p) by lia.
  assert (Hxne : chs t x <> []) by (apply (wt_ne W); [done|done|intros []]).
  assert (Hlpn : is_Some (kids t p)). { apply chs_live. intros Hz. rewrite Hz in Hin. by apply elem_of_nil in Hin. }
  pose proof (ok_sz _ _ _ _ O) as Z.
  (* common part for the two redistributions *)
  assert (Hcom : forall l old new r, RD t t' p l old new r -> new <> [] -> length new <= length old ->
     (forall m, AInt m ∈ map c_arena new -> length (chs t' m) <= 11) ->
     (forall w, MDXw w t x -> (forall z, SP t z -> is_Some (kids t' z) -> SP t' z) -> forall m, AInt m ∈ map c_arena new -> big w t' m) ->
     (forall m, l = [] -> head (map c_arena old) = Some (AInt m) -> AInt m ∈ map c_arena new -> head (map c_arena new) = Some (AInt m)) ->
     AInt x ∈ map c_arena old -> 
     o = (if decide (length (chs t' p) < 6) then Some (AInt p) else None) ->
     exists lv', OK t' H lv' /\ (forall j, is_Some (kids t j) -> lv' j = lv j) /\
    gen t' (S H) (root t') = gen t (S H) (root t) /\ (forall z, el t' z = el t z) /\ root t' = root t /\
    is_Some (kids t' p) /\ anext (leaf_nodes t) <= anext (leaf_nodes t') /\
    (forall w, MDXw w t x -> match o with Some _ => MDXw w t' p | None => MDw w t' end)).
  { intros l old new r R Hne Hlen Hsz Hmin Hh Hxo Ho.
    destruct (rd_OK t t' H lv p l old new r O Hlp R Hne) as (lv' & O' & Hlv' & Hg).
    { pose proof (Z p) as Zp. rewrite (rd_chs L R) in Zp. rewrite !app_length, !map_length in Zp.
      rewrite !app_length. lia. }
    { done. }
    exists lv'. split_and!; try done; try apply (rd_el _ _ _ _ _ _ _ _ R); try apply (rd_root _ _ _ _ _ _ _ _ R);
      try apply (rd_al _ _ _ _ _ _ _ _ R).
    { rewrite (rd_p' _ _ _ _ _ _ _ _ R). eauto. }
    intros w M.
    assert (Hsp : forall z, SP t z -> is_Some (kids t' z) -> SP t' z).
    { apply (rd_SP L _ _ _ _ _ _ _ _ _ _ W Hlp R Hh). intros ->. cbn in Hlen. by apply elem_of_nil in Hxo. }
    assert (Hin6 : forall m, is_Some (kids t' m) -> AInt m <> root t' -> m <> p -> big w t' m).
    { intros m Hm Hmr Hmp. destruct (decide (AInt m ∈ map c_arena new)) as [Dn|Dn]; [by apply (Hmin w M)|].
      destruct (decide (AInt m ∈ map c_arena old)) as [Do|Do].
      { rewrite (rd_del _ _ _ _ _ _ _ _ R m Do Dn) in Hm. by destruct Hm. }
      pose proof (rd_other _ _ _ _ _ _ _ _ R m Hmp Do Dn) as Ek. apply (big_mono w t); [by eauto|unfold chs; by rewrite Ek|]. rewrite Ek in Hm.
      apply (mx_in _ _ _ M); [done| |].
      - by rewrite <- (rd_root _ _ _ _ _ _ _ _ R).
      - intros ->. done. }
    assert (Hroot : AInt p <> root t' -> forall m, AInt m ∈ chs t' (raw (root t')) -> 2 <= length (chs t' (raw (root t')))).
    { intros Hpr. rewrite (rd_root _ _ _ _ _ _ _ _ R) in Hpr |- *.
      assert (kids t' (raw (root t)) = kids t (raw (root t))) as Ek.
      { assert (AInt (raw (root t)) ∉ map c_arena old) as Hno.
        { intros Hino. rewrite <- (wt_root_id W) in Hino. apply (rd_old_in L R) in Hino as [k Hk]%elem_of_list_lookup.
          by apply (wt_root_nochild W) in Hk. }
        apply (rd_other _ _ _ _ _ _ _ _ R); [|done|].
        - intros E1. apply Hpr. by rewrite (wt_root_id W), E1.
        - intros Hn. apply Hno. apply (rd_new_old L R _ Hn), (wt_root_live W). }
      intros m. unfold chs. rewrite Ek. apply (mx_root _ _ _ M Hr). }
    rewrite Ho. case_decide as D.
    - constructor; [exact Hin6|exact Hroot].
    - constructor.
      + intros m Hm Hmr. destruct (decide (m = p)) as [->|Hmp]; [apply big_6; lia|]. by apply Hin6.
      + destruct (decide (AInt p = root t')) as [Ep|Ep]; [|by apply Hroot].
        intros m _. rewrite <- Ep. cbn [raw]. lia. }
  inversion HR as [Hp1 Hp2|l c r t0 Ec He R|l ca cb r ai bi A' B' t0 Ea Eb Hxab Hne R Ka Kb Hsum Hsum2 LA LB L1 L2|l ca cb r ai bi y cs t0 Ea Eb Hxab Hne Hy R Ky Hsum Hlt]; subst o t'.
  - exists lv. split_and!; try done.
    intros w M. destruct (decide (AInt p = root t)) as [Ep|Ep].
    + exfalso. pose proof (mx_root _ _ _ M Hr x) as Hx2. rewrite <- Ep in Hx2. cbn [raw] in Hx2. rewrite Hp1 in Hx2.
      specialize (Hx2 ltac:(left)). cbn in Hx2. lia.
    + pose proof (mx_in _ _ _ M p) as Hx2. 
      assert (p <> x) by (intros ->; lia). specialize (Hx2 Hlpn Ep ltac:(done)).
      destruct w; cbn in Hx2; rewrite Hp1 in Hx2; cbn in Hx2; [|lia]. destruct Hx2 as [Hx2|?]; [|lia].
      constructor; [|by intros _; apply (mx_root _ _ _ M Hr)].
      intros m Hm Hmr Hmp. destruct (decide (m = x)) as [-> |]; [|by apply (mx_in _ _ _ M)].
      left. apply (SP_first _ p _ Hx2). by rewrite Hp1.
  - done.
  - destruct (Hcom l [ca; cb] _ r R) as (lv' & Hc); try done.
    + pose proof (Z ai). pose proof (Z bi). cbn. intros m [[= ->]|[= ->]%elem_of_list_singleton]%elem_of_cons.
      * rewrite (chs_kids _ _ _ Ka), map_length. lia.
      * rewrite (chs_kids _ _ _ Kb), map_length. lia.
    + intros w _ _. cbn. intros m [[= ->]|[= ->]%elem_of_list_singleton]%elem_of_cons; apply big_6.
      * rewrite (chs_kids _ _ _ Ka), map_length. lia.
      * rewrite (chs_kids _ _ _ Kb), map_length. lia.
    + cbn. rewrite Ea. intros m _ [= <-] _. done.
    + cbn. rewrite Ea, Eb. destruct Hxab as [-> | ->]; [left|right; left].
    + exists lv'. split; [done|]. split; [done|]. split; [done|]. split; [done|]. exact Hc.
  - destruct (Hcom l [ca; cb] _ r R) as (lv' & Hc); try done.
    + cbn. lia.
    + cbn. intros m [= ->]%elem_of_list_singleton. rewrite (chs_kids _ _ _ Ky), map_length. lia.
    + intros w M Hsp. cbn. intros m [= ->]%elem_of_list_singleton.
      assert (Hlen' : length (chs t0 y) = length (chs t ai) + length (chs t bi)) by (by rewrite (chs_kids _ _ _ Ky), map_length, Hsum).
      assert (Hold : forall z, z = ai \/ z = bi -> z <> x -> big w t z).
      { intros z Hz Hzx. assert (AInt z ∈ chs t p) as Hzp.
        { apply (rd_old_in L R). cbn. rewrite Ea, Eb. destruct Hz as [-> | ->]; [left|right; left]. }
        apply (mx_in _ _ _ M); [by apply (wt_live_child W) in Hzp| |done].
        intros Er. rewrite Er in Hzp. apply elem_of_list_lookup in Hzp as [k Hk]. by apply (wt_root_nochild W) in Hk. }
      assert (ai <> bi) as Hab.
      { pose proof (rd_nodup L W R) as Hnd. apply NoDup_app in Hnd as (_ & _ & Hnd). apply NoDup_app in Hnd as (Hnd & _).
        cbn in Hnd. rewrite Ea, Eb in Hnd. apply NoDup_cons in Hnd as [Hnd _]. intros ->. apply Hnd. left. }
      assert (Hxl : 1 <= length (chs t x)) by (destruct (chs t x); [done|cbn; lia]).
      assert (exists z, (z = ai \/ z = bi) /\ z <> x /\ length (chs t ai) + length (chs t bi) = length (chs t x) + length (chs t z)) as (z & Hz1 & Hz2 & Hz3).
      { destruct Hxab as [-> | ->]; [exists bi|exists ai]; (split; [auto|split; [congruence|lia]]). }
      specialize (Hold z Hz1 Hz2). destruct w; cbn in Hold |- *; [|lia]. destruct Hold as [Hzs|?]; [|right; lia].
      left. assert (AInt z ∈ chs t p) as Hzp.
      { apply (rd_old_in L R). cbn. rewrite Ea, Eb. destruct Hz1 as [-> | ->]; [left|right; left]. }
      destruct (SP_up _ _ _ _ _ _ W Hzs Hzp) as [Hps Hhd].
      assert (l = []) as ->.
      { rewrite (rd_chs L R) in Hhd. destruct l as [|c0 l]; [done|]. cbn in Hhd. injection Hhd as Hc0.
        pose proof (rd_nodup L W R) as Hnd. cbn in Hnd. apply NoDup_cons in Hnd as [Hn _]. destruct Hn. rewrite Hc0.
        rewrite elem_of_app. right. rewrite Ea, Eb. destruct Hz1 as [-> | ->]; [left|right; left]. }
      apply (SP_first _ p); [apply Hsp; [done|]; rewrite (rd_p' _ _ _ _ _ _ _ _ R); eauto|].
      rewrite (rd_chs' L R). done.
    + cbn. by intros m _ _ ->%elem_of_list_singleton.
    + cbn. rewrite Ea, Eb. destruct Hxab as [-> | ->]; [left|right; left].
    + exists lv'. split; [done|]. split; [done|]. split; [done|]. split; [done|]. exact Hc.
Qed.

Lemma hl_ok n : forall t H lv x f, OK t H lv -> is_Some (kids t x) -> H - lv x = n -> n < f ->
  exists t' H' lv', handle_lack_f f t (AInt x) = Ok t' /\ OK t' H' lv' /\
    gen t' (S H') (root t') = gen t (S H) (root t) /\ (forall z, el t' z = el t z) /\ root t' = root t /\
    anext (leaf_nodes t) <= anext (leaf_nodes t') /\ (forall w, MDXw w t x -> MDw w t').
Proof.
  induction n as [n IH] using lt_wf_ind. intros t H lv x f O Hx Hn Hf. destruct f as [|f]; [lia|].
  cbn [handle_lack_f]. destruct (decide (AInt x = root t)) as [Er|Er].
  - unfold handle_lack_single_layer. rewrite decide_True by done.
    destruct (try_reduce_ok t H lv O) as (t' & H' & lv' & -> & O' & R' & G' & E' & K' & S' & Sp' & _ & Al). rb.
    exists t', H', lv'. split_and!; try done; [lia|]. intros w M. constructor; [|done].
    intros m Hm Hmr. rewrite R' in Hmr. pose proof (K' m Hm Hmr) as Ek.
    apply (big_mono w t); [by eauto|unfold chs; by rewrite Ek|]. rewrite Ek in Hm.
    apply (mx_in _ _ _ M); [done|done|]. congruence.
  - destruct (hls_OK t H lv x O Hx Er) as (p & o & t1 & lv1 & E1 & Hlv & Hin & HR & O1 & Hlv1 & G1 & El1 & R1 & Hp1 & Al1 & M1).
    rewrite E1. rb.
    assert (Hlpn : is_Some (kids t p)). { apply chs_live. intros Hz. rewrite Hz in Hin. by apply elem_of_nil in Hin. }
    assert (o = None \/ o = Some (AInt p)) as [-> | ->].
    { destruct HR; try case_decide; auto. }
    + exists t1, H, lv1. split_and!; try done.
    + pose proof (wt_nonroot_lv (ok_wt _ _ _ _ O) x Hx Er).
      destruct (IH (H - lv p) ltac:(lia) t1 H lv1 p f O1 Hp1) as (t' & H' & lv' & E' & O' & G' & El' & R' & Al' & M').
      { rewrite Hlv1 by done. done. }
      { lia. }
      exists t', H', lv'. split_and!; try done; try congruence.
      * lia.
      * intros w M. by apply M', M1.
Qed.
Lemma handle_lack_ok t H lv x : OK t H lv -> is_Some (kids t x) ->
  exists t' H' lv', handle_lack_recursively t (AInt x) = Ok t' /\ OK t' H' lv' /\
    gen t' (S H') (root t') = gen t (S H) (root t) /\ (forall z, el t' z = el t z) /\ root t' = root t /\
    anext (leaf_nodes t) <= anext (leaf_nodes t') /\ (forall w, MDXw w t x -> MDw w t').
Proof.
  intros O Hx. eapply hl_ok; [done|done|done|].
  pose proof (wt_depth_bound (ok_wt _ _ _ _ O) x Hx). unfold fuel. lia.
Qed.

Lemma mdx_md w t E H lv p : WT E t H lv -> 6 <= length (chs t p) -> MDXw w t p -> MDw w t.
Proof.
  intros W H6 M. constructor.
  - intros m Hm Hr. destruct (decide (m = p)) as [-> |Hmp]; [by apply big_6|]. by apply (mx_in _ _ _ M).
  - intros m Hm. destruct (decide (AInt p = root t)) as [Hr|Hr]; [|by eapply (mx_root _ _ _ M)].
    rewrite <- Hr. cbn [raw]. lia.
Qed.

(** ** Removing an emptied internal node ([remove_internal_node]) *)
Lemma ri_ok n : forall t H lv i f,
  WT (fun m => m = i) t H lv -> LK t -> SZ t 11 -> VA t -> CO t (fun _ => False) -> RC t -> kids t i = Some [] ->
  (AInt i = root t \/ mono L = true) -> H - lv i = n -> n < f ->
  exists t' H' lv', remove_internal_f f t i = Ok t' /\ OK t' H' lv' /\
    gen t' (S H') (root t') = gen t (S H) (root t) /\ (forall z, el t' z = el t z) /\ root t' = root t /\
    anext (leaf_nodes t) <= anext (leaf_nodes t') /\ (forall w, AInt i = root t \/ (w = true /\ SP t i) -> MDXw w t i -> MDw w t').
Proof.
  induction n as [n IH] using lt_wf_ind. intros t H lv i f W K Z V C R Hki Hm Hn Hf. destruct f as [|f]; [lia|].
  cbn [remove_internal_f]. assert (Hi : is_Some (kids t i)) by (rewrite Hki; eauto).
  case_decide as Er.
  - exists t, H, lv. split; [done|]. assert (AInt i = root t) as Er' by (by rewrite Er, <- (wt_root_id W)).
    split; [constructor; try done|].
    { eapply WT_shrink; [|exact W]. intros m _ Hr -> _. done. }
    split_and!; try done. intros w _ M. constructor.
    + intros m Hml Hr. apply (mx_in _ _ _ M); [done|done|]. congruence.
    + intros m. rewrite <- Er, (chs_kids _ _ _ Hki). intros []%elem_of_nil.
  - assert (AInt i <> root t) as Er'. { intros Ex. apply Er. by rewrite <- Ex. }
    assert (HM : mono L = true) by (by destruct Hm).
    destruct (parent_of W K i Hi Er') as (p & s & cs & c & pn & Hl & Hgp & Hkp & Hcs & Hc & Ha & Hlv & Hpi).
    destruct (get_in_kids t i [] Hki) as (po & s' & Hgi & Hli).
    rewrite Hl in Hli. injection Hli as <- <-.
    rewrite Hgi. cbn [rbind n_parent n_slot ropt unwrap_internal].
    assert (Hgp' : get_in (rem_in t i) p = Ok pn).
    { apply get_in_inv in Hgp as [G1 G2]. destruct pn as [po2 s2 cs2]. cbn in *.
      apply get_in_proj; [rewrite kids_rem_in|rewrite lnk_rem_in]; by rewrite decide_False by congruence. }
    rewrite Hgp'. cbn [rbind]. rewrite Hcs.
    pose proof (elem_of_list_split_length _ _ _ Hc) as (l & r & Ecs & Elen). subst cs s.
    rewrite Ecs in Hkp, Hc |- *. rewrite vec_remove_mid. cbn [rbind].
    set (t2 := set_in _ _ _).
    assert (Hlp : 0 < lv p) by lia.
    destruct (drop_empty_ok L _ t H lv p i l c r t2 W K Hlp Hkp Ha Hki) as (t3 & E3 & R3); try done.
    { intros j. unfold t2, with_children. rewrite kids_set_in, kids_rem_in. cbn. repeat case_decide; subst; try done; congruence. }
    { intros j. unfold t2, with_children. rewrite lnk_set_in, lnk_rem_in. cbn. apply get_in_inv in Hgp as [_ Hlp'].
      repeat case_decide; subst; try done; congruence. }
    rewrite E3. cbn [rbind].
    pose proof (rd_WT L W Hlp R3) as W3. pose proof (rd_LK L W Hlp R3 K) as K3.
    assert (Hki3 : kids t3 i = None).
    { apply (rd_del _ _ _ _ _ _ _ _ R3); cbn; [rewrite Ha; set_solver|set_solver]. }
    assert (Z3 : SZ t3 11).
    { apply (rd_SZ L Hlp R3); [done| |cbn; set_solver]. pose proof (Z p) as Zp.
      rewrite (chs_kids _ _ _ Hkp), map_length in Zp. rewrite app_length in *. cbn in *. lia. }
    pose proof (rd_VA L W Hlp R3 V) as V3.
    assert (C3 : CO t3 (fun _ => False)) by (apply (rd_CO L W Hlp R3); auto).
    assert (RC3 : RC t3).
    { apply (rd_RC L W Hlp R3); auto. eapply CO_mono; [|exact C]. done. }
    pose proof (rd_gen L W Hlp R3) as G3. pose proof (rd_p' _ _ _ _ _ _ _ _ R3) as Hkp3.
    pose proof (rd_lv L W Hlp R3 p ltac:(rewrite Hkp; eauto)) as Hlv3.
    pose proof (rd_root _ _ _ _ _ _ _ _ R3) as Rt3. pose proof (rd_al _ _ _ _ _ _ _ _ R3) as Al3.
    pose proof (rd_el _ _ _ _ _ _ _ _ R3) as El3. cbn [app] in Hkp3.
    match type of W3 with WT _ _ _ ?x => remember x as lv3 eqn:Elv3; clear Elv3 end.
    assert (W3' : WT (fun m => m = p) t3 H lv3).
    { eapply WT_shrink; [|exact W3]. intros m Hml _ [-> | ->]; [|done]. rewrite Hki3 in Hml. by destruct Hml. }
    assert (MX3 : forall w, AInt i = root t \/ (w = true /\ SP t i) -> MDXw w t i -> w = true /\ SP t3 p /\ MDXw w t3 p).
    { intros w [?|[-> Hsi]] M; [done|]. split; [done|].
      assert (AInt i ∈ chs t p) as Hip by (rewrite (chs_kids _ _ _ Hkp), map_app; cbn; rewrite Ha; set_solver).
      destruct (SP_up _ _ _ _ _ _ W Hsi Hip) as [Hps _].
      assert (Hsp : forall z, SP t z -> is_Some (kids t3 z) -> SP t3 z).
      { apply (rd_SP L _ _ _ _ _ _ _ _ _ _ W Hlp R3); [|done]. intros m _ _ []%elem_of_nil. }
      split; [apply Hsp; [done|]; rewrite Hkp3; eauto|].
      assert (Hoth : forall m, is_Some (kids t3 m) -> m <> p -> kids t3 m = kids t m).
      { intros m Hm0 Hmp. apply (rd_other _ _ _ _ _ _ _ _ R3); [done| |by intros []%elem_of_nil].
        cbn. rewrite Ha. intros [= ->]%elem_of_list_singleton. rewrite Hki3 in Hm0. by destruct Hm0. }
      constructor.
      - intros m Hm0 Hmr Hmp. pose proof (Hoth m Hm0 Hmp) as Ek. apply (big_mono true t); [by eauto|unfold chs; by rewrite Ek|].
        rewrite Rt3 in Hmr. apply (mx_in _ _ _ M); [by rewrite <- Ek|done|]. intros ->. rewrite Hki3 in Hm0. by destruct Hm0.
      - intros Hpr. rewrite Rt3 in Hpr |- *.
        assert (raw (root t) <> p) as Hrp. { intros Hx. apply Hpr. by rewrite <- Hx, <- (wt_root_id W). }
        assert (kids t3 (raw (root t)) = kids t (raw (root t))) as Ek.
        { apply (rd_other _ _ _ _ _ _ _ _ R3); [done| |by intros []%elem_of_nil].
          cbn. rewrite Ha. intros Hx%elem_of_list_singleton. apply Er'. by rewrite <- Hx, <- (wt_root_id W). }
        intros m. unfold chs. rewrite Ek. apply (mx_root _ _ _ M Er'). }
    unfold n_is_empty, with_children. cbn [n_children].
    pose proof (wt_nonroot_lv W i Hi Er') as Hlvi.
    destruct (decide (l ++ r = [])) as [El|El].
    + rewrite bool_decide_eq_true_2 by done. rewrite El in *.
      destruct (IH (H - lv p) ltac:(lia) t3 H lv3 p f W3' K3 Z3 V3 C3 RC3) as (t' & H' & lv' & E' & O' & G' & El' & Rt' & Al' & M'); try done.
      { by right. } { by rewrite Hlv3. } { lia. }
      exists t', H', lv'. split_and!; try done; try congruence; [lia|].
      intros w Hw M. destruct (MX3 w Hw M) as (-> & ? & ?). apply M'; auto.
    + rewrite bool_decide_eq_false_2 by done.
      assert (O3 : OK t3 H lv3).
      { constructor; try done. eapply WT_shrink; [|exact W3']. intros m _ _ -> _. rewrite (chs_kids _ _ _ Hkp3). by destruct (l ++ r). }
      unfold is_lack. cbn [n_children]. rewrite bd_if. case_decide.
      * destruct (handle_lack_ok t3 H lv3 p O3) as (t' & H' & lv' & E' & O' & G' & El' & Rt' & Al' & M'); [rewrite Hkp3; eauto|].
        exists t', H', lv'. split_and!; try done; try congruence; [lia|].
        intros w Hw M. destruct (MX3 w Hw M) as (-> & ? & ?). auto.
      * exists t3, H, lv3. split_and!; try done. intros w Hw M. destruct (MX3 w Hw M) as (-> & Hs & MX).
        apply (mdx_md true t3 _ H lv3 p W3'); [|done]. rewrite (chs_kids _ _ _ Hkp3), map_length. lia.
Qed.

(** ** Removing a leaf *)
Lemma RP_del t H lv l e p A c Z po s : WT NoE t H lv -> at_leaf t lv l e p A c Z -> lnk t p = Some (po, s) ->
  RP t (rem_lf (set_in t p (mkNode po s (A ++ Z))) l) p l A c Z [] [].
Proof.
  intros W (Hk & Ha & _ & He & Hl & _) Hlk. constructor; try done.
  - change (kids (set_in t p (mkNode po s (A ++ Z))) p = Some (A ++ Z)). rewrite kids_set_in. by rewrite decide_True.
  - constructor.
  - intros x ex []%elem_of_nil.
  - intros _. rewrite el_rem_lf. by rewrite decide_True.
  - intros x Hx _. rewrite el_rem_lf, llnk_rem_lf, !decide_False by done. done.
  - intros j Hj. change (kids (set_in t p (mkNode po s (A ++ Z))) j = kids t j). rewrite kids_set_in. by rewrite decide_False.
  - intros j. change (lnk (set_in t p (mkNode po s (A ++ Z))) j = lnk t j). rewrite lnk_set_in. case_decide; [subst; by rewrite Hlk|done].
Qed.

Lemma remove_leaf_ok t H lv l e off : OK t H lv -> el t l = Some e ->
  (forall p, llnk t l = Some p -> 2 <= length (chs t p) \/ mono L = true \/ AInt p = root t) ->
  exists t' H' lv', remove_leaf t (mkCur l off) = Ok (Some e, t') /\ OK t' H' lv' /\
    (forall X Y, cont t H = X ++ (l, e) :: Y -> cont t' H' = X ++ Y) /\
    el t' l = None /\ (forall x, x <> l -> el t' x = el t x) /\ root t' = root t /\
    anext (leaf_nodes t) <= anext (leaf_nodes t') /\ (forall w, MDw w t -> MDw w t').
Proof.
  intros O He Hcond. destruct O as [W K Z11 C HR V].
  destruct (at_leaf_ok t H lv l e W K He) as (p & A & c & Z & AL).
  pose proof AL as (Hk & Ha & Hlv & _ & Hl & Hgl & _ & Hslot & po & s & Hg & Hlk).
  specialize (Hcond p Hl).
  unfold remove_leaf. cbn [cu_leaf].
  assert (a_get (leaf_nodes t) l = Some (mkLeaf e p)) as ->.
  { unfold get_lf in Hgl. destruct (a_get (leaf_nodes t) l); cbn in Hgl; congruence. }
  cbn [l_parent]. rewrite Hg. cbn [rbind]. unfold get_leaf_slot. cbn [n_children]. rewrite Hslot. cbn [rbind].
  rewrite vec_remove_mid. cbn [rbind]. rewrite Ha. cbn [raw]. rewrite bool_decide_true by done. cbn [rassert rbind]. unfold with_children. cbn [n_parent n_slot n_children].
  assert (get_lf (set_in t p (mkNode po s (A ++ Z))) l = Ok (mkLeaf e p)) as -> by exact Hgl.
  cbn [rbind l_elem].
  pose proof (RP_del t H lv l e p A c Z po s W AL Hlk) as R.
  set (t1 := rem_lf _ _) in *.
  pose proof (rp_ED L W K Hlv R) as D.
  pose proof (rp_p' _ _ _ _ _ _ _ _ _ R) as Hkp1. cbn [app] in Hkp1.
  assert (W1 : WT (fun m => m = p) t1 H lv).
  { eapply WT_mono; [|exact (ed_WT W Hlv D)]. intros m. cbn. intros [[]|[_ ?]]; done. }
  assert (K1 : LK t1) by (by apply (ed_LK W D)).
  assert (V1 : VA t1).
  { apply (rp_VA L W K Hlv R V). - intros ? ? []%elem_of_nil. - intros ? []%elem_of_nil. }
  assert (C1 : CO t1 (fun a => a = AInt p)). { apply (rp_CO_all L W K Hlv R); [|done]. intros ? []%elem_of_nil. }
  assert (R1 : RC1 L t1 p) by (by apply (ed_RC1 L W D)).
  assert (Z1 : SZ t1 11).
  { intros j. destruct (decide (j = p)) as [-> |Hj].
    - pose proof (Z11 p) as Zp. rewrite (chs_kids _ _ _ Hk), map_length in Zp.
      rewrite (chs_kids _ _ _ Hkp1), map_length. rewrite app_length in *. cbn in Zp. lia.
    - unfold chs. rewrite (rp_other _ _ _ _ _ _ _ _ _ R) by done. apply Z11. }
  assert (Hcond1 : chs t1 p <> [] \/ mono L = true \/ AInt p = root t1).
  { destruct Hcond as [H2|?]; [left|by right]. rewrite (chs_kids _ _ _ Hk), map_length, app_length in H2. cbn in H2.
    rewrite (chs_kids _ _ _ Hkp1). intros Hx. apply (f_equal length) in Hx. rewrite map_length, app_length in Hx. cbn in Hx. lia. }
  destruct (ruc_int_ok L _ t1 H lv p None W1 K1) as (t2 & E2 & S2 & El2 & C2 & V2 & R2); try done.
  rewrite E2. cbn [rbind].
  assert (W2 : WT (fun m => m = p) t2 H lv) by (by eapply SH_WT).
  assert (K2 : LK t2) by (by eapply SH_LK).
  assert (Z2 : SZ t2 11) by (intros j; rewrite (sh_chs S2); apply Z1).
  assert (Rt2 : root t2 = root t) by apply S2.
  assert (Cn2 : cont t2 H = cont t1 H) by (by apply SH_cont).
  assert (Cn1 : forall X Y, cont t H = X ++ (l, e) :: Y -> cont t1 H = X ++ Y).
  { intros X Y HX. by rewrite (rp_cont L W K Hlv R e X Y He HX). }
  assert (Dl : el t1 l = None). { apply (rp_del _ _ _ _ _ _ _ _ _ R). by intros ?%elem_of_nil. }
  assert (Oth : forall x, x <> l -> el t1 x = el t x).
  { intros x Hx. apply (rp_el _ _ _ _ _ _ _ _ _ R x Hx). by intros ?%elem_of_nil. }
  assert (Al2 : anext (leaf_nodes t) <= anext (leaf_nodes t2)) by (rewrite (sh_al S2); apply R).
  pose proof (chs_kids _ _ _ Hkp1) as Hcp1.
  assert (Hsp2 : forall z, SP t z -> SP t2 z).
  { intros z Hz. apply (SP_SH t1 t2 S2), (rp_SP L W K Hlv R), Hz. }
  assert (MX : forall w, MDw w t -> MDXw w t2 p).
  { intros w M. constructor.
    - intros m Hm Hr Hmp. rewrite (SH_kids _ _ S2) in Hm. rewrite Rt2 in Hr.
      rewrite (rp_other _ _ _ _ _ _ _ _ _ R) in Hm by done.
      apply (big_mono w t); [apply Hsp2| |by apply (md_in _ _ M)].
      rewrite (sh_chs S2). unfold chs. by rewrite (rp_other _ _ _ _ _ _ _ _ _ R) by done.
    - intros Hr m Hm. rewrite !(sh_chs S2), !Rt2 in *. 
      assert (raw (root t) <> p) as Hrp. { intros Hx. apply Hr. by rewrite <- Hx, <- (wt_root_id W). }
      unfold chs in Hm |- *. rewrite (rp_other _ _ _ _ _ _ _ _ _ R) in Hm |- * by done. by eapply (md_root _ _ M). }
  assert (Hp2 : is_Some (kids t2 p)). { apply (SH_kids _ _ S2). rewrite Hkp1. eauto. }
  unfold n_is_empty, is_lack. cbn [n_children]. rewrite !bd_if.
  assert (Fin : forall t3 t' H' lv', t3 = t2 -> OK t' H' lv' -> gen t' (S H') (root t') = gen t3 (S H) (root t3) ->
     (forall z, el t' z = el t3 z) -> root t' = root t3 -> anext (leaf_nodes t3) <= anext (leaf_nodes t') -> (forall w, MDw w t -> MDw w t') ->
     exists t0 H' lv', Ok (Some e, t') = Ok (Some e, t0) /\ OK t0 H' lv' /\
    (forall X Y, cont t H = X ++ (l, e) :: Y -> cont t0 H' = X ++ Y) /\
    el t0 l = None /\ (forall x, x <> l -> el t0 x = el t x) /\ root t0 = root t /\
    anext (leaf_nodes t) <= anext (leaf_nodes t0) /\ (forall w, MDw w t -> MDw w t0)).
  { intros t3 t' H' lv' -> O' G' El' Rt' Al' M'. exists t', H', lv'. split; [done|]. split; [done|].
    split; [|split_and!].
    - intros X Y HX. rewrite (cont_same _ _ _ _ G' El'), Cn2. auto.
    - by rewrite El', El2.
    - intros x Hx. rewrite El', El2. auto.
    - congruence.
    - lia.
    - done. }
  case_decide as Em.
  - destruct (ri_ok (H - lv p) t2 H lv p (fuel t2)) as (t' & H' & lv' & E' & O' & G' & El' & Rt' & Al' & M'); try done.
    + destruct Hp2 as [x Hx]. rewrite Hx. pose proof (chs_kids _ _ _ Hx) as Hy. rewrite (sh_chs S2), Hcp1, Em in Hy.
      by destruct x.
    + destruct Hcond1 as [Hx|Hx]; [by rewrite Hcp1, Em in Hx|]. rewrite (sh_root S2). tauto.
    + pose proof (wt_depth_bound W2 p Hp2). unfold fuel. lia.
    + unfold remove_internal_node. rewrite E'. cbn [rbind]. eapply Fin; try done.
      intros w M. apply M'; [|by apply MX]. rewrite Rt2.
      destruct (decide (AInt p = root t)) as [?|Hr]; [by left|right].
      pose proof (md_in _ _ M p ltac:(rewrite Hk; eauto) Hr) as H6.
      apply (f_equal length) in Em. rewrite app_length in Em. cbn in Em.
      destruct w; cbn in H6; rewrite (chs_kids _ _ _ Hk), map_length, app_length in H6; cbn in H6; [|lia].
      split; [done|]. destruct H6 as [H6|?]; [by apply Hsp2|lia].
  - assert (O2 : OK t2 H lv).
    { constructor; try done. eapply WT_shrink; [|exact W2]. intros m _ _ -> _. rewrite (sh_chs S2), Hcp1. by destruct (A ++ Z). }
    case_decide as Hla.
    + destruct (handle_lack_ok t2 H lv p O2 Hp2) as (t' & H' & lv' & E' & O' & G' & El' & Rt' & Al' & M').
      rewrite E'. cbn [rbind]. eapply Fin; try done. intros w M. auto.
    + cbn [rbind]. eapply Fin; try done. intros w M. specialize (MX w M).
      apply (mdx_md w t2 _ H lv p W2); [|done]. rewrite (sh_chs S2), Hcp1, map_length. lia.
Qed.
End remove.
