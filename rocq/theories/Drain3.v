(** Drain3.v — cache refresh and underflow handling after the pruning of drain. *)
From Verif Require Export Drain2.

(** ** weights, for the termination of handle_lack_on_path_to_leaf *)
Section weight.
Context {B : BTreeTrait}.
Notation btree := (btree B).
Implicit Types (t : btree) (i j m p q : nat).

Definition wgt t i : nat :=
  match kids t i with None => 0 | Some cs => 2 + (if decide (length cs < 6) then 1 else 0) end.
Fixpoint wsum t (xs : list nat) : nat := match xs with [] => 0 | i :: xs' => wgt t i + wsum t xs' end.

Lemma wgt_le3 t i : wgt t i <= 3.
Proof. unfold wgt. destruct (kids t i); [case_decide|]; lia. Qed.
Lemma wsum_same t t' xs : (forall i, i ∈ xs -> wgt t' i = wgt t i) -> wsum t' xs = wsum t xs.
Proof.
  induction xs as [|x xs IH]; intros Hx; [done|]. cbn. rewrite IH, (Hx x); [done|left|]. intros i ?. apply Hx. by right.
Qed.
Lemma wsum_perm t xs ys : xs ≡ₚ ys -> wsum t xs = wsum t ys.
Proof. induction 1; cbn; lia. Qed.
Lemma wsum_app t xs ys : wsum t (xs ++ ys) = wsum t xs + wsum t ys.
Proof. induction xs as [|x xs IH]; [done|]. cbn. lia. Qed.
Lemma wsum_one t t' (N : list nat) x : NoDup N -> x ∈ N -> wgt t' x < wgt t x -> (forall i, i <> x -> wgt t' i <= wgt t i) ->
  wsum t' N < wsum t N.
Proof.
  intros Hnd (A & Z & ->)%elem_of_list_split Hx Ho.
  assert (forall l, x ∉ l -> wsum t' l <= wsum t l) as Hle.
  { induction l as [|y l IH]; intros Hy; [done|]. apply not_elem_of_cons in Hy as [? ?]. cbn. specialize (IH ltac:(done)).
    specialize (Ho y ltac:(done)). lia. }
  apply NoDup_app in Hnd as (_ & Hd & [Hz _]%NoDup_cons). rewrite !wsum_app. cbn.
  assert (x ∉ A) as HxA by (intros Hxa; apply (Hd x Hxa); left). pose proof (Hle A HxA). pose proof (Hle Z Hz). lia.
Qed.
(** the weight of [p] may grow by one if another drops by two *)
Lemma wsum_two t t' (N : list nat) x p : NoDup N -> x ∈ N -> x <> p -> wgt t' x + 2 <= wgt t x -> wgt t' p <= S (wgt t p) ->
  (forall i, i <> x -> i <> p -> wgt t' i <= wgt t i) -> wsum t' N < wsum t N.
Proof.
  intros Hnd (A & Z & ->)%elem_of_list_split Hxp Hx Hp Ho.
  assert (forall l, NoDup l -> x ∉ l -> wsum t' l <= wsum t l + (if decide (p ∈ l) then 1 else 0)) as Hle.
  { induction l as [|y l IH]; intros Hl Hy; [done|]. apply not_elem_of_cons in Hy as [Hy1 Hy2]. apply NoDup_cons in Hl as [Hyl Hl].
    cbn. specialize (IH Hl Hy2). destruct (decide (y = p)) as [->|Hyp].
    - rewrite decide_False in IH by done. rewrite decide_True by left. lia.
    - specialize (Ho y ltac:(done) Hyp). destruct (decide (p ∈ l)) as [D|D].
      + rewrite decide_True by by right. lia.
      + rewrite decide_False; [lia|]. intros [?|?]%elem_of_cons; congruence. }
  apply NoDup_app in Hnd as (HA & Hd & [Hz HZ]%NoDup_cons). rewrite !wsum_app. cbn.
  assert (x ∉ A) as HxA by (intros Hxa; apply (Hd x Hxa); left).
  pose proof (Hle A HA HxA) as H1. pose proof (Hle Z HZ Hz) as H2.
  destruct (decide (p ∈ A)) as [D1|D1]; [|destruct (decide (p ∈ Z)); lia].
  rewrite decide_False in H2; [lia|]. intros Hpz. apply (Hd p D1). by right.
Qed.
(** initially bounded by the number of inner nodes *)
Lemma wsum_bound t (N : list nat) : NoDup N -> wsum t N <= 3 * a_len (in_nodes t).
Proof.
  intros Hnd. set (P := fun i => is_Some (kids t i)). assert (Hs : wsum t N <= 3 * length (filter P N)).
  { clear. induction N as [|i N IH]; [done|]. cbn [wsum]. rewrite filter_cons. case_decide as D.
    - cbn [length]. pose proof (wgt_le3 t i). lia.
    - unfold wgt. unfold P in D. destruct (kids t i); [destruct D; eauto|]. lia. }
  assert (Hl : length (filter P N) <= a_len (in_nodes t)); [|lia].
  unfold a_len. rewrite <- size_dom. rewrite <- (size_list_to_set (C := gset nat) (filter P N)) by by apply NoDup_filter.
  apply subseteq_size. intros i [Hi _]%elem_of_list_to_set%elem_of_list_filter. unfold P, kids in Hi.
  apply elem_of_dom. unfold a_get in Hi. destruct (amap (in_nodes t) !! i); [eauto|by destruct Hi].
Qed.
End weight.

Section seal.
Context {B : BTreeTrait} (L : Lawful B).
Notation btree := (btree B).
Notation child := (child B).
Notation OK := (OK L).
Notation CO := (CO L).
Notation VA := (VA L).
Notation RC := (RC L).
Implicit Types (t : btree) (i j m p q k : nat) (a b : aidx) (c : child) (cs : list child).

(** one step, with its effect on liveness and weight *)
Lemma hls_step t H lv x N : OK t H lv -> is_Some (kids t x) -> AInt x <> root t -> length (chs t x) < 6 ->
  NoDup N -> (forall i, is_Some (kids t i) -> i ∈ N) ->
  exists o t' lv', handle_lack_single_layer t (AInt x) = Ok (o, t') /\ OK t' H lv' /\
    (forall j, is_Some (kids t j) -> lv' j = lv j) /\
    gen t' (S H) (root t') = gen t (S H) (root t) /\ (forall z, el t' z = el t z) /\ root t' = root t /\
    anext (leaf_nodes t) <= anext (leaf_nodes t') /\
    (forall j, is_Some (kids t j) -> lv j < lv x -> is_Some (kids t' j)) /\
    (forall j, is_Some (kids t' j) -> is_Some (kids t j)) /\
    (t' = t \/ wsum t' N < wsum t N).
Proof.
  intros O Hx Hr Hlack HN HNl. pose proof (ok_wt _ _ _ _ O) as W.
  destruct (hls_OK L t H lv x O Hx Hr) as (p & o & t' & lv' & E & Hlv & Hin & HR & O' & Hl' & G & El & R & Hp & An & _).
  exists o, t', lv'. do 7 (split; [done|]).
  assert (Hwlt : forall i cs, kids t i = Some cs -> length (chs t i) = length cs).
  { intros i cs Hk. by rewrite (chs_kids _ _ _ Hk), map_length. }
  destruct HR as [Hp1 Hp2|l c r t' Ec He R0|l ca cb r ai bi A' B' t' Ea Eb Hxab Hne R0 Ka Kb Hsum Hsum2 LA LB L1 L2|l ca cb r ai bi y cs t' Ea Eb Hxab Hne -> R0 Ky Hsum Hlt].
  - split_and!; try done. by left.
  - exfalso. revert He. apply (wt_ne W); [done|done|by intros []].
  - assert (Hab : forall m, AInt m ∈ map c_arena [ca; cb] <-> m = ai \/ m = bi).
    { intros m. cbn. rewrite Ea, Eb, !elem_of_cons, elem_of_nil. split; [intros [[= ->]|[[= ->]|[]]]; auto|intros [-> | ->]; auto]. }
    assert (Hother : forall j, j <> p -> j <> ai -> j <> bi -> kids t' j = kids t j).
    { intros j Hj1 Hj2 Hj3. apply (rd_other _ _ _ _ _ _ _ _ R0); [done|rewrite Hab; tauto|]. cbn. rewrite !elem_of_cons, elem_of_nil.
      intros [[= ->]|[[= ->]|[]]]; done. }
    assert (Hlab : forall j, j = ai \/ j = bi -> is_Some (kids t j) /\ j <> p).
    { intros j Hj. apply Hab in Hj. apply (rd_old_in L R0) in Hj. split; [by apply (wt_live_child W) in Hj|].
      intros ->. apply elem_of_list_lookup in Hj as [k Hj]. apply (wt_ch W) in Hj as [_ Hj]. cbn in Hj. lia. }
    assert (Hpl : is_Some (kids t p)) by (rewrite (rd_p _ _ _ _ _ _ _ _ R0); eauto).
    assert (Hlive : forall j, is_Some (kids t' j) <-> is_Some (kids t j)).
    { intros j. destruct (decide (j = p)) as [->|D1]; [done|]. destruct (decide (j = ai)) as [->|D2]; [|destruct (decide (j = bi)) as [->|D3]].
      - rewrite Ka. split; [intros _; apply Hlab; auto|eauto].
      - rewrite Kb. split; [intros _; apply Hlab; auto|eauto].
      - by rewrite Hother. }
    split; [intros j ? _; by apply Hlive|]. split; [intros j; apply Hlive|]. right.
    assert (Hwp : wgt t' p = wgt t p).
    { unfold wgt. rewrite (rd_p _ _ _ _ _ _ _ _ R0), (rd_p' _ _ _ _ _ _ _ _ R0), !app_length. done. }
    apply (wsum_one t t' N x HN (HNl x Hx)).
    + unfold wgt at 2. destruct Hx as [csx Hkx]. rewrite Hkx. rewrite <- (Hwlt _ _ Hkx), decide_True by done. unfold wgt.
      destruct Hxab as [-> | ->]; [rewrite Ka|rewrite Kb]; rewrite decide_False by lia; lia.
    + intros i Hi. destruct (decide (i = p)) as [->|D1]; [lia|].
      assert (Hge : forall cs, kids t' i = Some cs -> 6 <= length cs -> is_Some (kids t i) -> wgt t' i <= wgt t i).
      { intros cs Hk Hcs [cs0 Hk0]. unfold wgt. rewrite Hk, Hk0, decide_False by lia. case_decide; lia. }
      destruct (decide (i = ai)) as [->|D2]; [|destruct (decide (i = bi)) as [->|D3]].
      * by apply (Hge A'); [| |apply Hlab; left].
      * by apply (Hge B'); [| |apply Hlab; right].
      * unfold wgt. by rewrite Hother.
  - assert (Hab : forall m, AInt m ∈ map c_arena [ca; cb] <-> m = ai \/ m = bi).
    { intros m. cbn. rewrite Ea, Eb, !elem_of_cons, elem_of_nil. split; [intros [[= ->]|[[= ->]|[]]]; auto|intros [-> | ->]; auto]. }
    assert (ai <> bi) as Hne2.
    { pose proof (rd_nodup L W R0) as Hnd. apply NoDup_app in Hnd as (_ & _ & Hnd). apply NoDup_app in Hnd as (Hnd & _).
      cbn in Hnd. rewrite Ea, Eb in Hnd. apply NoDup_cons in Hnd as [Hnd _]. intros ->. apply Hnd. left. }
    assert (exists z, z <> x /\ (forall m, m = ai \/ m = bi <-> m = x \/ m = z) /\ length (chs t ai) + length (chs t bi) = length (chs t x) + length (chs t z))
      as (z & Hzx & Hz & Hls).
    { destruct Hxab as [-> | ->]; [exists bi|exists ai]; (split; [done|]; split; [tauto|lia]). }
    assert (Hnew : forall m, AInt m ∈ map c_arena [mkChild (AInt x) (summ L (map c_cache cs))] <-> m = x).
    { intros m. cbn. rewrite elem_of_cons, elem_of_nil. split; [intros [[= ->]|[]]; done|intros ->; by left]. }
    assert (Hother : forall j, j <> p -> j <> x -> j <> z -> kids t' j = kids t j).
    { intros j Hj1 Hj2 Hj3. apply (rd_other _ _ _ _ _ _ _ _ R0); [done|rewrite Hab, Hz; tauto|by rewrite Hnew]. }
    assert (Hzd : kids t' z = None).
    { apply (rd_del _ _ _ _ _ _ _ _ R0); [apply Hab, Hz; by right|by rewrite Hnew]. }
    assert (Hzl : is_Some (kids t z) /\ z <> p /\ lv z = lv x).
    { assert (AInt z ∈ chs t p) as Hj by (apply (rd_old_in L R0), Hab, Hz; by right). split; [by apply (wt_live_child W) in Hj|].
      apply elem_of_list_lookup in Hj as [k Hj]. apply (wt_ch W) in Hj as [_ Hj]. cbn in Hj. split; [intros ->; lia|lia]. }
    destruct Hzl as (Hzl & Hzp & Hzlv). assert (x <> p) as Hxp by (intros ->; lia).
    assert (Hpl : is_Some (kids t p)) by (rewrite (rd_p _ _ _ _ _ _ _ _ R0); eauto).
    split.
    { intros j Hj Hjl. rewrite Hother; [done|intros ->; lia|intros ->; lia|intros ->; lia]. }
    split.
    { intros j Hj. destruct (decide (j = p)) as [->|D1]; [done|]. destruct (decide (j = x)) as [->|D2]; [done|].
      destruct (decide (j = z)) as [->|D3]; [done|]. by rewrite Hother in Hj. }
    right. apply (wsum_two t t' N z p HN (HNl z Hzl) Hzp).
    + unfold wgt. rewrite Hzd. destruct Hzl as [csz ->]. lia.
    + unfold wgt. rewrite (rd_p _ _ _ _ _ _ _ _ R0), (rd_p' _ _ _ _ _ _ _ _ R0). repeat case_decide; lia.
    + intros i D1 D2. destruct (decide (i = x)) as [->|D3].
      * etransitivity; [apply wgt_le3|]. destruct Hx as [csx Hkx]. unfold wgt. rewrite Hkx, decide_True; [lia|]. by rewrite <- (Hwlt _ _ Hkx).
      * unfold wgt. by rewrite Hother.
Qed.

(** the nodes of a pass: live, not the root, on decreasing levels *)
Fixpoint desc t (lv : nat -> nat) (n : nat) (xs : list aidx) : Prop :=
  match xs with
  | [] => True
  | AInt m :: xs' => is_Some (kids t m) /\ AInt m <> root t /\ lv m < n /\ desc t lv (lv m) xs'
  | ALeaf _ :: _ => False
  end.
Lemma desc_mono t t' (lv lv' : nat -> nat) xs : forall n, (forall j, is_Some (kids t j) -> lv j < n -> is_Some (kids t' j) /\ lv' j = lv j) -> root t' = root t ->
  desc t lv n xs -> desc t' lv' n xs.
Proof.
  induction xs as [|a xs IH]; intros n Hj R; [done|]. cbn. destruct a as [|m]; [done|]. intros (H1 & H2 & H3 & H4).
  destruct (Hj m H1 H3) as [G1 G2]. split; [done|]. split; [congruence|]. rewrite G2. split; [done|]. apply IH; [|done|done].
  intros j Hjl Hjm. apply Hj; [done|lia].
Qed.

Lemma lack_pass_ok N xs : forall t H lv n cnt, OK t H lv -> desc t lv n xs -> NoDup N -> (forall i, is_Some (kids t i) -> i ∈ N) ->
  exists cnt' t' lv', lack_pass t xs cnt = Ok (cnt', t') /\ OK t' H lv' /\
    gen t' (S H) (root t') = gen t (S H) (root t) /\ (forall z, el t' z = el t z) /\ root t' = root t /\
    anext (leaf_nodes t) <= anext (leaf_nodes t') /\
    (forall j, is_Some (kids t' j) -> is_Some (kids t j)) /\ (t' = t \/ wsum t' N < wsum t N).
Proof.
  induction xs as [|a xs IH]; intros t H lv n cnt O D HN HNl; cbn [lack_pass].
  { exists cnt, t, lv. split_and!; try done. by left. }
  destruct a as [|m]; [done|]. destruct D as (Hm & Hr & Hn & D). cbn [unwrap_internal rbind].
  destruct (live_get_in t m Hm) as [nd Hg]. rewrite Hg. cbn [rbind]. unfold is_lack.
  apply get_in_inv in Hg as [Hk _]. case_bool_decide as Dl; [|by apply (IH t H lv (lv m))].
  assert (length (chs t m) < 6) as Hl by (by rewrite (chs_kids _ _ _ Hk), map_length).
  destruct (hls_step t H lv m N O Hm Hr Hl HN HNl) as (o & t1 & lv1 & E1 & O1 & Hlv1 & G1 & El1 & R1 & A1 & Liv1 & Sub1 & W1).
  rewrite E1. cbn [rbind].
  destruct (IH t1 H lv1 (lv m) (match o with Some _ => S cnt | None => cnt end) O1) as (cnt' & t' & lv' & E' & O' & G' & El' & R' & A' & Sub' & W').
  { eapply desc_mono; [|done|exact D]. intros j Hj1 Hj2. split; [by apply Liv1|by apply Hlv1]. }
  { done. }
  { intros i Hi. by apply HNl, Sub1. }
  exists cnt', t', lv'. split; [exact E'|]. split; [done|]. split; [congruence|]. split; [intros z; by rewrite El'|]. split; [congruence|]. split; [lia|].
  split; [auto|]. destruct W1 as [->|?]; [done|]. destruct W' as [->|?]; right; lia.
Qed.

Lemma path_desc t H lv sp : WT NoE t H lv -> PTH t sp -> length sp = S (S H) -> desc t lv H (map i_arena (removelast (tail sp))).
Proof.
  intros W [P0 P1] Hl. destruct sp as [|x0 sp]; [done|]. cbn [tail].
  assert (G : forall l y0 n, (forall d x, (y0 :: l) !! d = Some x -> (x0 :: sp) !! (n + d) = Some x) -> n + length l = S H ->
     (exists q, i_arena y0 = AInt q /\ is_Some (kids t q) /\ lv q = H - n) -> desc t lv (H - n) (map i_arena (removelast l))).
  { induction l as [|y l IH]; intros y0 n Hsub Hlen (q & Eq & Hq & Hlq); [done|].
    destruct l as [|y' l]; [done|]. cbn [removelast map]. cbn [length] in Hlen.
    assert ((x0 :: sp) !! n = Some y0) as Hn0 by (rewrite <- (Nat.add_0_r n); by apply Hsub).
    assert ((x0 :: sp) !! S n = Some y) as Hn1 by (replace (S n) with (n + 1) by lia; by apply Hsub).
    destruct (P1 _ _ _ Hn0 Hn1) as (q' & Eq' & Hy).
    assert (q' = q) as -> by congruence. pose proof (elem_of_list_lookup_2 _ _ _ Hy) as Hin.
    destruct (wt_int_child W _ _ Hin) as (m & Em & Hlm); [lia|]. rewrite Em in Hin, Hy |- *. cbn [desc].
    assert (is_Some (kids t m)) as Hml by apply (wt_live_child W _ _ Hin).
    split; [done|]. split; [intros Er; rewrite Er in Hy; by apply (wt_root_nochild W) in Hy|].
    pose proof (wt_ch W _ _ _ Hy) as [_ Hc]. cbn in Hc. split; [lia|].
    replace (lv m) with (H - S n) by lia. apply (IH y (S n)).
    - intros d x Hd. replace (S n + d) with (n + S d) by lia. apply Hsub. exact Hd.
    - cbn [length]. lia.
    - exists m. split_and!; [done|done|lia]. }
  injection P0 as P0. cbn [length] in Hl. pose proof (G sp x0 0) as G0. rewrite Nat.sub_0_r in G0. apply G0; clear G0.
  - intros d x Hd. exact Hd.
  - lia.
  - destruct (wt_root W) as (r & Er & Hr & Hlv). exists r. rewrite P0. cbn. split; [done|]. split; [done|lia].
Qed.

Lemma lack_path_ok leaf f : forall t H lv lastc (N : list nat), OK t H lv -> H <= 8 -> leaf ∈ leaves t -> NoDup N -> (forall i, is_Some (kids t i) -> i ∈ N) ->
  wsum t N + 2 <= f ->
  exists t' lv', lack_path_f f t (ALeaf leaf) lastc = Ok t' /\ OK t' H lv' /\ 
    gen t' (S H) (root t') = gen t (S H) (root t) /\ (forall z, el t' z = el t z) /\ root t' = root t /\
    anext (leaf_nodes t) <= anext (leaf_nodes t').
Proof.
  induction f as [|f IH]; intros t H lv lastc N O HH Hin HN HNl Hf; [lia|]. cbn [lack_path_f].
  pose proof (ok_wt _ _ _ _ O) as W. pose proof (ok_lk _ _ _ _ O) as K.
  destruct (leaf_path W K leaf Hin HH) as (r & Hr & Ep). rewrite Ep. cbn [rbind].
  assert (D : desc t lv H (map i_arena (removelast (tail (rev r))))).
  { apply path_desc; [done|by eapply rpath_PTH|]. rewrite rev_length. pose proof (rpath_len W _ _ Hr). cbn in *. lia. }
  destruct (lack_pass_ok N _ t H lv H 0 O D HN HNl) as (cnt & t1 & lv1 & E1 & O1 & G1 & El1 & R1 & A1 & Sub1 & W1).
  rewrite E1. cbn [rbind].
  destruct (bool_decide (cnt = 0) || bool_decide (cnt = lastc)) eqn:Es; [by exists t1, lv1|].
  destruct W1 as [->|W1].
  - destruct f as [|f]; [lia|]. cbn [lack_path_f]. rewrite Ep. cbn [rbind]. rewrite E1. cbn [rbind].
    rewrite (bool_decide_eq_true_2 (cnt = cnt)), orb_true_r by done. by exists t, lv1.
  - destruct (IH t1 H lv1 cnt N O1 HH) as (t' & lv' & E' & O' & G' & El' & R' & A'); [|done| |lia|].
    + rewrite (leaves_raw (ok_wt _ _ _ _ O1)), G1, <- (leaves_raw W). done.
    + intros i Hi. by apply HNl, Sub1.
    + exists t', lv'. split_and!; [done|done|congruence|intros z; by rewrite El'|congruence|lia].
Qed.

Lemma hlpath_ok t H lv leaf : OK t H lv -> H <= 8 -> leaf ∈ leaves t ->
  exists t' lv', handle_lack_on_path_to_leaf t (ALeaf leaf) = Ok t' /\ OK t' H lv' /\ 
    gen t' (S H) (root t') = gen t (S H) (root t) /\ (forall z, el t' z = el t z) /\ root t' = root t /\
    anext (leaf_nodes t) <= anext (leaf_nodes t').
Proof.
  intros O HH Hin. unfold handle_lack_on_path_to_leaf.
  apply (lack_path_ok leaf _ t H lv 0 (seq 0 (anext (in_nodes t)))); [done|done|done|apply NoDup_seq| |].
  - intros i Hi. apply elem_of_seq. pose proof (wt_fresh (ok_wt _ _ _ _ O) i Hi). lia.
  - pose proof (wsum_bound t (seq 0 (anext (in_nodes t))) ltac:(apply NoDup_seq)). lia.
Qed.

Lemma seal_ok t H lv leaf : OK t H lv -> H <= 8 -> leaf ∈ leaves t ->
  exists t' H' lv', seal t (ALeaf leaf) = Ok t' /\ OK t' H' lv' /\
    gen t' (S H') (root t') = gen t (S H) (root t) /\ (forall z, el t' z = el t z) /\
    anext (leaf_nodes t) <= anext (leaf_nodes t').
Proof.
  intros O HH Hin. unfold seal. destruct (hlpath_ok t H lv leaf O HH Hin) as (t1 & lv1 & E1 & O1 & G1 & El1 & R1 & A1).
  rewrite E1. cbn [rbind]. pose proof (ok_wt _ _ _ _ O1) as W1. pose proof (ok_lk _ _ _ _ O1) as K1.
  assert (Hl1 : leaves t1 = leaves t) by (by rewrite (leaves_raw W1), G1, <- (leaves_raw (ok_wt _ _ _ _ O))).
  rewrite <- Hl1 in Hin. apply elem_of_list_split in Hin as (X & Y & Hxy).
  rewrite (next_leaf_ok W1 K1 leaf (map ALeaf X) (map ALeaf Y)).
  2:{ rewrite <- (leaves_gen W1), Hxy, map_app. done. }
  cbn [rbind].
  assert (exists t2 lv2, (match head (map ALeaf Y) with Some s => handle_lack_on_path_to_leaf t1 s | None => Ok t1 end) = Ok t2 /\ OK t2 H lv2 /\
    gen t2 (S H) (root t2) = gen t1 (S H) (root t1) /\ (forall z, el t2 z = el t1 z) /\ anext (leaf_nodes t1) <= anext (leaf_nodes t2))
    as (t2 & lv2 & E2 & O2 & G2 & El2 & A2).
  { destruct Y as [|y Y]; [by exists t1, lv1|]. cbn [map head].
    destruct (hlpath_ok t1 H lv1 y O1 HH) as (t2 & lv2 & E2 & O2 & G2 & El2 & R2 & A2); [rewrite Hxy; clear; set_solver|].
    by exists t2, lv2. }
  rewrite E2. cbn [rbind].
  destruct (try_reduce_ok L t2 H lv2 O2) as (t' & H' & lv' & E' & O' & R' & G' & El' & _ & _ & _ & _ & A').
  exists t', H', lv'. split_and!; [done|done|congruence|intros z; by rewrite El', El2|lia].
Qed.
End seal.
