(** Drain6.v — drain when elements of length 0 may stand at the end of the range: the
    sequence and the shape are always right, the summaries under a condition. *)
From Verif Require Export Sim.

Section spec.
Context {B : BTreeTrait}.
(** two heaps that differ at most in the cached summaries *)
Record SameButCaches (t u : btree B) : Prop := {
  sb_root : root t = root u;
  sb_leaves : leaf_nodes t = leaf_nodes u;
  sb_next : anext (in_nodes t) = anext (in_nodes u);
  sb_in : forall i, (fun n => (n_parent n, n_slot n, map c_arena (n_children n))) <$> a_get (in_nodes t) i
                  = (fun n => (n_parent n, n_slot n, map c_arena (n_children n))) <$> a_get (in_nodes u) i;
}.
(** leaf [l] lies below node [i] *)
Definition Under (t : btree B) (i l : nat) : Prop := exists d ys, InOrder t (AInt i) d ys /\ l ∈ ys.*1.
End spec.

Section any.
Context {B : BTreeTrait} (L : Lawful B).
Notation btree := (btree B).
Notation OK := (OK L).
Notation Tree := (Tree L).
Notation VA := (VA L).
Implicit Types (t u : btree) (i j m p q k : nat) (a b : aidx).

Lemma Er_same t u : Er L t u -> SameButCaches t u.
Proof.
  intros [E1 E2 E3 E4]. constructor; [done|done|done|]. intros i. destruct (E2 i) as [n n' (Hp & Hs & F)|]; [|done]. cbn.
  by rewrite Hp, Hs, (csr_arenas L _ _ F).
Qed.
Lemma SH_Er t t0 u0 : SH t t0 -> SH t u0 -> (forall z, el t0 z = el t z) -> (forall z, el u0 z = el t z) -> VA u0 -> Er L t0 u0.
Proof.
  intros S0 S1 E0 E1 V. constructor.
  - by rewrite (sh_root S0), (sh_root S1).
  - intros i. pose proof (sh_lnk S0 i) as X0. pose proof (sh_lnk S1 i) as X1. rewrite <- X1 in X0. clear X1.
    pose proof (sh_chs S0 i) as Y0. pose proof (sh_chs S1 i) as Y1. rewrite <- Y1 in Y0. clear Y1.
    assert (HV : forall n c, a_get (in_nodes u0) i = Some n -> c ∈ n_children n -> cvalid L (c_cache c)).
    { intros n c Hn Hc. eapply (va_ch _ _ V i (n_children n)); [|done]. unfold kids. by rewrite Hn. }
    unfold lnk in X0. unfold chs, kids in Y0.
    destruct (a_get (in_nodes t0) i) as [n|] eqn:En, (a_get (in_nodes u0) i) as [n'|] eqn:En'; cbn in X0, Y0; try done; constructor.
    injection X0 as Hp Hs. split; [done|]. split; [done|]. specialize (HV n'). specialize (fun c => HV c eq_refl). clear -Y0 HV. revert Y0 HV.
    generalize (n_children n). generalize (n_children n'). intros ds. induction ds as [|d ds IH]; intros [|c cs] E HV; try done; [constructor|].
    cbn in E. injection E as Ha E. constructor; [split; [done|apply HV; left]|]. apply IH; [done|]. intros y Hy. apply HV. by right.
  - assert (amap (leaf_nodes t0) = amap (leaf_nodes u0)) as Hm.
    { apply map_eq. intros l. pose proof (E0 l) as X0. rewrite <- (E1 l) in X0. pose proof (sh_llnk S0 l) as Y0. rewrite <- (sh_llnk S1 l) in Y0.
      unfold el in X0. unfold llnk in Y0. unfold a_get in X0, Y0. destruct (amap (leaf_nodes t0) !! l) as [[e p]|], (amap (leaf_nodes u0) !! l) as [[e' p']|]; cbn in X0, Y0; try done.
      congruence. }
    pose proof (sh_al S0) as Z0. rewrite <- (sh_al S1) in Z0. destruct (leaf_nodes t0), (leaf_nodes u0); cbn in *. by subst.
  - by rewrite (sh_an S0), (sh_an S1).
Qed.
Lemma er_root_cache t u H lv : WT NoE u H lv -> VA u -> Er L t u -> forall t', update_root_cache t = Ok t' -> exists u', update_root_cache u = Ok u' /\ Er L t' u'.
Proof.
  intros W V E t' Et.
  assert (exists v, t' = set_root_cache t v) as [v ->].
  { unfold update_root_cache, calc_root in Et. destruct (get_internal t (root t)) as [r| |]; [|done|done]. cbn [rbind] in Et.
    destruct (calc_cache r (root_cache t) None) as [[c d]| |]; [|done|done]. cbn in Et. injection Et as <-. by eexists. }
  assert (exists w, update_root_cache u = Ok (set_root_cache u w)) as [w Ew].
  { unfold update_root_cache. destruct (decide (chs u (raw (root u)) <> [])) as [Dr|Dr].
    - destruct (calc_root_ok L NoE u H lv W V (or_introl Dr)) as (u' & Ec & ->). eauto.
    - destruct (calc_root_nil L NoE u H lv W) as (u' & w & Ec & ->); [by destruct (chs u (raw (root u))); [|destruct Dr]|]. eauto. }
  rewrite Ew. eexists. split; [done|]. destruct E as [E1 E2 E3 E4]. by constructor.
Qed.

(** dropping a drain whose refreshed leaf is not the right one *)
Lemma drop_tail_sim t H lv P S (af : option nat) (D : aidx -> Prop) : WT NoE t H lv -> LK t -> SZ t 11 -> H <= 8 -> leaves t = P ++ S ->
  (forall z, af = Some z -> z ∈ S) -> VA t -> CO L t D ->
  (forall a, D a -> exists m, a = AInt m /\ ((exists z, last P = Some z /\ z ∈ lun t lv a) \/ (exists z, head S = Some z /\ z ∈ lun t lv a)) /\ is_Some (kids t m)) ->
  exists u t' H' lv', drop_tail t (ALeaf <$> last P) (ALeaf <$> af) = Ok u /\ Er L t' u /\ OK t' H' lv' /\
    gen t' (Datatypes.S H') (root t') = gen t (Datatypes.S H) (root t) /\ (forall z, el t' z = el t z) /\
    anext (leaf_nodes t) <= anext (leaf_nodes t').
Proof.
  intros W K Z HH HL Haf V C HD.
  assert (HafS : forall z, head S = Some z -> z ∈ S) by (intros z Hz; destruct S; [done|]; injection Hz as ->; left).
  destruct (drop_tail_af L t H lv P S (head S) D W K Z HH HL HafS V C HD) as (t' & H' & lv' & Et & O' & G' & El' & A').
  destruct (drop_tail_gen L t H lv P S (head S) D W K HL HafS V C) as (t0 & S0 & El0 & V0 & C0 & _ & E0).
  destruct (drop_tail_gen L t H lv P S af D W K HL Haf V C) as (u0 & S1 & El1 & V1 & C1 & _ & E1).
  rewrite E0 in Et. rewrite E1. pose proof (SH_Er t t0 u0 S0 S1 El0 El1 V1) as R. destruct (last P) as [b|].
  - pose proof (er_seal L t0 u0 (ALeaf b) R) as X. rewrite Et in X. destruct X as (u & Eu & R'). by exists u, t', H', lv'.
  - destruct (update_root_cache t0) as [t1| |] eqn:Er1; [|done|done]. cbn [rbind] in Et.
    destruct (er_root_cache t0 u0 H lv ltac:(by eapply SH_WT) V1 R t1 Er1) as (u1 & -> & R1). cbn [rbind].
    pose proof (er_reduce L t1 u1 R1) as X. rewrite Et in X. destruct X as (u & Eu & R'). by exists u, t', H', lv'.
Qed.

Lemma lun_under t H lv m l : WT NoE t H lv -> is_Some (kids t m) -> l ∈ lun t lv (AInt m) <-> Under t m l.
Proof.
  intros W Hm. pose proof (io_gen t H lv W (alv lv (AInt m)) (AInt m) Hm eq_refl) as Hio.
  assert (Hp : (pel t (gen t (alv lv (AInt m)) (AInt m))).*1 = lun t lv (AInt m)).
  { unfold lun. pose proof (lu_gen W (AInt m) Hm) as Hg. unfold lun in Hg.
    assert (F : Forall (fun a => exists l, a = ALeaf l /\ is_Some (el t l)) (gen t (alv lv (AInt m)) (AInt m))).
    { apply Forall_forall. intros a Ha. rewrite <- Hg in Ha. apply elem_of_list_In, in_map_iff in Ha as (l0 & <- & Hl0). exists l0. split; [done|].
      apply (lu_live W (AInt m)); [done|]. unfold lun. by apply elem_of_list_In. }
    clear -F. induction F as [|a r (l & -> & [e He]) F IH]; [done|]. rewrite (pel_cons t l e r He). cbn. by rewrite IH. }
  rewrite <- Hp. split.
  - intros Hl. by exists (alv lv (AInt m)), (pel t (gen t (alv lv (AInt m)) (AInt m))).
  - intros (d & ys & Hy & Hl). destruct (io_det t) as [Hd _]. by rewrite (Hd _ _ _ Hio _ _ Hy).
Qed.

(** the node entries that lose leaves are above one of the two refreshed leaves *)
Definition Covered t (A M Z : list (nat * Elem B)) : Prop :=
  forall i z x, head Z.*1 = Some z -> x ∈ M.*1 -> Under t i z -> Under t i x ->
    (exists y, last A.*1 = Some y /\ Under t i y) \/ (exists y, after_leaf Z = Some y /\ Under t i y).

Lemma drain_body_any t A M Z : Tree t (A ++ M ++ Z) -> Shallow t 9 -> M ++ Z <> [] ->
  exists d t' u, (exists st, st = (fun y => mkCur (fst y) 0) <$> head (M ++ Z) /\
     (match st with None => Ok (drain_none t) | Some st => drain_new2 t st ((fun y => mkCur (fst y) 0) <$> head Z) end) = Ok d) /\
    (forall k, exists d', drain_take k d = Ok (snd <$> take k M, d') /\ drain_drop d' = Ok t') /\
    Tree u (A ++ Z) /\ SameButCaches u t' /\ (Covered t A M Z -> Tree t' (A ++ Z)) /\
    anext (leaf_nodes t) <= anext (leaf_nodes t').
Proof.
  intros T Sh Hne. destruct (drain_body_gen L t A M Z T Sh Hne) as (d & T5 & H & lv & Hst & Htk & O & HH & W5 & K5 & Z5 & V5 & C5 & HL5 & El5 & A5 & _ & HD).
  destruct (drop_tail_sim T5 H lv A.*1 Z.*1 (after_leaf Z) _ W5 K5 Z5 HH HL5 (after_leaf_in Z) V5 C5) as (t' & u & H' & lv' & Et & R & O' & G' & El' & A').
  { intros a Ha. pose proof Ha as (m & -> & _). exists m. split; [done|]. destruct (HD m Ha) as (Hm & Hm5 & Hlun & Hb). split; [|done].
    destruct Hb as [(z & Hz & HzM' & Hzl)|(z & Hz & HzM' & Hzl)]; [left|right]; exists z; auto. }
  exists d, t', u. split; [done|]. split; [|split; [|split; [|split]]].
  - intros k. destruct (Htk k) as (d' & E1 & E2). exists d'. by rewrite E2.
  - by eapply drain_cont.
  - by apply Er_same.
  - intros Hcov. destruct (drain_body_cov L t A M Z T Sh Hne) as (d2 & t2 & (st2 & -> & Ed2) & Htk2 & T2 & _).
    { intros H2 lv2 m O2 Hm (x & Hx & HxM) (z & Hz & Hzl). pose proof (ok_wt _ _ _ _ O2) as W2.
      apply (lun_under _ _ _ _ _ W2 Hm) in Hx. apply (lun_under _ _ _ _ _ W2 Hm) in Hzl.
      destruct (Hcov m z x Hz HxM Hzl Hx) as [(y & Hy & Hyl)|(y & Hy & Hyl)]; [left|right]; exists y; (split; [done|]); by apply (lun_under _ _ _ _ _ W2 Hm). }
    destruct Hst as (st & -> & Ed). rewrite Ed in Ed2. injection Ed2 as <-.
    destruct (Htk 0) as (d1 & E1 & E2). destruct (Htk2 0) as (d3 & E3 & E4). rewrite E1 in E3. injection E3 as <-. rewrite E2, Et in E4. by injection E4 as <-.
  - rewrite <- A5. etransitivity; [exact A'|]. by rewrite (er_lf _ _ _ R).
Qed.

Theorem t_drain_any t xs (a b : cursor) (ea eb : Elem B) (fa fb : bool) :
  Tree t xs -> (cu_leaf a, ea) ∈ xs -> cu_offset a <= rle_len ea -> (cu_leaf b, eb) ∈ xs -> cu_offset b <= rle_len eb ->
  cur_le xs a b ->
  (* the start is not the end of the tree *)
  (forall X, xs = X ++ [(cu_leaf a, ea)] -> cu_offset a = rle_len ea -> cu_offset a = 0) ->
  exists A Z A1 M t2, let fr n := anext (leaf_nodes t) <= n < anext (leaf_nodes t2) in
    cuts t a b = Ok t2 /\ Tree t2 (A1 ++ M ++ Z) /\ anext (leaf_nodes t) <= anext (leaf_nodes t2) /\
    (forall k, Shallow t k -> Shallow t2 (S (S k))) /\
    Cut fr xs b A Z /\ Cut fr (A ++ Z) a A1 (M ++ Z) /\
    (Shallow t2 9 -> exists t' u, (forall k, drain_range t (Some (mkQR a fa)) (Some (mkQR b fb)) k = Ok (snd <$> take k M, t')) /\
      Tree u (A1 ++ Z) /\ SameButCaches u t' /\ (Covered t2 A1 M Z -> Tree t' (A1 ++ Z)) /\
      anext (leaf_nodes t2) <= anext (leaf_nodes t')) /\
    (~ Shallow t2 9 -> forall k, drain_range t (Some (mkQR a fa)) (Some (mkQR b fb)) k = Panic).
Proof.
  intros T Ha Hoa Hb Hob Hle Hst. destruct a as [la oa]. destruct b as [lb ob]. cbn [cu_leaf cu_offset] in *.
  destruct (t_cut L t xs lb eb ob T Hb Hob) as (sie & t1 & A & Z & E1 & T1 & C1 & P1 & N1 & G1 & S1).
  pose proof (cut_before xs (mkCur la oa) _ _ A Z ea (tree_nodup L _ _ T) Hle C1 Ha Hoa) as Hpos. cbn [cu_leaf cu_offset] in Hpos.
  assert (exists ea', (la, ea') ∈ A ++ Z /\ oa <= rle_len ea') as (ea' & Ha' & Hoa').
  { destruct Hpos as [(ea' & Hx & Hy)|(-> & ea' & Hx)]; exists ea'; (split; [|first [done|lia]]).
    - clear -Hx; set_solver.
    - destruct Z; [done|]. injection Hx as ->. clear; set_solver. }
  destruct (t_cut L t1 (A ++ Z) la ea' oa T1 Ha' Hoa') as (sis & t2 & A1 & R1 & E2 & T2 & C2 & P2 & N2 & G2 & S2).
  destruct (cut_left A Z (mkCur la oa) _ A1 R1 (tree_nodup L _ _ T1) C2) as [M ->].
  { cbn [cu_leaf cu_offset]. destruct Hpos as [(? & ? & _)|?]; [left|right]; eauto. }
  assert (Hne : M ++ Z <> []).
  { intros HMZ. rewrite HMZ in C2. apply app_nil in HMZ as [-> ->].
    inversion C2 as [|X l e Y off Hz Hf EX E3 E4 E5|]; subst. rewrite app_nil_r in EX.
    inversion C1 as [|X' l' e' Y' off' Hz' Hf' EX' E3' E4' E5'|]; subst. pose proof (tree_nodup L _ _ T) as Hnd.
    rewrite E4' in Hst, Ha, Hnd.
    assert (ea = e) as -> by (eapply fst_lookup_unique; [exact Hnd|exact Ha|clear; set_solver]).
    apply Hz, (Hst X); [done|done]. }
  exists A, Z, A1, M, t2. cbn zeta.
  split. { unfold cuts. rewrite E1. cbn [rbind]. rewrite E2. done. }
  split; [done|]. split; [lia|]. split; [intros k Sh; exact (S2 _ (S1 _ Sh))|].
  split; [eapply Cut_mono; [|exact C1]; cbn; intros; lia|]. split; [eapply Cut_mono; [|exact C2]; cbn; intros; lia|]. split.
  2:{ intros Hsh k. unfold drain_range, drain_new. cbn [qr_cursor]. rewrite E1. cbn [rbind]. rewrite E2. cbn [rbind]. rewrite P2.
    destruct (M ++ Z) as [|[lm em] R] eqn:EMZ; [done|]. cbn [head fmap option_fmap option_map cu_leaf fst].
    rewrite (t_path_deep L t2 _ lm T2); [done| |done]. rewrite fmap_app. apply elem_of_app. right. left. }
  intros Hsh. destruct (drain_body_any t2 A1 M Z T2 Hsh Hne) as (d & t' & u & (st & -> & Ed) & Edr & T' & Hsb & Hcv & G').
  exists t', u. split; [|split; [done|split; [done|split; [done|lia]]]].
  intros k. destruct (Edr k) as (d' & Etk & Edr'). unfold drain_range, drain_new. cbn [qr_cursor]. rewrite E1. cbn [rbind]. rewrite E2. cbn [rbind].
  rewrite P2, P1. destruct (head (M ++ Z)) as [y|]; cbn [fmap option_fmap option_map] in Ed |- *.
  - unfold drain_new2 in Ed. cbn [fst] in Ed. rewrite Ed. cbn [rbind]. rewrite Etk. cbn [rbind]. rewrite Edr'. done.
  - rewrite Ed. cbn [rbind]. rewrite Etk. cbn [rbind]. rewrite Edr'. done.
Qed.

(** the condition holds in particular if the empty element and its successor are children of
    the same node, or the element before the hole and the empty one *)
Lemma under_parent t H lv i l p : WT NoE t H lv -> ALeaf l ∈ chs t p -> Under t i l -> forall l', ALeaf l' ∈ chs t p -> Under t i l'.
Proof.
  intros W Hl (d & ys & Hio & Hly) l' Hl'. pose proof (io_live _ _ _ _ Hio) as Hm. cbn in Hm.
  apply (lun_under _ _ _ _ _ W Hm). assert (Hx : l ∈ lun t lv (AInt i)) by (apply (lun_under _ _ _ _ _ W Hm); by exists d, ys).
  pose proof (lu_upr t H lv l p W Hl _ i eq_refl Hm Hx) as U. clear -W U Hl' Hm.
  assert (forall q, upr t q i -> forall a x, a ∈ chs t q -> x ∈ lun t lv a -> x ∈ lun t lv (AInt i)) as G.
  { intros q Uq. induction Uq as [q|q r j Hq Uq IH]; intros a x Ha Hx.
    - rewrite (lu_int W) by (apply chs_live; intros E0; rewrite E0 in Ha; by apply elem_of_nil in Ha). apply elem_of_list_bind. eauto.
    - eapply IH; [done|done|exact Hq|]. rewrite (lu_int W) by (apply chs_live; intros E0; rewrite E0 in Ha; by apply elem_of_nil in Ha). apply elem_of_list_bind. eauto. }
  apply (G p U (ALeaf l')); [done|]. rewrite lu_leaf. left.
Qed.
Lemma covered_next t A M z ez y ey Z d i n :
  Intact L t d (A ++ M ++ (z, ez) :: (y, ey) :: Z) -> rle_len ez = 0 -> a_get (in_nodes t) i = Some n ->
  ALeaf z ∈ map c_arena (n_children n) -> ALeaf y ∈ map c_arena (n_children n) ->
  Covered t A M ((z, ez) :: (y, ey) :: Z).
Proof.
  intros I Hz0 Hn Hz Hy j z' x [= <-] HxM Hjz Hjx. right. exists y. cbn. rewrite decide_True by done. split; [done|].
  destruct (Intact_OK L t d _ I) as (H & lv & O & _). assert (chs t i = map c_arena (n_children n)) as Hc by (unfold chs, kids; by rewrite Hn).
  eapply (under_parent t H lv j z i); [exact (ok_wt _ _ _ _ O)|by rewrite Hc|done|by rewrite Hc].
Qed.
Lemma covered_prev t A y ey M z ez Z d i n :
  Intact L t d ((A ++ [(y, ey)]) ++ M ++ (z, ez) :: Z) -> a_get (in_nodes t) i = Some n ->
  ALeaf z ∈ map c_arena (n_children n) -> ALeaf y ∈ map c_arena (n_children n) ->
  Covered t (A ++ [(y, ey)]) M ((z, ez) :: Z).
Proof.
  intros I Hn Hz Hy j z' x [= <-] HxM Hjz Hjx. left. exists y. rewrite fmap_app. cbn [fmap list_fmap fst]. rewrite last_snoc. split; [done|].
  destruct (Intact_OK L t d _ I) as (H & lv & O & _). assert (chs t i = map c_arena (n_children n)) as Hc by (unfold chs, kids; by rewrite Hn).
  eapply (under_parent t H lv j z i); [exact (ok_wt _ _ _ _ O)|by rewrite Hc|done|by rewrite Hc].
Qed.
End any.
