(** Insert.v — split_leaf_if_needed, insert_by_path, push, prepend (lib.rs:510-667,
    2466-2562) preserve every invariant and have the expected effect on the sequence. *)
From Verif Require Export Repl.

Ltac dds := repeat match goal with
  | |- context [if @decide ?P _ then _ else _] => first [rewrite (decide_True (P := P)) by congruence|rewrite (decide_False (P := P)) by congruence]
  end.

(** specification of an insertion at offset [off] of the element [e] of leaf [l]:
    the cursor returned, the extra leaves created by a split, the new element list *)
Section spec.
Context {B : BTreeTrait}.
Inductive ins_res (l : nat) (e : Elem B) (off : nat) (x : Elem B) (fresh : nat -> Prop) :
    cursor -> list nat -> list (nat * Elem B) -> Prop :=
| in_try e' : try_insert e off x = Ok (inl e') -> ins_res l e off x fresh (mkCur l off) [] [(l, e')]
| in_ml e' : try_insert e off x = Ok (inr x) -> off = 0 -> can_merge x e = true -> merge_left e x = Ok e' ->
    ins_res l e off x fresh (mkCur l 0) [] [(l, e')]
| in_mr e' : try_insert e off x = Ok (inr x) -> (off = 0 -> can_merge x e = false) ->
    off = rle_len e -> can_merge e x = true -> merge_right e x = Ok e' ->
    ins_res l e off x fresh (mkCur l (rle_len e)) [] [(l, e')]
| in_before n : try_insert e off x = Ok (inr x) -> off = 0 -> can_merge x e = false ->
    (off = rle_len e -> can_merge e x = false) -> fresh n ->
    ins_res l e off x fresh (mkCur n 0) [] [(n, x); (l, e)]
| in_after n : try_insert e off x = Ok (inr x) -> off <> 0 -> off = rle_len e -> can_merge e x = false -> fresh n ->
    ins_res l e off x fresh (mkCur n 0) [] [(l, e); (n, x)]
| in_mid n n2 e1 e2 : try_insert e off x = Ok (inr x) -> 0 < off < rle_len e -> e_split e off = Ok (e1, e2) ->
    fresh n -> fresh n2 -> n <> n2 ->
    ins_res l e off x fresh (mkCur n 0) [n2] [(l, e1); (n, x); (n2, e2)].
End spec.

Section insert.
Context {B : BTreeTrait} (L : Lawful B).
Notation btree := (btree B).
Notation child := (child B).
Notation act := (act L).
Notation CO := (CO L).
Notation RC := (RC L).
Notation VA := (VA L).
Notation OK := (OK L).
Implicit Types (t : btree) (i j m p q k s : nat) (a b : aidx) (c : child) (cs : list child).

Lemma raw_position_ok cs l : forall k, (forall c, c ∈ cs -> exists x, c_arena c = ALeaf x) ->
  NoDup (map c_arena cs) -> map c_arena cs !! k = Some (ALeaf l) -> raw_position cs l = Some k.
Proof.
  unfold raw_position. induction cs as [|c cs IH]; intros k Hl Hnd Hk; [done|]. cbn [find_index].
  destruct (Hl c) as [x Ex]; [left|]. cbn in Hnd, Hk. inversion Hnd as [|? ? Hc Hnd']; subst.
  destruct k as [|k]; cbn in Hk.
  - injection Hk as Hk. rewrite Hk. cbn. by rewrite bool_decide_true.
  - rewrite bool_decide_false.
    + rewrite (IH k); [done| |done|done]. intros; apply Hl; by right.
    + intros Hx. apply Hc. rewrite Ex in *. cbn in Hx. subst x. by eapply elem_of_list_lookup_2.
Qed.
Lemma wt_raw_position {E t H lv} (W : WT E t H lv) p cs k l :
  kids t p = Some cs -> chs t p !! k = Some (ALeaf l) -> raw_position cs l = Some k.
Proof.
  intros Hk Hc. apply raw_position_ok.
  - intros c Hcin. destruct (wt_ch W _ _ _ Hc) as [_ Hlv]. cbn in Hlv.
    apply (wt_leaf_child W p); [|done]. rewrite (chs_kids _ _ _ Hk). by apply elem_of_list_fmap_1.
  - by apply (wt_nodup_cs W p).
  - by rewrite <- (chs_kids _ _ _ Hk).
Qed.

Lemma ins_after {T} (A Z : list T) (c1 c2 : T) :
  take (S (length A)) (A ++ c1 :: Z) ++ c2 :: drop (S (length A)) (A ++ c1 :: Z) = A ++ [c1; c2] ++ Z.
Proof. induction A as [|a A IH]; [done|]. cbn in *. by rewrite IH. Qed.
Lemma ins_at {T} (A Z : list T) (c2 : T) :
  take (length A) (A ++ Z) ++ c2 :: drop (length A) (A ++ Z) = A ++ c2 :: Z.
Proof. by rewrite take_app, drop_app. Qed.
Lemma vec_insert_ok {T} (l : list T) i (x : T) : i <= length l -> length l < 12 ->
  vec_insert 12 l i x = Ok (take i l ++ x :: drop i l).
Proof. intros. unfold vec_insert. by rewrite decide_True by lia. Qed.

(** the context of a leaf *)
Definition at_leaf t (lv : nat -> nat) l (e : Elem B) p A c Z : Prop :=
  kids t p = Some (A ++ c :: Z) /\ c_arena c = ALeaf l /\ lv p = 0 /\ el t l = Some e /\ llnk t l = Some p /\
  get_lf t l = Ok (mkLeaf e p) /\ raw_position (A ++ c :: Z) l = Some (length A) /\
  leaf_slot_from (A ++ c :: Z) l 0 = Ok (length A) /\
  exists po s, get_in t p = Ok (mkNode po s (A ++ c :: Z)) /\ lnk t p = Some (po, s).
Lemma at_leaf_ok t H lv l e : WT NoE t H lv -> LK t -> el t l = Some e -> exists p A c Z, at_leaf t lv l e p A c Z.
Proof.
  intros W K He. destruct (leaf_at W K l e He) as (p & cs & k & c & Hl & Hk & Hc & Ha & Hlv & Hget & Hck).
  destruct (get_in_kids t p cs Hk) as (po & s & Hg & Hlk).
  pose proof (elem_of_list_split_length _ _ _ Hc) as (A & Z & Ecs & Elen). exists p, A, c, Z.
  unfold at_leaf. rewrite <- Ecs, <- Elen. split_and!; try done.
  - by eapply (wt_raw_position W).
  - by eapply (wt_leaf_slot W).
  - eauto.
Qed.

Lemma flat2 u v (c1 c2 : Cache B) : Forall (cvalid L) u -> Forall (cvalid L) v -> cvalid L c1 -> cvalid L c2 ->
  summ L (u ++ summ L [c1; c2] :: v) = summ L (u ++ c1 :: c2 :: v).
Proof.
  intros Hu Hv H1 H2. rewrite (lw_flat _ L u [c1; c2] v); [done| |by left].
  apply Forall_app. split; [done|]. by repeat constructor.
Qed.

(** RP for the common edits *)
Lemma RP_set t H lv l e e' p A c Z : WT NoE t H lv -> at_leaf t lv l e p A c Z ->
  RP t (set_lf t l (mkLeaf e' p)) p l A c Z [(l, e')] [c].
Proof.
  intros W (Hk & Ha & _ & He & Hl & _). constructor; try done.
  - cbn. by rewrite Ha.
  - constructor; [apply not_elem_of_nil|constructor].
  - intros x ex [= -> ->]%elem_of_list_singleton. rewrite el_set_lf, llnk_set_lf, !decide_True by done. split; [done|]. split; [done|].
    split; [by left|]. apply (wt_lfresh W l). rewrite He. eauto.
  - cbn. set_solver.
  - intros x Hx _. rewrite el_set_lf, llnk_set_lf, !decide_False by done. done.
Qed.
Lemma fresh_leaf {E} t H lv : WT E t H lv -> el t (anext (leaf_nodes t)) = None.
Proof.
  intros W. destruct (el t (anext (leaf_nodes t))) eqn:Er; [|done]. pose proof (wt_lfresh W (anext (leaf_nodes t))) as H0.
  rewrite Er in H0. specialize (H0 ltac:(eauto)). lia.
Qed.

(** split_leaf_if_needed strictly inside an element *)
Lemma split_leaf_mid_small t H lv l e off p A c Z f : OK t H lv -> at_leaf t lv l e p A c Z -> 0 < off < rle_len e ->
  length (A ++ c :: Z) <= 10 ->
  exists e1 e2 lft t', let n := anext (leaf_nodes t) in
    split_leaf_f (S f) t (mkCur l off) = Ok (mkSI (Some (mkCur n 0)) lft p (S (length A)) (Some (ALeaf n)), t') /\
    e_split e off = Ok (e1, e2) /\ evalid L e1 /\ evalid L e2 /\ rle_len e1 = off /\ rle_len e2 = rle_len e - off /\
    summ L [get_elem_cache e1; get_elem_cache e2] = get_elem_cache e /\
    RP t t' p l A c Z [(l, e1); (n, e2)] [mkChild (ALeaf l) (get_elem_cache e1); mkChild (ALeaf n) (get_elem_cache e2)] /\
    anext (leaf_nodes t') = S n.
Proof.
  intros O (Hk & Ha & Hlv & He & Hl & Hget & Hrp & _ & po & s & Hg & Hlk) Hoff Hlen.
  pose proof (ok_wt _ _ _ _ O) as W.
  destruct (lw_split _ L e off) as (e1 & e2 & Hs & V1 & V2 & L1 & L2 & Hsum); [by eapply (va_el _ _ (ok_va _ _ _ _ O))|done|].
  set (n := anext (leaf_nodes t)). cbn zeta.
  set (lft := match length A with 0 => None | S s => raw ∘ c_arena <$> (A ++ c :: Z) !! s end).
  pose proof (fresh_leaf t H lv W) as Hfr. fold n in Hfr.
  assert (Hnl : n <> l) by (intros El; rewrite El in Hfr; congruence).
  eexists e1, e2, lft, _. split_and!; try done.
  - cbn [split_leaf_f cu_leaf cu_offset]. rewrite Hget. rb. cbn [l_parent l_elem]. rewrite Hg. rb. rewrite Hrp. rb.
    assert ((match length A with 0 => Ok None | S s0 => let? c0 := vec_get (A ++ c :: Z) s0 in Ok (Some (raw (c_arena c0))) end) = Ok lft) as ->.
    { unfold lft. destruct (length A) as [|s0] eqn:EA; [done|]. unfold vec_get.
      destruct (lookup_lt_is_Some_2 (A ++ c :: Z) s0) as [c0 ->]; [rewrite app_length; cbn; lia|]. done. }
    rb. rewrite (decide_False (P := off = 0)) by lia. rewrite decide_False by lia.
    unfold rassert. rewrite bool_decide_true by lia. rb. rewrite decide_False by lia. rewrite Hs. rb.
    unfold with_elem. cbn [l_elem l_parent]. set (t1 := set_lf t l (mkLeaf e1 p)).
    rewrite (surjective_pairing (ins_lf t1 (mkLeaf e2 p))). change (fst (ins_lf t1 (mkLeaf e2 p))) with n.
    set (t2 := snd (ins_lf t1 (mkLeaf e2 p))).
    unfold set_child_cache, vec_get. rewrite list_lookup_middle by done. rb. rewrite Ha.
    rewrite insert_app_r_alt, Nat.sub_diag by lia.
    change (<[0:=mkChild (ALeaf l) (get_elem_cache e1)]> (c :: Z)) with (mkChild (ALeaf l) (get_elem_cache e1) :: Z).
    unfold vec_insert. rewrite app_length in Hlen |- *. cbn [length] in Hlen |- *. rewrite decide_True by lia. rb.
    reflexivity.
  - set (t1 := set_lf t l (mkLeaf e1 p)). set (t2 := snd (ins_lf t1 (mkLeaf e2 p))).
    assert (E2 : forall x, el t2 x = if decide (n = x) then Some e2 else if decide (l = x) then Some e1 else el t x).
    { intros x. unfold t2. rewrite el_ins_lf. change (anext (leaf_nodes t1)) with n. case_decide; [done|]. unfold t1. by rewrite el_set_lf. }
    assert (L2' : forall x, llnk t2 x = if decide (n = x) then Some p else if decide (l = x) then Some p else llnk t x).
    { intros x. unfold t2. rewrite llnk_ins_lf. change (anext (leaf_nodes t1)) with n. case_decide; [done|]. unfold t1. by rewrite llnk_set_lf. }
    constructor; try done.
    + rewrite kids_set_in, decide_True by done. cbn [n_children with_children]. by rewrite ins_after.
    + constructor; [set_solver|]. constructor; [set_solver|constructor].
    + intros x ex Hx. rewrite el_set_in, llnk_set_in, E2, L2'. change (anext (leaf_nodes (set_in t2 p _))) with (S n).
      apply elem_of_cons in Hx as [[= -> ->]|[= -> ->]%elem_of_list_singleton].
      * dds. split_and!; try done; [by left|].
        assert (is_Some (el t l)) as Hx by (rewrite He; eauto). apply (wt_lfresh W) in Hx. fold n in Hx. lia.
      * rewrite !decide_True by done. split_and!; try done; [by right|lia].
    + cbn. set_solver.
    + intros x Hx Hn. rewrite el_set_in, llnk_set_in, E2, L2'. cbn in Hn. rewrite !not_elem_of_cons in Hn.
      destruct Hn as (? & ? & _). by dds.
    + intros j Hj. rewrite kids_set_in, decide_False by done. done.
    + intros j. rewrite lnk_set_in. case_decide; [subst|done]. by rewrite Hlk.
    + change (anext (leaf_nodes t) <= S n). unfold n. lia.
  - reflexivity.
Qed.

Lemma split_leaf_mid t H lv l e off : OK t H lv -> el t l = Some e -> 0 < off < rle_len e ->
  exists t0 H0 lv0 p A c Z e1 e2 lft t', let n := anext (leaf_nodes t0) in
    H0 <= S H /\ OK t0 H0 lv0 /\ cont t0 H0 = cont t H /\ (forall x, el t0 x = el t x) /\
    anext (leaf_nodes t) <= n /\ at_leaf t0 lv0 l e p A c Z /\ length (A ++ c :: Z) <= 10 /\
    split_leaf_if_needed t (mkCur l off) = Ok (mkSI (Some (mkCur n 0)) lft p (S (length A)) (Some (ALeaf n)), t') /\
    e_split e off = Ok (e1, e2) /\ evalid L e1 /\ evalid L e2 /\ rle_len e1 = off /\ rle_len e2 = rle_len e - off /\
    summ L [get_elem_cache e1; get_elem_cache e2] = get_elem_cache e /\
    RP t0 t' p l A c Z [(l, e1); (n, e2)] [mkChild (ALeaf l) (get_elem_cache e1); mkChild (ALeaf n) (get_elem_cache e2)] /\
    anext (leaf_nodes t') = S n /\ (MDw true t -> MDw true t0).
Proof.
  intros O He Hoff. pose proof (ok_wt _ _ _ _ O) as W.
  destruct (at_leaf_ok t H lv l e W (ok_lk _ _ _ _ O) He) as (p & A & c & Z & AL). pose proof AL as AL0.
  destruct (decide (length (A ++ c :: Z) <= 10)) as [Hlen|Hlen].
  { destruct (split_leaf_mid_small t H lv l e off p A c Z 2 O AL Hoff Hlen) as (e1 & e2 & lft & t' & G).
    exists t, H, lv, p, A, c, Z, e1, e2, lft, t'. cbn zeta in *. split_and!; try done; try lia; tauto. }
  destruct AL0 as (Hk & Ha & Hlv & _ & Hl & Hget & Hrp & _ & po & s & Hg & Hlk).
  assert (length (chs t p) = 11) as H11.
  { pose proof (ok_sz _ _ _ _ O p). rewrite (chs_kids _ _ _ Hk), map_length in *. lia. }
  destruct (split_ok L (H - lv p) t H lv p (fuel t) W (ok_lk _ _ _ _ O) (ok_va _ _ _ _ O) (ok_co _ _ _ _ O) (ok_rc _ _ _ _ O))
      as (t0 & H0 & lv0 & Es & O0 & Hgen & He0 & HM0 & Al0 & _ & Half & HH0); try lia.
  { rewrite Hk. eauto. } { intros j _. apply (ok_sz _ _ _ _ O). }
  { pose proof (wt_depth_bound W p). rewrite Hk in H0. specialize (H0 ltac:(eauto)). unfold fuel. lia. }
  destruct (at_leaf_ok t0 H0 lv0 l e (ok_wt _ _ _ _ O0) (ok_lk _ _ _ _ O0)) as (p0 & A0 & c0 & Z0 & AL0); [by rewrite He0|].
  assert (length (A0 ++ c0 :: Z0) <= 10) as Hlen0.
  { destruct AL0 as (Hk0 & Ha0 & _). specialize (Half p0 (ALeaf l)).
    rewrite (chs_kids _ _ _ Hk), (chs_kids _ _ _ Hk0), !map_length in Half.
    enough (length (A0 ++ c0 :: Z0) <= 6) by lia. apply Half; rewrite map_app, elem_of_app; right; cbn [map]; rewrite ?Ha, ?Ha0; left. }
  destruct (split_leaf_mid_small t0 H0 lv0 l e off p0 A0 c0 Z0 1 O0 AL0 Hoff Hlen0) as (e1 & e2 & lft & t' & G).
  exists t0, H0, lv0, p0, A0, c0, Z0, e1, e2, lft, t'. cbn zeta in *. split_and!; try done; try tauto.
  { by apply cont_same. }
  2: { intros M. apply HM0; [done|]. lia. }
  destruct G as (G & _). rewrite <- G. unfold split_leaf_if_needed.
  cbn [split_leaf_f cu_leaf cu_offset]. rewrite Hget. rb. cbn [l_parent l_elem]. rewrite Hg. rb. rewrite Hrp. rb.
  assert (exists lft, (match length A with 0 => Ok None | S s0 => let? c0 := vec_get (A ++ c :: Z) s0 in Ok (Some (raw (c_arena c0))) end) = Ok lft) as [lft' ->].
  { destruct (length A) as [|s0] eqn:EA; [eauto|]. unfold vec_get.
    destruct (lookup_lt_is_Some_2 (A ++ c :: Z) s0) as [c1 ->]; [rewrite app_length; cbn; lia|]. rb. eauto. }
  rb. rewrite (decide_False (P := off = 0)) by lia. rewrite decide_False by lia.
  unfold rassert. rewrite bool_decide_true by lia. rb. rewrite decide_True by lia.
  unfold split. rewrite Es. reflexivity.
Qed.

Lemma split_leaf_0 t H lv l e p A c Z : OK t H lv -> at_leaf t lv l e p A c Z ->
  exists lft, split_leaf_if_needed t (mkCur l 0) = Ok (mkSI (Some (mkCur l 0)) lft p (length A) None, t).
Proof.
  intros O (Hk & Ha & Hlv & _ & Hl & Hget & Hrp & _ & po & s & Hg & Hlk). unfold split_leaf_if_needed.
  cbn [split_leaf_f cu_leaf cu_offset]. rewrite Hget. rb. cbn [l_parent l_elem]. rewrite Hg. rb. rewrite Hrp. rb.
  assert (exists lft, (match length A with 0 => Ok None | S s0 => let? c0 := vec_get (A ++ c :: Z) s0 in Ok (Some (raw (c_arena c0))) end) = Ok lft) as [lft' ->].
  { destruct (length A) as [|s0] eqn:EA; [eauto|]. unfold vec_get.
    destruct (lookup_lt_is_Some_2 (A ++ c :: Z) s0) as [c1 ->]; [rewrite app_length; cbn; lia|]. rb. eauto. }
  rb. rewrite decide_True by done. eauto.
Qed.
Lemma split_leaf_end t H lv l e p A c Z : OK t H lv -> at_leaf t lv l e p A c Z -> 0 < rle_len e ->
  exists lft np, split_leaf_if_needed t (mkCur l (rle_len e)) = Ok (mkSI np lft p (S (length A)) None, t).
Proof.
  intros O (Hk & Ha & Hlv & He & Hl & Hget & Hrp & _ & po & s & Hg & Hlk) Hpos. unfold split_leaf_if_needed.
  cbn [split_leaf_f cu_leaf cu_offset]. rewrite Hget. rb. cbn [l_parent l_elem]. rewrite Hg. rb. rewrite Hrp. rb.
  assert (exists lft, (match length A with 0 => Ok None | S s0 => let? c0 := vec_get (A ++ c :: Z) s0 in Ok (Some (raw (c_arena c0))) end) = Ok lft) as [lft' ->].
  { destruct (length A) as [|s0] eqn:EA; [eauto|]. unfold vec_get.
    destruct (lookup_lt_is_Some_2 (A ++ c :: Z) s0) as [c1 ->]; [rewrite app_length; cbn; lia|]. rb. eauto. }
  rb. rewrite (decide_False (P := rle_len e = 0)) by lia. rewrite decide_True by done.
  exists lft'.
  assert (exists np, (match (A ++ c :: Z) !! S (length A) with
       | Some c1 => Ok (Some (mkCur (raw (c_arena c1)) 0)) | None => next_elem t (mkCur l (rle_len e)) end) = Ok np) as [np ->]; [|eauto].
  destruct ((A ++ c :: Z) !! S (length A)); [eauto|].
  destruct (elem_of_list_split (leaves t) l) as (X & Y & HL).
  { apply (leaves_live (ok_wt _ _ _ _ O)). rewrite He. eauto. }
  rewrite (next_elem_ok (ok_wt _ _ _ _ O) (ok_lk _ _ _ _ O) l _ X Y HL). eauto.
Qed.

(** allocating a new leaf under the parent of [l] *)
Lemma RP_before t H lv l e x p A c Z po s : WT NoE t H lv -> at_leaf t lv l e p A c Z -> lnk t p = Some (po, s) ->
  let n := anext (leaf_nodes t) in let ch := mkChild (ALeaf n) (get_elem_cache x) in
  RP t (set_in (snd (ins_lf t (mkLeaf x p))) p (mkNode po s (A ++ [ch; c] ++ Z))) p l A c Z [(n, x); (l, e)] [ch; c].
Proof.
  intros W (Hk & Ha & Hlv & He & Hl & _) Hlk n ch. pose proof (fresh_leaf t H lv W) as Hfr. fold n in Hfr.
  assert (Hnl : n <> l) by (intros El; rewrite El in Hfr; congruence).
  set (t2 := snd (ins_lf t (mkLeaf x p))).
  assert (E2 : forall y, el t2 y = if decide (n = y) then Some x else el t y) by (intros y; apply el_ins_lf).
  assert (L2 : forall y, llnk t2 y = if decide (n = y) then Some p else llnk t y) by (intros y; apply llnk_ins_lf).
  constructor; try done.
  + rewrite kids_set_in, decide_True by done. done.
  + cbn. by rewrite Ha.
  + constructor; [set_solver|]. constructor; [set_solver|constructor].
  + intros y ey Hx. rewrite el_set_in, llnk_set_in, E2, L2. change (anext (leaf_nodes (set_in t2 p _))) with (S n).
    apply elem_of_cons in Hx as [[= -> ->]|[= -> ->]%elem_of_list_singleton].
    * rewrite !decide_True by done. split_and!; try done; [by right|lia].
    * dds. split_and!; try done; [by left|].
      assert (is_Some (el t l)) as Hx by (rewrite He; eauto). apply (wt_lfresh W) in Hx. fold n in Hx. lia.
  + cbn. set_solver.
  + intros y Hx Hn. rewrite el_set_in, llnk_set_in, E2, L2. cbn in Hn. rewrite !not_elem_of_cons in Hn.
    destruct Hn as (? & ? & _). by dds.
  + intros j Hj. rewrite kids_set_in, decide_False by done. done.
  + intros j. rewrite lnk_set_in. case_decide; [subst|done]. by rewrite Hlk.
  + change (anext (leaf_nodes t) <= S n). unfold n. lia.
Qed.
Lemma RP_after t H lv l e x p A c Z po s : WT NoE t H lv -> at_leaf t lv l e p A c Z -> lnk t p = Some (po, s) ->
  let n := anext (leaf_nodes t) in let ch := mkChild (ALeaf n) (get_elem_cache x) in
  RP t (set_in (snd (ins_lf t (mkLeaf x p))) p (mkNode po s (A ++ [c; ch] ++ Z))) p l A c Z [(l, e); (n, x)] [c; ch].
Proof.
  intros W (Hk & Ha & Hlv & He & Hl & _) Hlk n ch. pose proof (fresh_leaf t H lv W) as Hfr. fold n in Hfr.
  assert (Hnl : n <> l) by (intros El; rewrite El in Hfr; congruence).
  set (t2 := snd (ins_lf t (mkLeaf x p))).
  assert (E2 : forall y, el t2 y = if decide (n = y) then Some x else el t y) by (intros y; apply el_ins_lf).
  assert (L2 : forall y, llnk t2 y = if decide (n = y) then Some p else llnk t y) by (intros y; apply llnk_ins_lf).
  constructor; try done.
  + rewrite kids_set_in, decide_True by done. done.
  + cbn. by rewrite Ha.
  + constructor; [set_solver|]. constructor; [set_solver|constructor].
  + intros y ey Hx. rewrite el_set_in, llnk_set_in, E2, L2. change (anext (leaf_nodes (set_in t2 p _))) with (S n).
    apply elem_of_cons in Hx as [[= -> ->]|[= -> ->]%elem_of_list_singleton].
    * dds. split_and!; try done; [by left|].
      assert (is_Some (el t l)) as Hx by (rewrite He; eauto). apply (wt_lfresh W) in Hx. fold n in Hx. lia.
    * rewrite !decide_True by done. split_and!; try done; [by right|lia].
  + cbn. set_solver.
  + intros y Hx Hn. rewrite el_set_in, llnk_set_in, E2, L2. cbn in Hn. rewrite !not_elem_of_cons in Hn.
    destruct Hn as (? & ? & _). by dds.
  + intros j Hj. rewrite kids_set_in, decide_False by done. done.
  + intros j. rewrite lnk_set_in. case_decide; [subst|done]. by rewrite Hlk.
  + change (anext (leaf_nodes t) <= S n). unfold n. lia.
Qed.
(** a second allocation between the two halves of a split *)
Lemma RP_between t t1 H lv l e e1 e2 x p A c Z n c1 c2 : WT NoE t H lv -> at_leaf t lv l e p A c Z ->
  RP t t1 p l A c Z [(l, e1); (n, e2)] [c1; c2] -> n = anext (leaf_nodes t) -> anext (leaf_nodes t1) = S n ->
  exists po s, get_in (snd (ins_lf t1 (mkLeaf x p))) p = Ok (mkNode po s (A ++ [c1; c2] ++ Z)) /\
  let ch := mkChild (ALeaf (S n)) (get_elem_cache x) in
  RP t (set_in (snd (ins_lf t1 (mkLeaf x p))) p (mkNode po s (A ++ [c1; ch; c2] ++ Z))) p l A c Z
    [(l, e1); (S n, x); (n, e2)] [c1; ch; c2].
Proof.
  intros W (Hk & Ha & Hlv & He & Hl & _ & _ & _ & po & s & _ & Hlk) R Hn0 Hn1. exists po, s.
  pose proof (fresh_leaf t H lv W) as Hfr. rewrite <- Hn0 in Hfr.
  assert (Hll : l < n).
  { assert (is_Some (el t l)) as Hx by (rewrite He; eauto). apply (wt_lfresh W) in Hx. lia. }
  set (t2 := snd (ins_lf t1 (mkLeaf x p))). destruct R.
  assert (E2 : forall y, el t2 y = if decide (S n = y) then Some x else el t1 y) by (intros y; rewrite <- Hn1; apply el_ins_lf).
  assert (L2 : forall y, llnk t2 y = if decide (S n = y) then Some p else llnk t1 y) by (intros y; rewrite <- Hn1; apply llnk_ins_lf).
  assert (Hfr2 : el t (S n) = None).
  { destruct (el t (S n)) eqn:Er; [|done]. pose proof (wt_lfresh W (S n)) as H0. rewrite Er in H0. specialize (H0 ltac:(eauto)). lia. }
  split. { apply get_in_proj; [done|]. change (lnk t1 p = Some (po, s)). by rewrite rp_lnk. }
  intros ch. cbn in rp_NN. injection rp_NN as Hc1 Hc2.
  constructor; try done.
  + rewrite kids_set_in, decide_True by done. done.
  + cbn. by rewrite Hc1, Hc2.
  + cbn. repeat constructor; rewrite ?elem_of_cons, elem_of_nil; lia.
  + intros y ey Hx. rewrite el_set_in, llnk_set_in, E2, L2. change (anext (leaf_nodes (set_in t2 p _))) with (S (anext (leaf_nodes t1))).
    rewrite Hn1. apply elem_of_cons in Hx as [[= -> ->]|[[= -> ->]|[= -> ->]%elem_of_list_singleton]%elem_of_cons].
    * rewrite !decide_False by lia. destruct (rp_new l e1) as (? & ? & ? & ?); [left|]. split_and!; try done. lia.
    * rewrite !decide_True by done. split_and!; try done; [by right|lia].
    * rewrite !decide_False by lia. destruct (rp_new n e2) as (? & ? & ? & ?); [right; left|]. split_and!; try done. lia.
  + cbn. set_solver.
  + intros y Hx Hn. rewrite el_set_in, llnk_set_in, E2, L2. cbn in Hn. rewrite !not_elem_of_cons in Hn.
    destruct Hn as (? & ? & ? & _). dds. apply rp_el; [done|]. cbn. set_solver.
  + intros j Hj. rewrite kids_set_in, decide_False by done. by apply rp_other.
  + intros j. rewrite lnk_set_in. case_decide; [subst|apply rp_lnk]. by rewrite Hlk.
  + change (anext (leaf_nodes t) <= S (anext (leaf_nodes t1))). lia.
Qed.

Lemma cache_ok t H lv c l e p cs : OK t H lv -> kids t p = Some cs -> c ∈ cs -> c_arena c = ALeaf l -> el t l = Some e ->
  c_cache c = get_elem_cache e.
Proof. intros O Hk Hc Ha He. rewrite (ok_co _ _ _ _ O p cs c Hk Hc) by tauto. by rewrite Ha, (act_leaf _ _ _ _ He). Qed.

Theorem insert_ok t H lv l e off x : OK t H lv -> el t l = Some e -> off <= rle_len e -> evalid L x ->
  exists cur sl R t' H' lv', insert_by_path t (mkCur l off) x = Ok (cur, sl, t') /\ OK t' H' lv' /\
    ins_res l e off x (fun n => anext (leaf_nodes t) <= n < anext (leaf_nodes t')) cur sl R /\
    (forall X Y, cont t H = X ++ (l, e) :: Y -> cont t' H' = X ++ R ++ Y) /\
    (forall w, (w = true \/ off = 0 \/ off = rle_len e) -> MDw w t -> MDw w t') /\ anext (leaf_nodes t) <= anext (leaf_nodes t').
Proof.
  intros O He Hoff Vx. pose proof (ok_wt _ _ _ _ O) as W. pose proof (ok_lk _ _ _ _ O) as K. pose proof (ok_va _ _ _ _ O) as V.
  pose proof (va_el _ _ V _ _ He) as Ve.
  destruct (at_leaf_ok t H lv l e W K He) as (p & A & c & Z & AL). pose proof AL as (Hk & Ha & Hlv & _ & Hl & Hget & Hrp & Hsl & po & s & Hg & Hlk).
  assert (Hlen : length (A ++ c :: Z) <= 11).
  { pose proof (ok_sz _ _ _ _ O p) as Hz. by rewrite (chs_kids _ _ _ Hk), map_length in Hz. }
  assert (Hcc : c_cache c = get_elem_cache e) by (eapply cache_ok; eauto; set_solver).
  unfold insert_by_path. cbn [cu_leaf cu_offset]. rewrite Hget. rb. cbn [l_elem l_parent].
  set (od := if USE_DIFF then Some (new_cache_to_diff (get_elem_cache x)) else None).
  assert (Hod : forall d, od = Some d -> d = new_cache_to_diff (get_elem_cache x)).
  { unfold od. destruct USE_DIFF; congruence. }
  (* a change of the element alone *)
  assert (SetCase : forall e', evalid L e' ->
    (USE_DIFF (b := B) = true -> drel L (get_elem_cache e) (new_cache_to_diff (get_elem_cache x)) (get_elem_cache e')) ->
    exists t' H' lv', (let? t := recursive_update_cache (set_lf t l (with_elem (mkLeaf e p) e')) (ALeaf l) (USE_DIFF (b := B)) od in Ok t) = Ok t' /\
     OK t' H' lv' /\ (forall X Y, cont t H = X ++ (l, e) :: Y -> cont t' H' = X ++ [(l, e')] ++ Y) /\ (forall w, MDw w t -> MDw w t') /\
     anext (leaf_nodes t) <= anext (leaf_nodes t')).
  { intros e' Ve' Hd. destruct (rp_finish L t (set_lf t l (mkLeaf e' p)) H lv p l e e' A c Z [(l, e')] [c] od)
      as (t' & H' & lv' & E1 & O1 & C1 & El1 & M1 & Al1); try done.
    - by eapply RP_set.
    - left.
    - intros c0 ->%elem_of_list_singleton. done.
    - by intros ? ? [= -> ->]%elem_of_list_singleton.
    - intros c0 ->%elem_of_list_singleton. eapply (va_ch _ _ V); [exact Hk|set_solver].
    - etrans; [exact Hlen|lia].
    - intros d Hd' Hu u v _ _. rewrite (Hod d Hd'). cbn [map snd app]. apply lw_cong. by apply Hd.
    - exists t', H', lv'. rewrite bool_decide_false in E1 by (cbn [app]; lia). split_and!; try done. }
  destruct (lw_try _ L e off x Ve Vx Hoff) as [(e' & Ht & Ve' & _ & Hd)|Ht]; rewrite Ht; rb.
  { destruct (SetCase e' Ve' Hd) as (t' & H' & lv' & E1 & O1 & C1 & M1 & Al1). exists (mkCur l off), [], [(l, e')], t', H', lv'.
    destruct (recursive_update_cache _ _ _ _) as [t1| |]; try done. rb. cbn in E1. injection E1 as ->.
    split; [done|]. split; [done|]. split; [by constructor|]. split; [done|]. split; [by intros w _; apply M1|done]. }
  destruct (decide (off = 0)) as [H0|H0]; [rewrite (bool_decide_true (off = 0)) by done|rewrite (bool_decide_false (off = 0)) by done];
    cbn [andb].
  - (* at the start *)
    subst off. destruct (can_merge x e) eqn:Ecm.
    { destruct (lw_ml _ L x e Vx Ve Ecm) as (e' & Hm & Ve' & _ & _ & Hd). rewrite Hm. rb.
      destruct (SetCase e' Ve' Hd) as (t' & H' & lv' & E1 & O1 & C1 & M1 & Al1). exists (mkCur l 0), [], [(l, e')], t', H', lv'.
      destruct (recursive_update_cache _ _ _ _) as [t1| |]; try done. rb. cbn in E1. injection E1 as ->.
      split; [done|]. split; [done|]. split; [by constructor|]. split; [done|]. split; [by intros w _; apply M1|done]. }
    destruct (bool_decide (0 = rle_len e) && can_merge e x) eqn:Ecm2.
    { apply andb_true_iff in Ecm2 as [Hz%bool_decide_eq_true Ecm2].
      destruct (lw_mr _ L e x Ve Vx Ecm2) as (e' & Hm & Ve' & _ & _ & Hd). rewrite Hm. rb.
      destruct (SetCase e' Ve' Hd) as (t' & H' & lv' & E1 & O1 & C1 & M1 & Al1). exists (mkCur l (rle_len e)), [], [(l, e')], t', H', lv'.
      destruct (recursive_update_cache _ _ _ _) as [t1| |]; try done. rb. cbn in E1. injection E1 as ->.
      split; [done|]. split; [done|]. split; [by constructor|]. split; [done|]. split; [by intros w _; apply M1|done]. }
    destruct (split_leaf_0 t H lv l e p A c Z O AL) as [lft Hs]. rewrite Hs. rb. cbn [si_parent si_slot si_new_leaf].
    unfold alloc_leaf_child. rewrite (surjective_pairing (ins_lf t (mkLeaf x p))).
    change (fst (ins_lf t (mkLeaf x p))) with (anext (leaf_nodes t)). set (n := anext (leaf_nodes t)). rb. cbn [sl_push_option].
    assert (get_in (snd (ins_lf t (mkLeaf x p))) p = Ok (mkNode po s (A ++ c :: Z))) as Hg2 by exact Hg. rewrite Hg2. rb.
    set (ch := mkChild (ALeaf n) (get_elem_cache x)).
    rewrite vec_insert_ok by (rewrite ?app_length in *; cbn in *; lia). rb. rewrite ins_at.
    destruct (rp_finish L t _ H lv p l e e A c Z [(n, x); (l, e)] [ch; c] od O Hlv He (RP_before t H lv l e x p A c Z po s W AL Hlk))
      as (t' & H' & lv' & E1 & O1 & C1 & El1 & M1 & Al1).
    + set_solver.
    + intros c0 [-> |Hc0%elem_of_list_singleton]%elem_of_cons Hne; [|congruence]. symmetry. apply (act_leaf L _ n x). rewrite el_set_in, el_ins_lf. by rewrite decide_True.
    + by intros ? ? [[= -> ->]|[= -> ->]%elem_of_list_singleton]%elem_of_cons.
    + intros c0 [-> |Hc0%elem_of_list_singleton]%elem_of_cons; [by apply lw_get|]. subst c0. rewrite Hcc. by apply lw_get.
    + rewrite app_length in *. cbn in *. lia.
    + intros d Hd' Hu u v _ _. rewrite (Hod d Hd'). cbn [map snd app]. by apply lw_new.
    + exists (mkCur n 0), [], [(n, x); (l, e)], t', H', lv'. unfold is_full, with_children. rb. 
      change (A ++ ch :: c :: Z) with (A ++ [ch; c] ++ Z).
      destruct (recursive_update_cache _ _ _ _) as [t1| |]; try done. rb. cbn [rbind] in E1. rewrite E1. rb.
      assert (S n <= anext (leaf_nodes t')) as Hal by exact Al1.
      split_and!; try done; try (unfold n in *; lia); [|by intros w _; apply M1]. apply in_before; try done; try (unfold n in *; lia).
      intros Hz. apply andb_false_iff in Ecm2 as [Hb|]; [|done]. by apply bool_decide_eq_false in Hb.
  - destruct (decide (off = rle_len e)) as [H1|H1]; [rewrite (bool_decide_true (off = rle_len e)) by done|
      rewrite (bool_decide_false (off = rle_len e)) by done]; cbn [andb].
    + subst off. destruct (can_merge e x) eqn:Ecm.
      { destruct (lw_mr _ L e x Ve Vx Ecm) as (e' & Hm & Ve' & _ & _ & Hd). rewrite Hm. rb.
        destruct (SetCase e' Ve' Hd) as (t' & H' & lv' & E1 & O1 & C1 & M1 & Al1). exists (mkCur l (rle_len e)), [], [(l, e')], t', H', lv'.
        destruct (recursive_update_cache _ _ _ _) as [t1| |]; try done. rb. cbn in E1. injection E1 as ->.
        split; [done|]. split; [done|]. split; [by constructor|]. split; [done|]. split; [by intros w _; apply M1|done]. }
      destruct (split_leaf_end t H lv l e p A c Z O AL ltac:(lia)) as (lft & np & Hs). rewrite Hs. rb. cbn [si_parent si_slot si_new_leaf].
      unfold alloc_leaf_child. rewrite (surjective_pairing (ins_lf t (mkLeaf x p))).
      change (fst (ins_lf t (mkLeaf x p))) with (anext (leaf_nodes t)). set (n := anext (leaf_nodes t)). rb. cbn [sl_push_option].
      assert (get_in (snd (ins_lf t (mkLeaf x p))) p = Ok (mkNode po s (A ++ c :: Z))) as Hg2 by exact Hg. rewrite Hg2. rb.
      set (ch := mkChild (ALeaf n) (get_elem_cache x)).
      rewrite vec_insert_ok by (rewrite ?app_length in *; cbn in *; lia). rb. rewrite ins_after.
      destruct (rp_finish L t _ H lv p l e e A c Z [(l, e); (n, x)] [c; ch] od O Hlv He (RP_after t H lv l e x p A c Z po s W AL Hlk))
        as (t' & H' & lv' & E1 & O1 & C1 & El1 & M1 & Al1).
      * set_solver.
      * intros c0 [-> |Hc0%elem_of_list_singleton]%elem_of_cons Hne; [congruence|]. subst c0. symmetry. apply (act_leaf L _ n x). rewrite el_set_in, el_ins_lf. by rewrite decide_True.
      * by intros ? ? [[= -> ->]|[= -> ->]%elem_of_list_singleton]%elem_of_cons.
      * intros c0 [-> |Hc0%elem_of_list_singleton]%elem_of_cons; [rewrite Hcc; by apply lw_get|]. subst c0. by apply lw_get.
      * rewrite app_length in *. cbn in *. lia.
      * intros d Hd' Hu u v _ _. rewrite (Hod d Hd'). cbn [map snd app]. 
        pose proof (lw_new _ L (u ++ [get_elem_cache e]) v (get_elem_cache x) Hu) as Hx. by rewrite <- !app_assoc in Hx.
      * exists (mkCur n 0), [], [(l, e); (n, x)], t', H', lv'. unfold is_full, with_children. rb.
        destruct (recursive_update_cache _ _ _ _) as [t1| |]; try done. rb. cbn [rbind] in E1. rewrite E1. rb.
        assert (S n <= anext (leaf_nodes t')) as Hal by exact Al1.
        split_and!; try done; try (unfold n in *; lia); [|by intros w _; apply M1]. by apply in_after; try (unfold n in *; lia).
    + destruct (split_leaf_mid t H lv l e off O He ltac:(lia)) as (t0 & H' & lv' & p0 & A0 & c0 & Z0 & e1 & e2 & lft & t1 & G).
      cbn zeta in G. destruct G as (_ & O0 & Hc0 & El0 & Al0 & AL0 & Hlen0 & Hs & Hsp & V1 & V2 & Hl1 & Hl2 & Hsum & R0 & An1 & HM0).
      rewrite Hs. rb. cbn [si_parent si_slot si_new_leaf].
      set (n := anext (leaf_nodes t0)) in *.
      unfold alloc_leaf_child. rewrite (surjective_pairing (ins_lf t1 (mkLeaf x p0))).
      change (fst (ins_lf t1 (mkLeaf x p0))) with (anext (leaf_nodes t1)). rewrite An1. rb. cbn [sl_push_option].
      unfold sl_push, vec_push. rewrite decide_True by (cbn; lia). rb. cbn [raw app].
      set (c1 := mkChild (ALeaf l) (get_elem_cache e1)) in *. set (c2 := mkChild (ALeaf n) (get_elem_cache e2)) in *.
      destruct (RP_between t0 t1 H' lv' l e e1 e2 x p0 A0 c0 Z0 n c1 c2 (ok_wt _ _ _ _ O0) AL0 R0 eq_refl An1) as (po0 & s0 & Hg0 & R).
      cbn zeta in R. rewrite Hg0. rb. rewrite vec_insert_ok by (rewrite ?app_length in *; cbn in *; lia). rb.
      change (A0 ++ [c1; c2] ++ Z0) with (A0 ++ c1 :: (c2 :: Z0)). rewrite ins_after. set (ch := mkChild (ALeaf (S n)) (get_elem_cache x)) in *.
      pose proof AL0 as (_ & _ & Hlv0 & He0 & _).
      destruct (rp_finish L t0 _ H' lv' p0 l e e1 A0 c0 Z0 _ _ od O0 Hlv0 He0 R)
        as (t' & H'' & lv'' & E1 & O1 & C1 & El1 & M1 & Al1).
      * left.
      * intros c3 Hc3 Hne. destruct (elem_of_list_split _ _ Hc3) as (P1 & P2 & HP).
        pose proof (rp_new _ _ _ _ _ _ _ _ _ R) as Hnew.
        apply elem_of_cons in Hc3 as [-> |[-> | ->%elem_of_list_singleton]%elem_of_cons]; [done| |].
        -- destruct (Hnew (S n) x) as [Hx _]; [right; left|]. unfold Law.act. cbn [c_arena ch]. by rewrite Hx.
        -- destruct (Hnew n e2) as [Hx _]; [right; right; left|]. unfold Law.act. cbn [c_arena c2]. by rewrite Hx.
      * intros ? ? [[= -> ->]|[[= -> ->]|[= -> ->]%elem_of_list_singleton]%elem_of_cons]%elem_of_cons; done.
      * intros c3 [-> |[-> | ->%elem_of_list_singleton]%elem_of_cons]%elem_of_cons; by apply lw_get.
      * rewrite app_length in *. cbn in *. lia.
      * intros d Hd' Hu u v Hu1 Hv1. rewrite (Hod d Hd'). cbn [map snd app]. rewrite <- Hsum, flat2; [|done|done|by apply lw_get|by apply lw_get].
        pose proof (lw_new _ L (u ++ [get_elem_cache e1]) (get_elem_cache e2 :: v) (get_elem_cache x) Hu) as Hx. by rewrite <- !app_assoc in Hx.
      * exists (mkCur (S n) 0), [n], [(l, e1); (S n, x); (n, e2)], t', H'', lv''. unfold is_full, with_children. rb.
        change (A0 ++ [c1; ch] ++ c2 :: Z0) with (A0 ++ [c1; ch; c2] ++ Z0).
        destruct (recursive_update_cache _ _ _ _) as [t2| |]; try done. rb. cbn [rbind] in E1. rewrite E1. rb.
        assert (S (anext (leaf_nodes t1)) <= anext (leaf_nodes t')) as Hal by exact Al1.
        split_and!; try done; try (unfold n in *; lia).
        -- by apply in_mid; try (unfold n in *; lia).
        -- intros X Y Hc. apply C1. congruence.
        -- intros w [-> |[? | ?]] M; [|lia|lia]. by apply M1, HM0.
Qed.

(** ** Empty trees *)
Lemma empty_nodes t H lv : WT NoE t H lv -> chs t (raw (root t)) = [] ->
  (forall m, is_Some (kids t m) -> m = raw (root t)) /\ (forall l, el t l = None) /\ cont t H = [].
Proof.
  intros W He.
  assert (Hg : forall n, gen t (S n) (root t) = []).
  { intros n. rewrite (wt_root_id W). cbn [gen achs]. by rewrite He. }
  assert (Hl : forall a, live t a -> a = root t).
  { intros a Ha. destruct (decide (a = root t)) as [|D]; [done|]. destruct (wt_up W a Ha D) as (p & k & Hk).
    assert (exists n, a ∈ gen t (S n) (root t)) as [n Hn]; [|rewrite Hg in Hn; by apply not_elem_of_nil in Hn].
    pose proof (wt_ch W _ _ _ Hk) as [_ Hlv]. pose proof (wt_lv W p (chs_lookup_live _ _ _ _ Hk)) as Hp.
    exists (H - lv p). apply (gen_complete W); [done|]. lia. }
  split; [|split].
  - intros m Hm. specialize (Hl (AInt m) Hm). by rewrite <- Hl.
  - intros l. destruct (el t l) eqn:El; [|done]. assert (live t (ALeaf l)) as Hll by (cbn; rewrite El; eauto).
    specialize (Hl _ Hll). pose proof (wt_root_id W) as Hr. congruence.
  - unfold cont. by rewrite Hg.
Qed.
Lemma wt_relevel t H lv : WT NoE t H lv -> chs t (raw (root t)) = [] -> WT NoE t 0 (fun _ => 0).
Proof.
  intros W He. destruct (empty_nodes t H lv W He) as (Hm & Hl & _).
  assert (Hno : forall p k a, chs t p !! k = Some a -> False).
  { intros p k a Hk. rewrite (Hm p (chs_lookup_live _ _ _ _ Hk)), He in Hk. done. }
  constructor.
  - exists (raw (root t)). split; [apply (wt_root_id W)|]. split; [apply (wt_root_live W)|done].
  - intros p k a Hk. by destruct (Hno p k a Hk).
  - intros p k p' k' a Hk. by destruct (Hno p k a Hk).
  - intros a Ha. apply (wt_up W a Ha).
  - done.
  - intros m Hm'. apply (wt_ne W m Hm').
  - apply (wt_fresh W).
  - apply (wt_lfresh W).
Qed.
Lemma OK_relevel t H lv : OK t H lv -> chs t (raw (root t)) = [] -> OK t 0 (fun _ => 0).
Proof. intros [] He. constructor; try done. by eapply wt_relevel. Qed.
Lemma cont_nil t H lv : WT NoE t H lv -> cont t H = [] -> chs t (raw (root t)) = [].
Proof.
  intros W Hc. destruct (decide (chs t (raw (root t)) = [])) as [|D]; [done|].
  pose proof (sub_ne W H (raw (root t)) D) as Hn.
  pose proof (wt_root_lv W) as Hr. exfalso. apply Hn; [by rewrite (wt_root_id W) in Hr|]. rewrite <- (wt_root_id W).
  rewrite <- (leaves_gen W). rewrite <- (elems_fst W), (elems_cont _ _ _ W), Hc. done.
Qed.

(** like [rp_finish], propagating from the parent node *)
Lemma rp_finish_int t t' H lv p l e A c Z N (N' : list child) (od : option (Diff B)) :
  OK t H lv -> lv p = 0 -> el t l = Some e -> RP t t' p l A c Z N N' ->
  (forall c0, c0 ∈ N' -> c_cache c0 = act t' (c_arena c0)) -> N' <> [] ->
  (forall x e, (x, e) ∈ N -> evalid L e) -> (forall c0, c0 ∈ N' -> cvalid L (c_cache c0)) ->
  length (A ++ N' ++ Z) <= 12 ->
  (forall d, od = Some d -> USE_DIFF (b := B) = true -> forall u v, Forall (cvalid L) u -> Forall (cvalid L) v ->
     drel L (summ L (u ++ get_elem_cache e :: v)) d (summ L (u ++ map c_cache N' ++ v))) ->
  exists t'' H'' lv'',
    (let? t := recursive_update_cache t' (AInt p) (USE_DIFF (b := B)) od in
     if bool_decide (12 <= length (A ++ N' ++ Z)) then split t (AInt p) else Ok t) = Ok t'' /\ OK t'' H'' lv'' /\
    (forall X Y, cont t H = X ++ (l, e) :: Y -> cont t'' H'' = X ++ N ++ Y) /\
    (forall x, el t'' x = el t' x) /\ (forall w, MDw w t -> MDw w t'') /\ anext (leaf_nodes t') <= anext (leaf_nodes t'').
Proof.
  intros O Hlp He R Hnew Hne Hev Hcv Hlen Hd. destruct O as [W K Z11 C HR V].
  pose proof (rp_ED L W K Hlp R) as D.
  assert (W' : WT NoE t' H lv).
  { apply (ed_WT_ne W Hlp D). destruct A; [|done]. by destruct N'. }
  assert (HcA : Forall (cvalid L) (map c_cache A) /\ Forall (cvalid L) (map c_cache Z)).
  { pose proof (VA_kids L _ _ _ V (rp_p _ _ _ _ _ _ _ _ _ R)) as F. rewrite map_app in F. apply Forall_app in F as [F1 F2].
    cbn in F2. by apply Forall_cons in F2 as [_ F2]. }
  assert (Hold : act t (AInt p) = summ L (map c_cache A ++ get_elem_cache e :: map c_cache Z)).
  { rewrite (act_int _ _ _ _ (rp_p _ _ _ _ _ _ _ _ _ R)), map_app. cbn [map].
    rewrite (C p _ c (rp_p _ _ _ _ _ _ _ _ _ R)); [|set_solver|tauto]. by rewrite (rp_c _ _ _ _ _ _ _ _ _ R), (act_leaf _ _ _ _ He). }
  pose proof (chs_kids _ _ _ (rp_p' _ _ _ _ _ _ _ _ _ R)) as Hc'.
  destruct (finish_int L t' H lv p od (bool_decide (12 <= length (A ++ N' ++ Z))))
    as (t'' & H'' & lv'' & E2 & O2 & C2 & El2 & M2 & Al2); try done.
  - by apply (ed_LK W D).
  - rewrite (rp_p' _ _ _ _ _ _ _ _ _ R). eauto.
  - rewrite Hc'. destruct A; [|done]. by destruct N'.
  - by eapply (rp_CO_all L W K Hlp R).
  - by eapply (rp_VA L W K Hlp R).
  - by apply (ed_RC1 L W D).
  - intros d -> Hu. specialize (Hd d eq_refl Hu (map c_cache A) (map c_cache Z) (proj1 HcA) (proj2 HcA)).
    rewrite <- Hold in Hd. rewrite (act_int _ _ _ _ (rp_p' _ _ _ _ _ _ _ _ _ R)), !map_app. split.
    + intros Hr. rewrite (rp_rc _ _ _ _ _ _ _ _ _ R). rewrite HR; [|right; by apply lw_diff_mono].
      rewrite <- (rp_root _ _ _ _ _ _ _ _ _ R), <- Hr. done.
    + intros q cs0 c0 Hkq Hc0 Ha. 
      assert (q <> p) as Hqp.
      { intros ->. assert (AInt p ∈ chs t' p) as Hin by (rewrite (chs_kids _ _ _ Hkq), <- Ha; by apply elem_of_list_fmap_1).
        apply elem_of_list_lookup in Hin as [kk Hin]. apply (wt_ch W') in Hin as [_ Hin]. cbn in Hin. lia. }
      rewrite (rp_other _ _ _ _ _ _ _ _ _ R) in Hkq by done. rewrite (C q cs0 c0 Hkq Hc0), Ha by tauto. done.
  - intros j Hj. unfold chs. rewrite (rp_other _ _ _ _ _ _ _ _ _ R) by done. apply Z11.
  - intros Hf%bool_decide_eq_true. rewrite Hc', map_length. lia.
  - intros Hf%bool_decide_eq_false. rewrite Hc', map_length. lia.
  - exists t'', H'', lv''. split; [done|]. split; [done|]. split; [|split; [|split]]; try done.
    + intros X Y Hc. rewrite C2. by eapply (rp_cont L W K Hlp R).
    + intros w M. apply M2; [by apply (rp_MD L W K Hlp R)|]. intros Hf%bool_decide_eq_true. rewrite Hc', map_length. destruct w; lia.
Qed.

(** the context of the last / first leaf *)
Lemma at_leaf_last t H lv l e p A c Z X : WT NoE t H lv -> LK t -> at_leaf t lv l e p A c Z -> cont t H = X ++ [(l, e)] -> Z = [].
Proof.
  intros W K AL Hc. destruct Z as [|z Z]; [done|]. exfalso.
  pose proof AL as (Hk & Ha & Hlv & He & _).
  destruct (ed_gen W Hlv (rp_ED L W K Hlv (RP_set t H lv l e e p A c (z :: Z) W AL))) as (X0 & Y0 & G1 & _).
  assert (NoDup (gen t (S H) (root t))) as Hnd by (apply (gen_nodup W), (root_live W)).
  assert (gen t (S H) (root t) = map ALeaf X.*1 ++ [ALeaf l]) as G2.
  { rewrite <- (leaves_gen W), <- (elems_fst W), (elems_cont _ _ _ W), Hc, !map_app. done. }
  rewrite map_app in G1. cbn [map] in G1. rewrite Ha in G1.
  assert (X0 ++ (map c_arena A ++ ALeaf l :: c_arena z :: map c_arena Z) ++ Y0 =
    (X0 ++ map c_arena A) ++ ALeaf l :: c_arena z :: map c_arena Z ++ Y0) as E1 by (by rewrite <- !app_assoc).
  rewrite E1 in G1. rewrite G1 in G2, Hnd. by apply nodup_split_unique in G2 as [_ ?].
Qed.
Lemma at_leaf_first t H lv l e p A c Z Y : WT NoE t H lv -> LK t -> at_leaf t lv l e p A c Z -> cont t H = (l, e) :: Y -> A = [].
Proof.
  intros W K AL Hc. destruct A as [|z A]; [done|]. exfalso.
  pose proof AL as (Hk & Ha & Hlv & He & _).
  destruct (ed_gen W Hlv (rp_ED L W K Hlv (RP_set t H lv l e e p (z :: A) c Z W AL))) as (X0 & Y0 & G1 & _).
  assert (NoDup (gen t (S H) (root t))) as Hnd by (apply (gen_nodup W), (root_live W)).
  assert (gen t (S H) (root t) = [] ++ ALeaf l :: map ALeaf Y.*1) as G2.
  { rewrite <- (leaves_gen W), <- (elems_fst W), (elems_cont _ _ _ W), Hc. done. }
  rewrite map_app in G1. cbn [map] in G1. rewrite Ha in G1.
  assert (X0 ++ ((c_arena z :: map c_arena A) ++ ALeaf l :: map c_arena Z) ++ Y0 =
    (X0 ++ c_arena z :: map c_arena A) ++ ALeaf l :: map c_arena Z ++ Y0) as E1 by (by rewrite <- !app_assoc).
  rewrite E1 in G1. rewrite G1 in G2, Hnd. apply nodup_split_unique in G2 as [G2 _]; [|done]. by destruct X0.
Qed.

(** pushing to / prepending on an empty tree: the state before the cache propagation *)
Lemma ED_empty t H lv x : OK t H lv -> chs t (raw (root t)) = [] ->
  exists po s, let r := raw (root t) in let n := anext (leaf_nodes t) in let ch := mkChild (ALeaf n) (get_elem_cache x) in
   get_in t r = Ok (mkNode po s []) /\
   ED t (set_in (snd (ins_lf t (mkLeaf x r))) r (mkNode po s [ch])) r [] [ch].
Proof.
  intros O He. pose proof (ok_wt _ _ _ _ O) as W. destruct (wt_root_live W) as [cs Hk].
  assert (cs = []) as ->. { rewrite (chs_kids _ _ _ Hk) in He. by apply fmap_nil_inv in He. }
  destruct (get_in_kids t _ _ Hk) as (po & s & Hg & Hlk). exists po, s. cbn zeta. split; [done|].
  destruct (empty_nodes t H lv W He) as (_ & Hl & _).
  set (n := anext (leaf_nodes t)).
  constructor; try done.
  - rewrite kids_set_in, decide_True by done. done.
  - intros c ->%elem_of_list_singleton. exists n. split; [done|]. rewrite el_set_in, el_ins_lf, llnk_set_in, llnk_ins_lf.
    fold n. rewrite !decide_True by done. split; [eauto|]. split; [right; apply Hl|]. split; [|done]. cbn. unfold n. lia.
  - cbn. repeat constructor. set_solver.
  - intros l Hin. by apply not_elem_of_nil in Hin.
  - intros l _ Hn. rewrite el_set_in, el_ins_lf, llnk_set_in, llnk_ins_lf. fold n. cbn in Hn.
    rewrite !decide_False; [done| |]; intros ->; apply Hn; left.
  - intros j Hj. rewrite kids_set_in, decide_False by done. done.
  - intros j. rewrite lnk_set_in. case_decide; [subst; by rewrite Hlk|done].
  - change (anext (leaf_nodes t) <= S n). unfold n. lia.
Qed.
Lemma is_empty_ok t H lv : WT NoE t H lv -> is_empty t = Ok (bool_decide (cont t H = [])).
Proof.
  intros W. unfold is_empty. rewrite (wt_root_id W). rb. destruct (wt_root_live W) as [cs Hk].
  destruct (get_in_kids t _ _ Hk) as (po & s & Hg & Hlk). unfold get_internal. rb. rewrite Hg. rb. f_equal.
  apply bool_decide_ext. split.
  - intros Hl. destruct (empty_nodes t H lv W) as (_ & _ & ->); [|done]. rewrite (chs_kids _ _ _ Hk). by destruct cs.
  - intros Hc. pose proof (cont_nil t H lv W Hc) as Hx. rewrite (chs_kids _ _ _ Hk) in Hx. by apply fmap_nil_inv in Hx as ->.
Qed.
Lemma last_leaf_cont t H lv : WT NoE t H lv -> last_leaf t = Ok (fst <$> last (cont t H)).
Proof. intros W. rewrite (last_leaf_ok W), <- (elems_fst W), (elems_cont _ _ _ W). by rewrite last_map. Qed.
Lemma first_leaf_cont t H lv : WT NoE t H lv -> first_leaf t = Ok (fst <$> head (cont t H)).
Proof. intros W. rewrite (first_leaf_ok W), <- (elems_fst W), (elems_cont _ _ _ W). by rewrite head_map. Qed.
Lemma cont_empty_ed t H x : gen t (S H) (root t) = [ALeaf x] -> forall e, el t x = Some e -> cont t H = [(x, e)].
Proof. intros Hg e He. unfold cont. rewrite Hg. by rewrite (pel_cons _ _ _ _ He). Qed.

(** specification of push: the cursor and the new tail *)
Theorem push_ok t H lv x : OK t H lv -> evalid L x ->
  exists cur t' H' lv', push t x = Ok (cur, t') /\ OK t' H' lv' /\ (forall w, MDw w t -> MDw w t') /\
    anext (leaf_nodes t) <= anext (leaf_nodes t') /\
    ((exists X l e e', cont t H = X ++ [(l, e)] /\ can_merge e x = true /\ merge_right e x = Ok e' /\
        cont t' H' = X ++ [(l, e')] /\ cur = mkCur l (rle_len e)) \/
     (exists n, anext (leaf_nodes t) <= n < anext (leaf_nodes t') /\ cont t' H' = cont t H ++ [(n, x)] /\ cur = mkCur n 0 /\
        (forall X l e, cont t H = X ++ [(l, e)] -> can_merge e x = false))).
Proof.
  intros O Vx. pose proof (ok_wt _ _ _ _ O) as W. pose proof (ok_lk _ _ _ _ O) as K. pose proof (ok_va _ _ _ _ O) as V.
  unfold push. rewrite (is_empty_ok t H lv W). rb.
  set (od := if USE_DIFF then Some (new_cache_to_diff (get_elem_cache x)) else None).
  assert (Hod : forall d, od = Some d -> d = new_cache_to_diff (get_elem_cache x)).
  { unfold od. destruct USE_DIFF; congruence. }
  set (n := anext (leaf_nodes t)).
  case_bool_decide as Hemp.
  - pose proof (cont_nil _ _ _ W Hemp) as He. rewrite (wt_root_id W). rb. set (r := raw (root t)) in *.
    destruct (ED_empty t H lv x O He) as (po & s & Hg & D). cbn zeta in D. fold n r in D, Hg.
    unfold alloc_leaf_child. rewrite (surjective_pairing (ins_lf t (mkLeaf x r))).
    change (fst (ins_lf t (mkLeaf x r))) with n. rb.
    assert (get_in (snd (ins_lf t (mkLeaf x r))) r = Ok (mkNode po s [])) as Hg2 by exact Hg. rewrite Hg2. rb.
    unfold vec_push. rewrite decide_True by (cbn; lia). cbn [app]. rb. change (root (snd (ins_lf t (mkLeaf x r)))) with (root t).
    rewrite (wt_root_id W). fold r. unfold with_children. rb.
    set (ch := mkChild (ALeaf n) (get_elem_cache x)) in *. set (t1 := set_in _ _ _) in *.
    pose proof (wt_relevel t H lv W He) as W0.
    assert (W1 : WT NoE t1 0 (fun _ => 0)) by by apply (ed_WT_ne W0 eq_refl D).
    assert (Hc1 : chs t1 r = [ALeaf n]) by by rewrite (chs_kids _ _ _ (ed_p' _ _ _ _ _ D)).
    assert (E1 : el t1 n = Some x).
    { unfold t1. rewrite el_set_in, el_ins_lf. by rewrite decide_True. }
    destruct (empty_nodes t H lv W He) as (Hm & _ & _).
    assert (Hnr : forall q cs c, kids t1 q = Some cs -> c ∈ cs -> c_arena c = AInt r -> False).
    { intros q cs c Hk Hc Ha. destruct (decide (q = r)) as [-> |Hq].
      - rewrite (ed_p' _ _ _ _ _ D) in Hk. injection Hk as <-. apply elem_of_list_singleton in Hc. subst c. done.
      - rewrite (ed_other _ _ _ _ _ D) in Hk by done. apply Hq, Hm. rewrite Hk. eauto. }
    destruct (finish_int L t1 0 (fun _ => 0) r od false) as (t2 & H2 & lv2 & E2 & O2 & C2 & El2 & M2 & Al2).
    + done.
    + by apply (ed_LK W0 D).
    + rewrite (ed_p' _ _ _ _ _ D). eauto.
    + by rewrite Hc1.
    + eapply CO_mono; [|apply (ed_CO L W0 D (fun _ => False) (fun _ => False) (ok_co _ _ _ _ O))]; [intros a; cbn; tauto|].
      intros c ->%elem_of_list_singleton _. symmetry. by apply (act_leaf L _ n x).
    + apply (ed_VA L D V).
      * intros c l e ->%elem_of_list_singleton [= <-] He1. rewrite E1 in He1. by injection He1 as <-.
      * intros c ->%elem_of_list_singleton. by apply lw_get.
    + apply (ed_RC1 L W0 D (ok_rc _ _ _ _ O)).
    + intros d Hd Hu. rewrite (Hod d Hd). rewrite (act_int _ _ _ _ (ed_p' _ _ _ _ _ D)). cbn [map c_cache ch]. split.
      * intros _. rewrite (ed_rc _ _ _ _ _ D), (ok_rc _ _ _ _ O) by (right; by apply lw_diff_mono).
        rewrite (wt_root_id W). fold r. rewrite (act_int _ _ _ _ (ed_p _ _ _ _ _ D)). by apply (lw_new _ L [] []).
      * intros q cs c Hk Hc Ha. by destruct (Hnr q cs c Hk Hc Ha).
    + intros j Hj. unfold chs. rewrite (ed_other _ _ _ _ _ D) by done. apply (ok_sz _ _ _ _ O).
    + done.
    + rewrite Hc1. cbn. lia.
    + destruct (recursive_update_cache _ _ _ _) as [t3| |]; try done. cbn [rbind] in E2. injection E2 as ->. rb.
      assert (S n <= anext (leaf_nodes t2)) as Hal by exact Al2.
      assert (Hc2 : cont t2 H2 = [(n, x)]).
      { rewrite C2. apply cont_empty_ed; [|done]. rewrite (ed_root _ _ _ _ _ D), (wt_root_id W). fold r. cbn. by rewrite Hc1. }
      exists (mkCur n 0), t2, H2, lv2. split; [done|]. split; [done|]. split; [|split; [unfold n in *; lia|]].
      * intros w M. apply M2; [|done]. constructor.
        -- intros m Hm1 Hr1. destruct Hr1. rewrite (ed_root _ _ _ _ _ D), (wt_root_id W). f_equal.
           destruct (decide (m = r)) as [|Dm]; [done|]. rewrite (ed_other _ _ _ _ _ D) in Hm1 by done. by apply Hm.
        -- intros m. rewrite (ed_root _ _ _ _ _ D). fold r. rewrite Hc1. intros Hx. apply elem_of_list_singleton in Hx. done.
      * right. exists n. rewrite Hc2, Hemp. split; [unfold n in *; lia|]. split; [done|]. split; [done|]. intros X l e Hx. by destruct X.
  - rewrite (last_leaf_cont t H lv W). rb. destruct (last (cont t H)) as [[l e]|] eqn:El; [|by apply last_None in El].
    apply last_Some in El as [X HX]. cbn [fmap option_fmap option_map ropt fst rbind].
    assert (He : el t l = Some e) by (apply (cont_el (H := H)); rewrite HX; set_solver).
    pose proof (va_el _ _ V _ _ He) as Ve.
    destruct (at_leaf_ok t H lv l e W K He) as (p & A & c & Z & AL). pose proof AL as (Hk & Ha & Hlv & _ & Hl & Hget & Hrp & Hsl & po & s & Hg & Hlk).
    assert (Z = []) as -> by by eapply at_leaf_last.
    assert (Hlen : length (A ++ [c]) <= 11).
    { pose proof (ok_sz _ _ _ _ O p) as Hz. by rewrite (chs_kids _ _ _ Hk), map_length in Hz. }
    assert (Hcc : c_cache c = get_elem_cache e) by (eapply cache_ok; eauto; set_solver).
    rewrite Hget. rb. cbn [l_elem l_parent]. destruct (can_merge e x) eqn:Ecm.
    + destruct (lw_mr _ L e x Ve Vx Ecm) as (e' & Hm & Ve' & _ & _ & Hd). rewrite Hm. rb.
      destruct (rp_finish L t (set_lf t l (mkLeaf e' p)) H lv p l e e' A c [] [(l, e')] [c] od)
        as (t' & H' & lv' & E1 & O1 & C1 & El1 & M1 & Al1); try done.
      * by eapply RP_set.
      * left.
      * intros c0 ->%elem_of_list_singleton. done.
      * by intros ? ? [= -> ->]%elem_of_list_singleton.
      * intros c0 ->%elem_of_list_singleton. eapply (va_ch _ _ V); [exact Hk|set_solver].
      * cbn [app]. lia.
      * intros d Hd' Hu u v _ _. rewrite (Hod d Hd'). cbn [map snd app]. apply lw_cong. by apply Hd.
      * rewrite bool_decide_false in E1 by (cbn [app]; lia). unfold with_elem. cbn [l_parent].
        destruct (recursive_update_cache _ _ _ _) as [t1| |]; try done. rb. cbn [rbind] in E1. injection E1 as ->.
        exists (mkCur l (rle_len e)), t', H', lv'. split_and!; try done. left. exists X, l, e, e'. split_and!; try done.
        by apply (C1 X []).
    + unfold alloc_leaf_child. rewrite (surjective_pairing (ins_lf t (mkLeaf x p))).
      change (fst (ins_lf t (mkLeaf x p))) with n. rb.
      assert (get_in (snd (ins_lf t (mkLeaf x p))) p = Ok (mkNode po s (A ++ [c]))) as Hg2 by exact Hg. rewrite Hg2. rb.
      set (ch := mkChild (ALeaf n) (get_elem_cache x)).
      unfold vec_push. rewrite decide_True by lia. rb. rewrite <- app_assoc. cbn [app].
      destruct (rp_finish_int t _ H lv p l e A c [] [(l, e); (n, x)] [c; ch] od O Hlv He (RP_after t H lv l e x p A c [] po s W AL Hlk))
        as (t' & H' & lv' & E1 & O1 & C1 & El1 & M1 & Al1).
      * intros c0 [-> |Hc0%elem_of_list_singleton]%elem_of_cons; symmetry.
        -- rewrite Hcc, Ha. apply (act_leaf L _ l e). rewrite el_set_in, el_ins_lf. rewrite decide_False; [done|].
           intros Hx. pose proof (fresh_leaf t H lv W) as Hfr. rewrite Hx in Hfr. congruence.
        -- subst c0. apply (act_leaf L _ n x). rewrite el_set_in, el_ins_lf. by rewrite decide_True.
      * done.
      * by intros ? ? [[= -> ->]|[= -> ->]%elem_of_list_singleton]%elem_of_cons.
      * intros c0 [-> |Hc0%elem_of_list_singleton]%elem_of_cons; [rewrite Hcc; by apply lw_get|]. subst c0. by apply lw_get.
      * rewrite app_length in *. cbn in *. lia.
      * intros d Hd' Hu u v _ _. rewrite (Hod d Hd'). cbn [map snd app c_cache ch]. rewrite Hcc.
        pose proof (lw_new _ L (u ++ [get_elem_cache e]) v (get_elem_cache x) Hu) as Hx. by rewrite <- !app_assoc in Hx.
      * unfold is_full, with_children. rb. change ([c; ch] ++ []) with [c; ch] in E1.
        destruct (recursive_update_cache _ _ _ _) as [t1| |]; try done. rb. cbn [rbind] in E1. rewrite E1. rb.
        assert (S n <= anext (leaf_nodes t')) as Hal by exact Al1.
        exists (mkCur n 0), t', H', lv'. split_and!; try done; [unfold n in *; lia|]. right. exists n. split; [unfold n in *; lia|].
        split; [|split; [done|]].
        -- rewrite (C1 X [] HX), HX. by rewrite <- app_assoc.
        -- intros X2 l2 e2 HX2. rewrite HX in HX2. apply app_inj_tail in HX2 as [_ [= <- <-]]. done.
Qed.

Theorem prepend_ok t H lv x : OK t H lv -> cont t H <> [] -> evalid L x ->
  exists cur t' H' lv', prepend t x = Ok (cur, t') /\ OK t' H' lv' /\ (forall w, MDw w t -> MDw w t') /\
    anext (leaf_nodes t) <= anext (leaf_nodes t') /\
    ((exists Y l e e', cont t H = (l, e) :: Y /\ can_merge x e = true /\ merge_left e x = Ok e' /\
        cont t' H' = (l, e') :: Y /\ cur = mkCur l 0) \/
     (exists n, anext (leaf_nodes t) <= n < anext (leaf_nodes t') /\ cont t' H' = (n, x) :: cont t H /\ cur = mkCur n 0 /\
        (forall Y l e, cont t H = (l, e) :: Y -> can_merge x e = false))).
Proof.
  intros O Hne Vx. pose proof (ok_wt _ _ _ _ O) as W. pose proof (ok_lk _ _ _ _ O) as K. pose proof (ok_va _ _ _ _ O) as V.
  unfold prepend. rewrite (first_leaf_cont t H lv W). rb.
  set (n := anext (leaf_nodes t)).
  destruct (cont t H) as [|[l e] Y] eqn:HX; [done|]. cbn [head fmap option_fmap option_map fst rbind].
  assert (He : el t l = Some e) by (apply (cont_el (H := H)); rewrite HX; left).
  pose proof (va_el _ _ V _ _ He) as Ve.
  destruct (at_leaf_ok t H lv l e W K He) as (p & A & c & Z & AL). pose proof AL as (Hk & Ha & Hlv & _ & Hl & Hget & Hrp & Hsl & po & s & Hg & Hlk).
  assert (A = []) as -> by by eapply at_leaf_first.
  assert (Hlen : length (c :: Z) <= 11).
  { pose proof (ok_sz _ _ _ _ O p) as Hz. by rewrite (chs_kids _ _ _ Hk), map_length in Hz. }
  assert (Hcc : c_cache c = get_elem_cache e) by (eapply cache_ok; eauto; set_solver).
  rewrite Hget. rb. cbn [l_elem l_parent]. destruct (can_merge x e) eqn:Ecm.
  - destruct (lw_ml _ L x e Vx Ve Ecm) as (e' & Hm & Ve' & _ & _ & Hd). rewrite Hm. rb.
    destruct (rp_finish L t (set_lf t l (mkLeaf e' p)) H lv p l e e' [] c Z [(l, e')] [c] None)
      as (t' & H' & lv' & E1 & O1 & C1 & El1 & M1 & Al1); try done.
    + by eapply RP_set.
    + left.
    + intros c0 ->%elem_of_list_singleton. done.
    + by intros ? ? [= -> ->]%elem_of_list_singleton.
    + intros c0 ->%elem_of_list_singleton. eapply (va_ch _ _ V); [exact Hk|set_solver].
    + cbn [app]. lia.
    + rewrite bool_decide_false in E1 by (cbn [app]; lia). unfold with_elem. cbn [l_parent].
      destruct (recursive_update_cache _ _ _ _) as [t1| |]; try done. rb. cbn [rbind] in E1. injection E1 as ->.
      exists (mkCur l 0), t', H', lv'. split_and!; try done. left. exists Y, l, e, e'. split_and!; try done.
      by apply (C1 [] Y).
  - unfold alloc_leaf_child. rewrite (surjective_pairing (ins_lf t (mkLeaf x p))).
    change (fst (ins_lf t (mkLeaf x p))) with n. rb.
    assert (get_in (snd (ins_lf t (mkLeaf x p))) p = Ok (mkNode po s ([] ++ c :: Z))) as Hg2 by exact Hg. rewrite Hg2. rb.
    set (ch := mkChild (ALeaf n) (get_elem_cache x)). cbn [app].
    rewrite vec_insert_ok by (cbn in *; lia). rb. cbn [take drop app].
    destruct (rp_finish L t _ H lv p l e e [] c Z [(n, x); (l, e)] [ch; c] None O Hlv He (RP_before t H lv l e x p [] c Z po s W AL Hlk))
      as (t' & H' & lv' & E1 & O1 & C1 & El1 & M1 & Al1); try done.
    + set_solver.
    + intros c0 [-> |Hc0%elem_of_list_singleton]%elem_of_cons Hn0; [|congruence]. symmetry. apply (act_leaf L _ n x).
      rewrite el_set_in, el_ins_lf. by rewrite decide_True.
    + by intros ? ? [[= -> ->]|[= -> ->]%elem_of_list_singleton]%elem_of_cons.
    + intros c0 [-> |Hc0%elem_of_list_singleton]%elem_of_cons; [by apply lw_get|]. subst c0. rewrite Hcc. by apply lw_get.
    + cbn in *. lia.
    + unfold is_full, with_children. rb. change ([] ++ [ch; c] ++ Z) with (ch :: c :: Z) in E1.
      destruct (recursive_update_cache _ _ _ _) as [t1| |]; try done. rb. cbn [rbind] in E1. rewrite E1. rb.
      assert (S n <= anext (leaf_nodes t')) as Hal by exact Al1.
      exists (mkCur n 0), t', H', lv'. split_and!; try done; [unfold n in *; lia|]. right. exists n. split; [unfold n in *; lia|].
      split; [|split; [done|]].
      * by apply (C1 [] Y).
      * intros Y2 l2 e2 [= <- <- _]. done.
Qed.

(** prepending to an empty tree: everything but the root cache is right *)
Theorem prepend_empty t H lv x : OK t H lv -> cont t H = [] -> evalid L x ->
  exists t', prepend t x = Ok (mkCur (anext (leaf_nodes t)) 0, t') /\ WT NoE t' 0 (fun _ => 0) /\ LK t' /\ SZ t' 11 /\
    CO t' (fun _ => False) /\ VA t' /\ cont t' 0 = [(anext (leaf_nodes t), x)] /\ root_cache t' = root_cache t.
Proof.
  intros O Hemp Vx. pose proof (ok_wt _ _ _ _ O) as W. pose proof (cont_nil _ _ _ W Hemp) as He.
  unfold prepend. rewrite (first_leaf_cont t H lv W), Hemp. rb. cbn [head fmap option_fmap option_map].
  set (n := anext (leaf_nodes t)). rewrite (wt_root_id W). rb. set (r := raw (root t)) in *.
  destruct (ED_empty t H lv x O He) as (po & s & Hg & D). cbn zeta in D. fold n r in D, Hg.
  unfold alloc_leaf_child. rewrite (surjective_pairing (ins_lf t (mkLeaf x r))).
  change (fst (ins_lf t (mkLeaf x r))) with n. rb.
  assert (get_in (snd (ins_lf t (mkLeaf x r))) r = Ok (mkNode po s [])) as Hg2 by exact Hg. rewrite Hg2. rb.
  unfold vec_push. rewrite decide_True by (cbn; lia). cbn [app]. rb. unfold with_children. rb.
  set (ch := mkChild (ALeaf n) (get_elem_cache x)) in *. set (t1 := set_in _ _ _) in *.
  pose proof (wt_relevel t H lv W He) as W0.
  assert (Hc1 : chs t1 r = [ALeaf n]) by by rewrite (chs_kids _ _ _ (ed_p' _ _ _ _ _ D)).
  assert (E1 : el t1 n = Some x).
  { unfold t1. rewrite el_set_in, el_ins_lf. by rewrite decide_True. }
  destruct (empty_nodes t H lv W He) as (Hm & _ & _).
  exists t1. split; [done|]. split_and!.
  - by apply (ed_WT_ne W0 eq_refl D).
  - by apply (ed_LK W0 D), (ok_lk _ _ _ _ O).
  - intros j. destruct (decide (j = r)) as [-> |Hj]; [rewrite Hc1; cbn; lia|]. unfold chs. rewrite (ed_other _ _ _ _ _ D) by done. apply (ok_sz _ _ _ _ O).
  - intros q cs c Hk Hc _. destruct (decide (q = r)) as [-> |Hj].
    + rewrite (ed_p' _ _ _ _ _ D) in Hk. injection Hk as <-. apply elem_of_list_singleton in Hc as ->. symmetry. by apply (act_leaf L _ n x).
    + rewrite (ed_other _ _ _ _ _ D) in Hk by done. destruct Hj. apply Hm. rewrite Hk. eauto.
  - apply (ed_VA L D (ok_va _ _ _ _ O)).
    + intros c l e ->%elem_of_list_singleton [= <-] He1. rewrite E1 in He1. by injection He1 as <-.
    + intros c ->%elem_of_list_singleton. by apply lw_get.
  - apply cont_empty_ed; [|done]. rewrite (ed_root _ _ _ _ _ D), (wt_root_id W). fold r. cbn. by rewrite Hc1.
  - done.
Qed.
End insert.
