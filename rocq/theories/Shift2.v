(** Shift2.v — shift_path_by_one_offset (lib.rs:821-860) from any offset of an element. *)
From Verif Require Export Shift.

Section shift.
Context {B : BTreeTrait} (L : Lawful B).
Notation btree := (btree B).
Notation child := (child B).
Implicit Types (t : btree) (xs X Y : list (nat * Elem B)) (r : nat).

(** the position [r] units after the start of [xs]: the element holding unit number [r] *)
Fixpoint seek r xs : option cursor :=
  match xs with [] => None | (l, e) :: xs' => if decide (rle_len e <= r) then seek (r - rle_len e) xs' else Some (mkCur l r) end.
(** the node above a leaf *)
Definition par t (l : nat) : option nat := l_parent <$> a_get (leaf_nodes t) l.

Lemma seek_0 xs : seek 0 xs = first_full xs.
Proof.
  induction xs as [|[l e] xs IH]; [done|]. cbn [seek]. unfold first_full. rewrite filter_cons. cbn [snd].
  destruct (decide (rle_len e <= 0)); [rewrite decide_False by lia; exact IH|by rewrite decide_True by lia].
Qed.
Lemma seek_app xs : forall r Y, tlen xs <= r -> seek r (xs ++ Y) = seek (r - tlen xs) Y.
Proof.
  induction xs as [|[l e] xs IH]; intros r Y Hr; cbn [app seek]; [f_equal; unfold tlen; cbn; lia|].
  unfold tlen in *. cbn [map sum_list foldr] in *. rewrite decide_True by (cbn in *; lia). rewrite IH by (cbn in *; lia). f_equal. cbn in *. lia.
Qed.
Lemma seek_in xs : forall r Y, r < tlen xs -> exists c, seek r xs = Some c /\ seek r (xs ++ Y) = Some c.
Proof.
  induction xs as [|[l e] xs IH]; intros r Y Hr; cbn [app seek]; [cbn in Hr; lia|].
  unfold tlen in *. cbn in Hr. destruct (decide (rle_len e <= r)); [apply IH; cbn; lia|by eexists].
Qed.
Lemma seek_none xs : forall r, tlen xs <= r -> seek r xs = None.
Proof. intros r Hr. rewrite <- (app_nil_r xs). by rewrite seek_app. Qed.

Lemma pel_mem t (r : list aidx) l e : (l, e) ∈ pel t r -> ALeaf l ∈ r.
Proof.
  unfold pel. rewrite elem_of_list_omap. intros ([k|k] & Hk & Hr); [|done].
  destruct (el t k) as [x|]; cbn in Hr; [|done]. by injection Hr as -> _.
Qed.
Section wt.
Context {t : btree} {H : nat} {lv : nat -> nat} (W : WT NoE t H lv) (K : LK t).
(** inside the node the offset is carried from leaf to leaf; at the end of the node it is dropped *)
Lemma shift_f_carry : forall (C : list aidx) f p pn (X0 Y0 A : list aidx) r, gen t H (root t) = X0 ++ AInt p :: Y0 -> chs t p = A ++ C ->
  get_in t p = Ok pn -> length (C ++ (Y0 ≫= achs t)) < f ->
  shift_f f t p pn (length A) r =
    Ok (match seek r (pel t C) with Some c => Some c | None => first_full (pel t (Y0 ≫= achs t)) end).
Proof using W K.
  induction C as [|b C IH]; intros f p pn X0 Y0 A r Hg Hc Hp Hf.
  - pose proof (shift_f_ok W K f p pn X0 Y0 A [] Hg Hc Hp Hf) as Hs. cbn [app] in Hs. change (pel t []) with (@nil (nat * Elem B)). cbn [seek].
    assert (AInt p ∈ gen t H (root t)) as Hin by (rewrite Hg; clear; set_solver).
    destruct (row_get W H p Hin) as (nd & Hgn & Hkn & Hcn). assert (nd = pn) as -> by congruence.
    assert (length (n_children pn) = length A) as Hlen.
    { rewrite Hcn in Hc. rewrite app_nil_r in Hc. by rewrite <- Hc, map_length. }
    rewrite <- Hs. destruct f as [|f]; [done|]. cbn [shift_f]. rewrite !decide_True by lia. done.
  - destruct f as [|f]; [lia|].
    assert (AInt p ∈ gen t H (root t)) as Hin by (rewrite Hg; clear; set_solver).
    destruct (row_get W H p Hin) as (nd & Hgn & Hkn & Hcn). assert (nd = pn) as -> by congruence.
    assert (chs t p !! length A = Some b) as Hb by (rewrite Hc; by apply list_lookup_middle).
    pose proof (wt_ch W _ _ _ Hb) as [Hlb Hlvb].
    assert (alv lv b = 0) as Hl0. { destruct (row_live W H (AInt p) Hin) as [_ Hl]. cbn in Hl. lia. }
    destruct b as [l|]; [|done]. destruct Hlb as [e He]. cbn [shift_f].
    rewrite Hcn, list_lookup_fmap in Hb. 
    destruct (n_children pn !! length A) as [c|] eqn:Ec; [|done].
    rewrite decide_False by (apply lookup_lt_Some in Ec; lia). cbn [rbind]. unfold vec_get. rewrite Ec.
    cbn in Hb. injection Hb as Hb. cbn [ropt rbind]. rewrite Hb. cbn [raw].
    destruct (leaf_at W K l e He) as (q & _ & _ & _ & _ & _ & _ & _ & _ & Hq & _). rewrite Hq. cbn [rbind l_elem].
    rewrite (pel_cons _ _ e) by done. cbn [seek].
    destruct (decide (rle_len e <= r)) as [Hz|Hz]; [|done].
    replace (S (length A)) with (length (A ++ [ALeaf l])) by (rewrite app_length; cbn; lia).
    rewrite (IH f p pn X0 Y0 (A ++ [ALeaf l])); [done|done|by rewrite <- app_assoc|done|cbn in Hf; lia].
Qed.
(** the leaves below [p], and only they, have [p] as their parent *)
Lemma par_in p (X0 Y0 C : list aidx) l e : gen t H (root t) = X0 ++ AInt p :: Y0 -> (forall a, a ∈ C -> a ∈ chs t p) ->
  (l, e) ∈ pel t C -> par t l = Some p.
Proof using W K.
  intros Hg HC Hin. apply pel_mem in Hin. apply HC, elem_of_list_lookup in Hin as [k Hk]. exact (lk_ch K _ _ _ Hk).
Qed.
Lemma par_out p (X0 Y0 : list aidx) l e : gen t H (root t) = X0 ++ AInt p :: Y0 -> (l, e) ∈ pel t (Y0 ≫= achs t) -> par t l <> Some p.
Proof using W K.
  intros Hg Hin. apply pel_mem in Hin. apply elem_of_list_bind in Hin as (a & Ha & Hin).
  destruct a as [m|m]; cbn [achs] in Ha; [set_solver|]. apply elem_of_list_lookup in Ha as [k Hk].
  pose proof (lk_ch K _ _ _ Hk) as Hl. cbn in Hl. unfold par. unfold llnk in Hl. rewrite Hl. intros [= ->].
  pose proof (gen_nodup W H (root t) (root_live W)) as Hnd. rewrite Hg in Hnd. apply NoDup_app in Hnd as (_ & _ & Hnd).
  apply NoDup_cons in Hnd as [Hn _]. done.
Qed.
End wt.

(** from any offset: the leaves right of [l] under the same node are passed with the carried offset,
    and behind the end of that node the search restarts at the beginning of the next non-empty element *)
Theorem t_shift_any t X l e Y off : Tree L t (X ++ (l, e) :: Y) -> exists Y1 Y2, Y = Y1 ++ Y2 /\
  (forall y, y ∈ Y1 -> par t (fst y) = par t l) /\ (forall y, y ∈ Y2 -> par t (fst y) <> par t l) /\
  shift_path_by_one_offset t (mkCur l off) =
    Ok (match seek (off + 1) ((l, e) :: Y1) with Some c => Some c | None => seek 0 Y2 end).
Proof.
  intros T. pose proof (tree_el L _ _ _ _ _ T) as He. destruct (Tree_OK L _ _ T) as (H & lv & O & Ec).
  pose proof (ok_wt _ _ _ _ O) as W. pose proof (ok_lk _ _ _ _ O) as K.
  destruct (leaf_at W K l e He) as (p & cs & k & c & Hl & Hk & Hc & Ha & Hlv & Hget & Hck).
  destruct (leaf_row W l e He) as (GX & GY & Hg).
  destruct (row_parent W H _ _ _ Hg) as (p' & X0 & Y0 & A & C & Hr & Hcp & -> & ->).
  assert (chs t p' !! length A = Some (ALeaf l)) as Hk' by (rewrite Hcp; by apply list_lookup_middle).
  destruct (wt_uniq W _ _ _ _ _ Hk' Hck) as [-> <-].
  assert (Hpel : pel t (C ++ (Y0 ≫= achs t)) = Y).
  { pose proof (tree_nodup L _ _ T) as N. apply NoDup_fmap_1 in N. unfold cont in Ec. rewrite Hg, pel_app, (pel_cons _ _ e) in Ec by done.
    symmetry. exact (proj2 (nodup_split_unique _ _ _ _ _ N Ec)). }
  exists (pel t C), (pel t (Y0 ≫= achs t)). split_and!.
  - by rewrite <- Hpel, pel_app.
  - intros [l' e'] Hy. cbn [fst]. rewrite (par_in W K p X0 Y0 C l' e' Hr); [done|rewrite Hcp; clear; set_solver|done].
  - intros [l' e'] Hy. cbn [fst]. unfold llnk in Hl. unfold par at 2. rewrite Hl. exact (par_out W K p X0 Y0 l' e' Hr Hy).
  - unfold shift_path_by_one_offset. cbn [cu_leaf cu_offset seek]. rewrite Hget. cbn [rbind l_elem l_parent].
    destruct (decide (off + 1 < rle_len e)) as [Hlt|Hge]; [by rewrite decide_False by lia|]. rewrite decide_True by lia.
    destruct (get_in_kids t p cs Hk) as (po & s & Hgp & _). rewrite Hgp. cbn [rbind].
    unfold get_leaf_slot. cbn [n_children]. rewrite (wt_leaf_slot W p cs _ l Hk Hck). cbn [rbind].
    remember (S (anext (leaf_nodes t))) as F eqn:EF.
    rewrite (shift_f_carry W K (ALeaf l :: C) (S F) p _ X0 Y0 A (off + 1) Hr Hcp Hgp).
    + rewrite (pel_cons _ _ e) by done. cbn [seek]. rewrite decide_True by lia. by rewrite (seek_0 (pel t (Y0 ≫= achs t))).
    + rewrite EF. cbn [app length]. assert (length (gen t (S H) (root t)) = length (X ++ (l, e) :: Y)) as Hlen.
      { rewrite Ec. symmetry. by apply (cont_length t H lv). }
      rewrite Hg, !app_length in Hlen. cbn [length] in Hlen. rewrite !app_length in Hlen.
      pose proof (leaves_length W) as Hll. rewrite (tree_leaves L _ _ T), fmap_length, app_length in Hll. cbn [length] in Hll. rewrite app_length. lia.
Qed.
(** right exactly when the leaves of the node hold enough units, and stuck otherwise *)
Theorem t_shift_right t X l e Y1 Y2 off : Tree L t (X ++ (l, e) :: Y1 ++ Y2) ->
  (forall y, y ∈ Y1 -> par t (fst y) = par t l) -> off + 1 <= tlen ((l, e) :: Y1) ->
  shift_path_by_one_offset t (mkCur l off) = Ok (seek (off + 1) ((l, e) :: Y1 ++ Y2)).
Proof.
  intros T Hs Ho. destruct (t_shift_any t X l e (Y1 ++ Y2) off T) as (Z1 & Z2 & E & H1 & H2 & ->).
  assert (exists M, Z1 = Y1 ++ M /\ Y2 = M ++ Z2) as (M & -> & ->).
  { apply app_eq_inv in E as [(M & -> & ->)|(M & -> & ->)]; [|exists M; done].
    destruct M as [|y M]; [exists []; by rewrite !app_nil_r|]. exfalso. apply (H2 y); [left|]. apply Hs. set_solver. }
  f_equal. rewrite app_assoc. change ((l, e) :: (Y1 ++ M) ++ Z2) with (((l, e) :: Y1 ++ M) ++ Z2).
  assert (tlen ((l, e) :: Y1 ++ M) = tlen ((l, e) :: Y1) + tlen M) as El by (rewrite <- tlen_app; done).
  destruct (decide (tlen ((l, e) :: Y1 ++ M) <= off + 1)) as [Hz|Hz].
  - rewrite (seek_none _ _ Hz), (seek_app _ _ _ Hz). f_equal. lia.
  - destruct (seek_in ((l, e) :: Y1 ++ M) (off + 1) Z2) as (c & -> & ->); [lia|done].
Qed.
Theorem t_shift_lost t X l e Y1 Y2 off : Tree L t (X ++ (l, e) :: Y1 ++ Y2) ->
  (forall y, y ∈ Y1 -> par t (fst y) = par t l) -> (forall y, head Y2 = Some y -> par t (fst y) <> par t l) ->
  tlen ((l, e) :: Y1) <= off + 1 ->
  shift_path_by_one_offset t (mkCur l off) = Ok (seek 0 Y2).
Proof.
  intros T Hs Hh Ho. destruct (t_shift_any t X l e (Y1 ++ Y2) off T) as (Z1 & Z2 & E & H1 & H2 & ->).
  assert (Z1 = Y1 /\ Y2 = Z2) as [-> ->].
  { apply app_eq_inv in E as [(M & -> & ->)|(M & -> & ->)]; (destruct M as [|y M]; [by rewrite ?app_nil_r|]); exfalso.
    - apply (H2 y); [left|]. apply Hs. set_solver.
    - apply (Hh y); [done|]. apply H1. set_solver. }
  by rewrite (seek_none _ _ Ho).
Qed.
End shift.
