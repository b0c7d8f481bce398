(** Shift.v — shift_path_by_one_offset (lib.rs:821-860) from a position strictly inside an element. *)
From Verif Require Export Visit.

Section shift.
Context {B : BTreeTrait} (L : Lawful B).
Notation btree := (btree B).
Notation child := (child B).
Implicit Types (t : btree) (c : child) (xs X Y : list (nat * Elem B)).

(** the first non-empty element of a list *)
Definition first_full xs : option cursor := (fun y => mkCur (fst y) 0) <$> head (filter (fun y => 0 < rle_len (snd y)) xs).

Section wt.
Context {t : btree} {H : nat} {lv : nat -> nat} (W : WT NoE t H lv) (K : LK t).
Lemma shift_f_ok : forall f p pn (X0 Y0 A C : list aidx), gen t H (root t) = X0 ++ AInt p :: Y0 -> chs t p = A ++ C ->
  get_in t p = Ok pn -> length (C ++ (Y0 ≫= achs t)) < f ->
  shift_f f t p pn (length A) 0 = Ok (first_full (pel t (C ++ (Y0 ≫= achs t)))).
Proof using W K.
  induction f as [|f IH]; intros p pn X0 Y0 A C Hg Hc Hp Hf; [lia|].
  assert (AInt p ∈ gen t H (root t)) as Hin by (rewrite Hg; clear; set_solver).
  destruct (row_get W H p Hin) as (nd & Hgn & Hkn & Hcn). assert (nd = pn) as -> by congruence. clear Hgn.
  (* one step at a child entry *)
  assert (St : forall p pn (X0 Y0 A : list aidx) b (C : list aidx), gen t H (root t) = X0 ++ AInt p :: Y0 -> chs t p = A ++ b :: C ->
    get_in t p = Ok pn -> length (b :: C ++ (Y0 ≫= achs t)) < S f ->
    (let? c := vec_get (n_children pn) (length A) in
     let? lf := get_lf t (raw (c_arena c)) in
     if decide (rle_len (l_elem lf) <= 0) then shift_f f t p pn (S (length A)) (0 - rle_len (l_elem lf))
     else let? l := unwrap_leaf (c_arena c) in Ok (Some (mkCur l 0))) = Ok (first_full (pel t (b :: C ++ (Y0 ≫= achs t))))).
  { clear Hg Hc Hp Hf Hin Hkn Hcn p pn X0 Y0 A C. intros p pn X0 Y0 A b C Hg Hc Hp Hf.
    assert (AInt p ∈ gen t H (root t)) as Hin by (rewrite Hg; clear; set_solver).
    destruct (row_get W H p Hin) as (nd & Hgn & Hkn & Hcn). assert (nd = pn) as -> by congruence.
    assert (chs t p !! length A = Some b) as Hb by (rewrite Hc; by apply list_lookup_middle).
    pose proof (wt_ch W _ _ _ Hb) as [Hlb Hlvb].
    assert (alv lv b = 0) as Hl0. { destruct (row_live W H (AInt p) Hin) as [_ Hl]. cbn in Hl. lia. }
    destruct b as [l|]; [|done]. destruct Hlb as [e He].
    rewrite Hcn, list_lookup_fmap in Hb. unfold vec_get. destruct (n_children pn !! length A) as [c|]; [|done].
    cbn in Hb. injection Hb as Hb. cbn [ropt rbind]. rewrite Hb. cbn [raw].
    destruct (leaf_at W K l e He) as (q & _ & _ & _ & _ & _ & _ & _ & _ & Hq & _). rewrite Hq. cbn [rbind l_elem].
    rewrite (pel_cons _ _ e) by done. unfold first_full. rewrite filter_cons. cbn [snd].
    destruct (decide (rle_len e <= 0)) as [Hz|Hz].
    - rewrite decide_False by lia. replace (0 - rle_len e) with 0 by lia.
      replace (S (length A)) with (length (A ++ [ALeaf l])) by (rewrite app_length; cbn; lia).
      rewrite (IH p pn X0 Y0 (A ++ [ALeaf l]) C); [done|done|by rewrite <- app_assoc|done|cbn in Hf; lia].
    - rewrite decide_True by lia. done. }
  cbn [shift_f]. rewrite Hcn in Hc.
  assert (length (n_children pn) = length A + length C) as Hlen.
  { rewrite <- app_length, <- Hc, map_length. done. }
  destruct C as [|b C].
  - rewrite decide_True by (cbn in Hlen; lia).
    change (next_same_level_in_node t (AInt p)) with (next_int_f (fuel t) t p).
    rewrite (next_int_ok W K H (fuel t) p X0 Y0); [|done|done|].
    2:{ assert (is_Some (kids t p)) as Hpl by (rewrite Hkn; eauto). pose proof (wt_depth_bound W p Hpl).
        destruct (row_live W H (AInt p) Hin) as [_ Hlv]. cbn in Hlv. unfold fuel. lia. }
    cbn [rbind app]. destruct (row_right W H p X0 Y0 Hg ltac:(lia)) as [HY _].
    destruct Y0 as [|b Y0]; [done|]. cbn [head]. destruct (HY b) as (m & -> & Hm); [left|]. cbn [unwrap_internal rbind].
    destruct (row_get W H m ltac:(rewrite Hg; clear; set_solver)) as (qn & Hgq & Hkq & Hcq). rewrite Hgq. cbn [rbind].
    rewrite bind_cons. cbn [achs]. destruct (chs t m) as [|b C] eqn:Em; [done|]. cbn [app].
    apply (St m qn (X0 ++ [AInt p]) Y0 [] b C); [by rewrite <- app_assoc|done|done|].
    rewrite bind_cons in Hf. cbn [achs app] in Hf. rewrite Em in Hf. exact Hf.
  - rewrite decide_False by (cbn in Hlen; lia). cbn [rbind app].
    apply (St p pn X0 Y0 A b C); [done|by rewrite Hcn|done|exact Hf].
Qed.
End wt.

Theorem t_shift t X l e Y off : Tree L t (X ++ (l, e) :: Y) -> off < rle_len e ->
  shift_path_by_one_offset t (mkCur l off) =
    Ok (if decide (off + 1 < rle_len e) then Some (mkCur l (off + 1)) else first_full Y).
Proof.
  intros T Ho. pose proof (tree_el L _ _ _ _ _ T) as He. destruct (Tree_OK L _ _ T) as (H & lv & O & Ec).
  pose proof (ok_wt _ _ _ _ O) as W. pose proof (ok_lk _ _ _ _ O) as K.
  destruct (leaf_at W K l e He) as (p & cs & k & c & Hl & Hk & Hc & Ha & Hlv & Hget & Hck).
  unfold shift_path_by_one_offset. cbn [cu_leaf cu_offset]. rewrite Hget. cbn [rbind l_elem l_parent].
  destruct (decide (off + 1 < rle_len e)) as [Hlt|Hge]; [done|].
  destruct (get_in_kids t p cs Hk) as (po & s & Hgp & _). rewrite Hgp. cbn [rbind].
  unfold get_leaf_slot. cbn [n_children]. rewrite (wt_leaf_slot W p cs _ l Hk Hck). cbn [rbind].
  destruct (leaf_row W l e He) as (GX & GY & Hg).
  destruct (row_parent W H _ _ _ Hg) as (p' & X0 & Y0 & A & C & Hr & Hcp & -> & ->).
  assert (chs t p' !! length A = Some (ALeaf l)) as Hk' by (rewrite Hcp; by apply list_lookup_middle).
  destruct (wt_uniq W _ _ _ _ _ Hk' Hck) as [-> <-].
  remember (S (anext (leaf_nodes t))) as F eqn:EF.
  cbn [shift_f]. pose proof (chs_kids _ _ _ Hk) as Hcs.
  rewrite decide_False. 2:{ cbn [n_children]. apply lookup_lt_Some in Hc. lia. }
  cbn [rbind n_children]. unfold vec_get. rewrite Hc. cbn [ropt rbind]. rewrite Ha. cbn [raw]. rewrite Hget. cbn [rbind l_elem].
  rewrite decide_True by lia. replace (off + 1 - rle_len e) with 0 by lia.
  replace (S (length A)) with (length (A ++ [ALeaf l])) by (rewrite app_length; cbn; lia).
  assert (Hpel : pel t (C ++ (Y0 ≫= achs t)) = Y).
  { pose proof (tree_nodup L _ _ T) as N. apply NoDup_fmap_1 in N. unfold cont in Ec. rewrite Hg, pel_app, (pel_cons _ _ e) in Ec by done.
    symmetry. exact (proj2 (nodup_split_unique _ _ _ _ _ N Ec)). }
  rewrite (shift_f_ok W K _ p _ X0 Y0 (A ++ [ALeaf l]) C); [by rewrite Hpel|done|by rewrite <- app_assoc|done|].
  rewrite EF. apply Nat.lt_succ_r. assert (length (gen t (S H) (root t)) = length (X ++ (l, e) :: Y)) as Hlen.
  { rewrite Ec. symmetry. by apply (cont_length t H lv). }
  rewrite Hg, !app_length in Hlen. cbn [length] in Hlen. rewrite !app_length in Hlen.
  pose proof (leaves_length W) as Hll. rewrite (tree_leaves L _ _ T), fmap_length, app_length in Hll. cbn [length] in Hll. rewrite app_length. lia.
Qed.
End shift.
