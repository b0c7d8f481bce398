(** Rev.v — ranges whose start lies behind their end, and offsets past the end of the element. *)
From Verif Require Export Upd Drain5 Ops2.

Lemma Ok_inj' {A} (x y : A) : Ok x = Ok y -> x = y.
Proof. congruence. Qed.
Section rev.
Context {B : BTreeTrait} (L : Lawful B).
Notation btree := (btree B).
Notation Tree := (Tree L).
Implicit Types (t : btree).

(** ** offsets past the end *)
Lemma split_past t l e off : get_elem t l = Some e -> rle_len e < off -> split_leaf_if_needed t (mkCur l off) = Panic.
Proof.
  intros He Ho. unfold split_leaf_if_needed. cbn [split_leaf_f cu_leaf cu_offset]. unfold get_elem in He. unfold get_lf.
  destruct (a_get (leaf_nodes t) l) as [lf|]; [|done]. injection He as He. cbn [ropt rbind]. unfold get_in.
  destruct (a_get (in_nodes t) _) as [pn|]; [|done]. cbn [ropt rbind]. destruct (raw_position _ _) as [slot|]; [|done]. cbn [ropt rbind].
  destruct slot as [|sl]; cbn [rbind]; [|unfold vec_get; destruct (n_children pn !! sl); cbn [ropt rbind]; [|done]].
  all: rewrite decide_False by lia; rewrite He, decide_False by lia; by rewrite bool_decide_eq_false_2 by lia.
Qed.

(** ** the loop of update when the end is not among the visited leaves *)
Lemma loop_stop {S0} (fu : S0 -> Elem B -> S0 * Elem B * option (Diff B)) H lv c M : forall t X l0 e0 path s dm rm f, WT NoE t H lv -> LK t ->
  leaves t = X ++ ((l0, e0) :: M).*1 -> (forall l e, (l, e) ∈ (l0, e0) :: M -> el t l = Some e) ->
  rpath t (rev path) (ALeaf l0) -> cu_leaf c ∉ ((l0, e0) :: M).*1 -> S (length M) < f ->
  update_loop fu f t path (Some c) s dm rm = update_loop fu f t path None s dm rm.
Proof.
  induction M as [|[l1 e1] M IH]; intros t X l0 e0 path s dm rm f W K HL Hel Hp Hc Hf; (destruct f as [|f]; [cbn in Hf; lia|]).
  all: cbn [update_loop]; destruct (rpath_head _ _ _ Hp) as (k0 & r' & Er);
    assert (last path = Some (mkIdx (ALeaf l0) k0)) as -> by (rewrite <- (rev_involutive path), Er; cbn; by rewrite last_snoc);
    cbn [ropt rbind i_arena unwrap_leaf].
  all: pose proof (leaves_nodup W) as Hnd; rewrite HL in Hnd.
  all: rewrite (bool_decide_eq_false_2 (cu_leaf <$> Some c = Some l0)) by (intros [= Hx]; apply Hc; rewrite Hx; left).
  all: rewrite (bool_decide_eq_false_2 (cu_leaf <$> None = Some l0)) by done.
  all: pose proof (Hel l0 e0 ltac:(left)) as He0.
  all: assert (exists q, llnk t l0 = Some q) as [q Hq] by (apply el_llnk; rewrite He0; eauto).
  all: rewrite (get_lf_proj _ _ _ _ He0 Hq); cbn [rbind l_elem]; destruct (fu s e0) as [[s1 e'] od] eqn:Ef.
  all: set (t1 := set_lf t l0 (with_elem (mkLeaf e0 q) e')).
  all: assert (S1 : SH t t1) by (constructor; try done; intros x; unfold t1; rewrite llnk_set_lf; case_decide; [subst; cbn; by rewrite Hq|done]).
  all: assert (E1 : forall x, el t1 x = if decide (l0 = x) then Some e' else el t x) by (intros x; unfold t1; by rewrite el_set_lf).
  all: pose proof (SH_WT _ _ _ _ _ S1 W) as W1; pose proof (SH_LK _ _ S1 K) as K1; pose proof (rpath_SH _ _ S1 _ _ Hp) as Hp1.
  all: assert (HG : gen t1 (S H) (root t1) = map ALeaf (leaves t1)) by (symmetry; apply (leaves_gen W1)).
  all: assert (HL1 : leaves t1 = leaves t) by (by rewrite (leaves_raw W1), (leaves_raw W), (SH_gen _ _ S1), (sh_root S1)).
  all: assert (Hpl : length path = S (S H)) by (pose proof (rpath_len W _ _ Hp) as Hx; rewrite rev_length in Hx; cbn in Hx; lia).
  all: rewrite HL1, HL, !map_app in HG; cbn [fmap list_fmap map fst app] in HG.
  all: pose proof (next_sibling_ok W1 K1 path (ALeaf l0) (S H) _ _ Hp1 ltac:(lia) HG Hpl) as Hns.
  - cbn [map app] in Hns. by rewrite Hns.
  - cbn [map app] in Hns. destruct Hns as (pth & -> & Hp2). cbn [rbind].
    apply (IH t1 (X ++ [l0]) l1 e1 pth s1 _ _ f W1 K1).
    + by rewrite HL1, HL, <- app_assoc.
    + intros l e Hl. rewrite E1, decide_False; [apply Hel; by right|]. intros ->.
      apply NoDup_app in Hnd as (_ & _ & Hnd). cbn in Hnd. apply NoDup_cons in Hnd as [Hnd _]. apply Hnd.
      apply (elem_of_list_fmap_1 fst) in Hl. cbn in Hl. clear -Hl. set_solver.
    + done.
    + intros Hx. apply Hc. by right.
    + cbn in Hf. lia.
Qed.

(** the end of the range, [b], lies before its start, [a], also after the cuts *)
Definition cur_rev (xs : list (nat * Elem B)) (a b : cursor) : Prop :=
  (cu_leaf a = cu_leaf b /\ cu_offset b = 0 /\ 0 < cu_offset a) \/
  exists X eb Y, xs = X ++ (cu_leaf b, eb) :: Y /\ cu_leaf a ∈ Y.*1 /\
    ~ (cu_offset b <> 0 /\ cu_offset b = rle_len eb /\ cu_offset a = 0 /\ head Y.*1 = Some (cu_leaf a)).

Lemma cut_right (A Z : list (nat * Elem B)) z (a : cursor) fr A1 R1 : NoDup (A ++ z :: Z).*1 -> Cut fr (A ++ z :: Z) a A1 R1 ->
  cu_leaf a ∈ Z.*1 \/ (cu_leaf a = fst z /\ cu_offset a <> 0) -> fst z ∈ A1.*1.
Proof.
  intros Hnd HC [Ha|[Ha Ho]].
  - apply elem_of_list_fmap in Ha as ([la ea] & Hla & (Z1 & Z2 & ->)%elem_of_list_split). cbn in Hla. subst la.
    change (A ++ z :: Z1 ++ (cu_leaf a, ea) :: Z2) with (A ++ (z :: Z1) ++ (cu_leaf a, ea) :: Z2) in *. rewrite app_assoc in HC, Hnd.
    inversion HC as [X l e Y Ex|X l e Y off Hz Hf Ex|X l e Y off e1 e2 n Hz Hs Hl Hn Ex]; subst; cbn [cu_leaf] in *.
    all: destruct (split_fst_unique _ _ _ _ _ _ _ Hnd (eq_sym Ex)) as (<- & <- & <-); rewrite ?fmap_app; clear; set_solver.
  - destruct z as [lz ez]. cbn in Ha. subst lz. cbn [fst].
    inversion HC as [X l e Y Ex|X l e Y off Hz Hf Ex|X l e Y off e1 e2 n Hz Hs Hl Hn Ex]; subst; cbn [cu_leaf cu_offset] in *; [done| |].
    all: rewrite fmap_app; clear; set_solver.
Qed.

Lemma rev_cuts t xs la oa lb ob ea eb : Tree t xs -> (la, ea) ∈ xs -> oa <= rle_len ea -> (lb, eb) ∈ xs -> ob <= rle_len eb ->
  cur_rev xs (mkCur la oa) (mkCur lb ob) ->
  exists sie t1 A z Z' sis t2 A1 R, split_leaf_if_needed t (mkCur lb ob) = Ok (sie, t1) /\ Tree t1 (A ++ z :: Z') /\
    Cut (fun n => anext (leaf_nodes t) <= n < anext (leaf_nodes t1)) xs (mkCur lb ob) A (z :: Z') /\
    si_new_pos sie = Some (mkCur (fst z) 0) /\ si_new_leaf sie = ALeaf <$> head (cut_new xs A (z :: Z')) /\
    anext (leaf_nodes t) <= anext (leaf_nodes t1) /\ (forall k, Shallow t k -> Shallow t1 (S k)) /\
    (la ∈ Z'.*1 \/ (la = fst z /\ oa <> 0)) /\
    split_leaf_if_needed t1 (mkCur la oa) = Ok (sis, t2) /\ Tree t2 (A1 ++ R) /\
    Cut (fun n => anext (leaf_nodes t1) <= n < anext (leaf_nodes t2)) (A ++ z :: Z') (mkCur la oa) A1 R /\
    si_new_pos sis = (fun y => mkCur (fst y) 0) <$> head R /\ si_new_leaf sis = ALeaf <$> head (cut_new (A ++ z :: Z') A1 R) /\
    anext (leaf_nodes t1) <= anext (leaf_nodes t2) /\ (forall k, Shallow t1 k -> Shallow t2 (S k)).
Proof.
  intros T Ha Hoa Hb Hob Hrev.
  destruct (t_cut L t xs lb eb ob T Hb Hob) as (sie & t1 & A & Z & E1 & T1 & C1 & P1 & N1 & G1 & S1).
  pose proof (tree_nodup L _ _ T) as Hnd. pose proof (tree_nodup L _ _ T1) as Hnd1.
  assert (exists z Z', Z = z :: Z' /\ ((la ∈ Z'.*1) \/ (la = fst z /\ oa <> 0)) /\ (la, ea) ∈ A ++ Z) as (z & Z' & -> & Hz & Ha').
  { destruct Hrev as [(E & Eo & Hlt)|(X & eb' & Y & Ex & HY & Hno)].
    - cbn in E, Eo, Hlt. subst lb ob. inversion C1 as [X0 l0 e0 Y0 Ey|X0 l0 e0 Y0 off Hz Hf Ey|X0 l0 e0 Y0 off e1 e2 n Hz Hs Hl Hn Ey]; subst; [|done|lia].
      eexists _, _. split; [done|]. split; [right; cbn; split; [done|lia]|]. done.
    - cbn [cu_leaf cu_offset] in *. subst xs. assert ((la, ea) ∈ Y) as HaY.
      { apply elem_of_list_fmap in HY as ([? ea'] & [= <-] & HY). replace ea with ea'; [done|].
        eapply fst_lookup_unique; [exact Hnd| |exact Ha]. clear -HY; set_solver. }
      inversion C1 as [X0 l0 e0 Y0 Ey|X0 l0 e0 Y0 off Hz Hf Ey|X0 l0 e0 Y0 off e1 e2 n Hz Hs Hl Hn Ey]; subst.
      all: destruct (split_fst_unique _ _ _ _ _ _ _ Hnd (eq_sym Ey)) as (<- & <- & <-).
      + eexists _, _. split; [done|]. split; [by left|]. clear -HaY; set_solver.
      + destruct Y as [|z Z']; [by apply elem_of_nil in HaY|]. exists z, Z'. split; [done|]. split; [|clear -HaY; set_solver].
        destruct (decide (la ∈ Z'.*1)); [by left|right]. assert (la = z.1) as -> by (clear -HY n; set_solver). split; [done|].
        intros ->. apply Hno. done.
      + eexists _, _. split; [done|]. split; [by left|]. clear -HaY; set_solver. }
  destruct (t_cut L t1 (A ++ z :: Z') la ea oa T1 Ha' Hoa) as (sis & t2 & A1 & R & E2 & T2 & C2 & P2 & N2 & G2 & S2).
  exists sie, t1, A, z, Z', sis, t2, A1, R. split_and!; done.
Qed.
Theorem rev_fits t xs (a b : cursor) ea eb : Tree t xs -> Shallow t 7 -> (cu_leaf a, ea) ∈ xs -> cu_offset a <= rle_len ea -> (cu_leaf b, eb) ∈ xs -> cu_offset b <= rle_len eb ->
  cur_rev xs a b -> Fits t a b.
Proof.
  intros T Sh Ha Hoa Hb Hob Hrev. destruct a as [la oa]. destruct b as [lb ob]. cbn [cu_leaf cu_offset] in *.
  destruct (rev_cuts t xs la oa lb ob ea eb T Ha Hoa Hb Hob Hrev) as (sie & t1 & A & z & Z' & sis & t2 & A1 & R & E1 & T1 & C1 & P1 & N1 & G1 & S1 & Hz & E2 & T2 & C2 & P2 & N2 & G2 & S2).
  exists t2. split; [unfold cuts; rewrite E1; cbn [rbind]; by rewrite E2|]. apply S2, S1, Sh.
Qed.
Theorem t_update_rev {S0} (fu : S0 -> Elem B -> S0 * Elem B * option (Diff B)) ord t xs (a b : cursor) ea eb s :
  Tree t xs -> Fits t a b -> (cu_leaf a, ea) ∈ xs -> cu_offset a <= rle_len ea -> (cu_leaf b, eb) ∈ xs -> cu_offset b <= rle_len eb ->
  cur_rev xs a b -> (forall l, ord l ≡ₚ l) -> upd_sound L fu ->
  exists A Z A1 R t', let fr n := anext (leaf_nodes t) <= n < anext (leaf_nodes t') in
    Cut fr xs b A Z /\ Cut fr (A ++ Z) a A1 R /\
    update ord t a b fu s = Ok (cut_new xs A Z ++ cut_new (A ++ Z) A1 R, (upd_run fu s R).1, t') /\
    Tree t' (A1 ++ upd_keep (upd_run fu s R).2) /\ anext (leaf_nodes t) <= anext (leaf_nodes t').
Proof.
  intros T (t2' & Ec' & Sh) Ha Hoa Hb Hob Hrev Hord Hfu. destruct a as [la oa]. destruct b as [lb ob]. cbn [cu_leaf cu_offset] in *.
  destruct (rev_cuts t xs la oa lb ob ea eb T Ha Hoa Hb Hob Hrev) as (sie & t1 & A & z & Z' & sis & t2 & A1 & R & E1 & T1 & C1 & P1 & N1 & G1 & S1 & Hz & E2 & T2 & C2 & P2 & N2 & G2 & S2).
  pose proof (tree_nodup L _ _ T1) as Hnd1.
  unfold cuts in Ec'. rewrite E1 in Ec'. cbn [rbind] in Ec'. rewrite E2 in Ec'. injection Ec' as <-.
  pose proof (cut_right A Z' z (mkCur la oa) _ A1 R Hnd1 C2 Hz) as HzA.
  assert (HzR : fst z ∉ R.*1).
  { pose proof (tree_nodup L _ _ T2) as Hnd2. rewrite fmap_app in Hnd2. apply NoDup_app in Hnd2 as (_ & Hd & _). by apply Hd. }
  destruct (update_body L fu ord t2 A1 R [] s (si_new_pos sis) None) as (t' & E' & T' & G' & _); try done.
  { by rewrite app_nil_r. } { by rewrite app_nil_r. }
  rewrite app_nil_r in T'. exists A, (z :: Z'), A1, R, t'. cbn zeta.
  split; [eapply Cut_mono; [|exact C1]; cbn; intros; lia|]. split; [eapply Cut_mono; [|exact C2]; cbn; intros; lia|]. split; [|split; [done|lia]].
  unfold update. rewrite E1. cbn [rbind].
  assert (sl_push_option [] (si_new_leaf sie) = Ok (cut_new xs A (z :: Z'))) as ->.
  { rewrite N1. unfold cut_new. case_decide; [done|]. destruct z; done. }
  cbn [rbind]. rewrite E2. cbn [rbind].
  assert (sl_push_option (cut_new xs A (z :: Z')) (si_new_leaf sis) = Ok (cut_new xs A (z :: Z') ++ cut_new (A ++ z :: Z') A1 R)) as ->.
  { rewrite N2. assert (length (cut_new xs A (z :: Z')) <= 1).
    { unfold cut_new. case_decide; [cbn; lia|]. rewrite fmap_length, take_length. lia. }
    unfold cut_new at 2 4. case_decide; [by rewrite app_nil_r|]. destruct R as [|[? ?] ?]; [by rewrite app_nil_r|].
    cbn. unfold sl_push, vec_push. rewrite decide_True by lia. done. }
  cbn [rbind]. rewrite P1. rewrite P2 in E' |- *.
  destruct R as [|[l0 e0] M]; [cbn in E' |- *; congruence|]. cbn [head fmap option_fmap option_map cu_leaf fst] in E' |- *.
  destruct (shallow_OK L t2 _ 9 ltac:(lia) T2 Sh) as (H & lv & O & HH & Hc).
  pose proof (ok_wt _ _ _ _ O) as W. pose proof (ok_lk _ _ _ _ O) as K. pose proof (tree_leaves L _ _ T2) as Hlv.
  destruct (leaf_path W K l0) as (r & Hr & Er); [rewrite Hlv, !fmap_app; clear; set_solver|lia|]. rewrite Er in E' |- *. cbn [rbind] in E' |- *.
  rewrite (loop_stop fu H lv (mkCur z.1 0) M t2 A1.*1 l0 e0 (rev r) s ∅ [] _ W K).
  - destruct (update_loop _ _ _ _ _ _ _ _) as [[[[s1 t3] dm] rm]| |]; [|done|done]. cbn [rbind] in *.
    destruct (if decide (dm = ∅) then _ else _) as [t4| |]; [|done|done]. cbn [rbind] in *.
    destruct (remove_leaves t4 rm) as [t5| |]; [|done|done]. cbn [rbind] in *. apply Ok_inj', pair_equal_spec in E' as [-> ->]. done.
  - by rewrite Hlv, fmap_app.
  - intros l e Hl. apply (tree_in L _ _ _ _ T2). clear -Hl; set_solver.
  - by rewrite rev_involutive.
  - done.
  - pose proof (leaves_length W) as Hx. rewrite Hlv, fmap_length, !app_length in Hx. cbn in Hx. lia.
Qed.

(** within one leaf: the first cut leaves an element shorter than the start's offset *)
Lemma rev_one_cut t xs l e oa ob : Tree t xs -> (l, e) ∈ xs -> 0 < ob < oa -> oa <= rle_len e ->
  exists si t1, split_leaf_if_needed t (mkCur l ob) = Ok (si, t1) /\ split_leaf_if_needed t1 (mkCur l oa) = Panic.
Proof.
  intros T Hin Ho Hl. destruct (t_cut L t xs l e ob T Hin ltac:(lia)) as (si & t1 & A & Z & E1 & T1 & C1 & _). exists si, t1. split; [done|].
  inversion C1 as [X l0 e0 Y Ex|X l0 e0 Y off Hz Hf Ex|X l0 e0 Y off e1 e2 n Hz Hs Hl1 Hn Ex]; subst; [lia| |].
  - assert (e = e0) as <- by (eapply fst_lookup_unique; [exact (tree_nodup L _ _ T)|exact Hin|clear; set_solver]). lia.
  - eapply (split_past _ _ e1); [|lia]. apply (tree_in L _ _ _ _ T1). clear; set_solver.
Qed.
Theorem t_rev_one t xs l e oa ob : Tree t xs -> (l, e) ∈ xs -> 0 < ob < oa -> oa <= rle_len e ->
  (forall S0 ord (fu : S0 -> Elem B -> S0 * Elem B * option (Diff B)) s, update ord t (mkCur l oa) (mkCur l ob) fu s = Panic) /\
  (forall fa fb k, drain_range t (Some (mkQR (mkCur l oa) fa)) (Some (mkQR (mkCur l ob) fb)) k = Panic).
Proof.
  intros T Hin Ho Hl. destruct (rev_one_cut t xs l e oa ob T Hin Ho Hl) as (si & t1 & E1 & E2). split.
  - intros S0 ord fu s. unfold update. rewrite E1. cbn [rbind]. unfold sl_push_option, sl_push, vec_push.
    destruct (si_new_leaf si); [rewrite decide_True by (cbn; lia)|]; cbn [rbind]; by rewrite E2.
  - intros fa fb k. unfold drain_range, drain_new. cbn [qr_cursor]. rewrite E1. cbn [rbind]. by rewrite E2.
Qed.
(** offsets past the end of their element *)
Theorem t_past_end t xs l e off c ec : Tree t xs -> (l, e) ∈ xs -> rle_len e < off -> (cu_leaf c, ec) ∈ xs -> cu_offset c <= rle_len ec -> cu_leaf c <> l ->
  (forall S0 ord (fu : S0 -> Elem B -> S0 * Elem B * option (Diff B)) s,
    update ord t (mkCur l off) c fu s = Panic /\ update ord t c (mkCur l off) fu s = Panic) /\
  (forall fa fb k, drain_range t (Some (mkQR (mkCur l off) fa)) (Some (mkQR c fb)) k = Panic /\
    drain_range t (Some (mkQR c fa)) (Some (mkQR (mkCur l off) fb)) k = Panic) /\
  (forall x y data, merge_adj (x :: y :: data) = Ok (x :: y :: data) -> insert_many_by_cursor t (Some (mkCur l off)) (x :: y :: data) = Panic).
Proof.
  intros T Hin Ho Hc Hoc Hne. destruct c as [lc oc]. cbn [cu_leaf cu_offset] in *.
  assert (forall u ys, Tree u ys -> (l, e) ∈ ys -> split_leaf_if_needed u (mkCur l off) = Panic) as HS.
  { intros u ys Tu Hu. apply (split_past _ _ e); [|done]. by apply (tree_in L _ _ _ _ Tu). }
  destruct (t_cut L t xs lc ec oc T Hc Hoc) as (si & t1 & A & Z & E1 & T1 & C1 & _).
  assert ((l, e) ∈ A ++ Z) as Hin1.
  { inversion C1 as [X l0 e0 Y Ex|X l0 e0 Y o Hz Hf Ex|X l0 e0 Y o e1 e2 n Hz Hs Hl1 Hn Ex]; subst; [done| |].
    - by rewrite <- app_assoc.
    - rewrite <- app_assoc. apply elem_of_app in Hin as [Hin|[[= -> _]|Hin]%elem_of_cons]; [|done|]; clear -Hin; set_solver. }
  split; [|split].
  - intros S0 ord fu s. unfold update. rewrite (HS t xs T Hin). cbn [rbind]. split; [|done]. rewrite E1. cbn [rbind]. unfold sl_push_option, sl_push, vec_push.
    destruct (si_new_leaf si); [rewrite decide_True by (cbn; lia)|]; cbn [rbind]; by rewrite (HS t1 _ T1 Hin1).
  - intros fa fb k. unfold drain_range, drain_new. cbn [qr_cursor]. rewrite (HS t xs T Hin). cbn [rbind]. split; [|done]. rewrite E1. cbn [rbind]. by rewrite (HS t1 _ T1 Hin1).
  - intros x y data Em. unfold insert_many_by_cursor. rewrite Em. cbn [rbind]. destruct (is_empty t) as [b| |] eqn:Eb; cbn [rbind]; [by rewrite (HS t xs T Hin)|done|].
    exfalso. unfold is_empty, get_internal, unwrap_internal, get_in in Eb. destruct (root t) as [?|i]; [done|]. cbn [rbind] in Eb. by destruct (a_get (in_nodes t) i).
Qed.

(** ** iter_range *)
Lemma upto_out x (ls : list nat) : x ∉ ls -> upto x ls = ls.
Proof. induction ls as [|y ls IH]; intros Hx; [done|]. cbn. apply not_elem_of_cons in Hx as [? ?]. rewrite decide_False by done. by rewrite IH. Qed.
Theorem t_iter_range_rev t X la ea Y oa lb ob : Tree t (X ++ (la, ea) :: Y) -> Shallow t 9 -> lb ∈ X.*1 -> forall bd, bd = Included (mkCur lb ob) \/ bd = Excluded (mkCur lb ob) ->
  iter_range t (Included (mkCur la oa)) bd = Ok (mkES (mkCur la 0) ea (Some oa) None :: map (fun x => mkES (mkCur (fst x) 0) (snd x) None None) Y).
Proof.
  intros T Hs Hlb bd Hbd. pose proof (tree_leaves L _ _ T) as HL.
  destruct (shallow_OK L t _ 9 ltac:(lia) T Hs) as (H & lv & O & HH & Hc). pose proof (ok_wt _ _ _ _ O) as W. pose proof (ok_lk _ _ _ _ O) as K.
  assert (Hnd : NoDup (X.*1 ++ la :: Y.*1)) by (pose proof (tree_nodup L _ _ T) as N; by rewrite fmap_app in N).
  rewrite fmap_app in HL. cbn [fmap list_fmap fst] in HL. apply NoDup_app in Hnd as (_ & HXY & Hnd). apply NoDup_cons in Hnd as [HlaY _].
  assert (Hn : lb ∉ la :: Y.*1) by (by apply HXY).
  assert (forall inc, iter_range_ t (mkCur la oa) (mkCur lb ob) inc = Ok (mkES (mkCur la 0) ea (Some oa) None :: map (fun x => mkES (mkCur (fst x) 0) (snd x) None None) Y)) as G.
  { intros inc. unfold iter_range_. cbn [cu_leaf cu_offset].
    destruct (leaf_path W K la) as (r1 & Hr1 & ->); [rewrite HL; clear; set_solver|lia|]. cbn [rbind].
    destruct (leaf_path W K lb) as (r2 & Hr2 & ->); [rewrite HL; clear -Hlb; set_solver|lia|]. cbn [rbind].
    destruct (rpath_head _ _ _ Hr2) as (k2 & r2' & ->). cbn [rev]. rewrite last_snoc.
    rewrite (leaf_iter_ok W K Y.*1 _ _ la (map ALeaf X.*1) _ _ r2').
    - cbn [rbind]. rewrite upto_out by done. f_equal.
      assert (Hel : forall l e, (l, e) ∈ (la, ea) :: Y -> exists p, a_get (leaf_nodes t) l = Some (mkLeaf e p)).
      { intros l e Hx. assert (el t l = Some e) as He by (apply (tree_in L _ _ _ _ T); clear -Hx; set_solver).
        unfold el in He. destruct (a_get (leaf_nodes t) l) as [[e' p]|]; [|done]. exists p. cbn in He. congruence. }
      destruct (Hel la ea ltac:(left)) as [p Hp]. rewrite (with_node_cons _ _ _ Hp). cbn [omap list_omap].
      rewrite (bool_decide_eq_false_2 (lb = la)) by (intros ->; apply Hn; left). cbn [andb l_elem]. rewrite decide_True by done.
      rewrite decide_False by (intros ->; apply Hn; left). f_equal.
      assert (HlbY : lb ∉ Y.*1) by (intros Hx; apply Hn; by right).
      assert (HelY : forall l e, (l, e) ∈ Y -> exists p, a_get (leaf_nodes t) l = Some (mkLeaf e p)) by (intros l e Hx; apply Hel; by right).
      clear -HlaY HlbY HelY; induction Y as [|[l e] Y IH]; [done|]. cbn in HlaY, HlbY. apply not_elem_of_cons in HlaY as [Ha HlaY], HlbY as [Hb HlbY].
      destruct (HelY l e ltac:(left)) as [p Hp]. cbn [fmap list_fmap fst]. rewrite (with_node_cons _ _ _ Hp). cbn [omap list_omap].
      rewrite (bool_decide_eq_false_2 (lb = l)) by done. cbn [andb l_elem]. rewrite !decide_False by done. cbn. f_equal.
      apply IH; [done|done|]. intros; apply HelY; by right.
    - by rewrite rev_involutive.
    - rewrite <- (leaves_gen W), HL. by rewrite !map_app.
    - done.
    - pose proof (leaves_length W) as Hll. rewrite HL in Hll. rewrite app_length in Hll. cbn in Hll. lia. }
  unfold iter_range. destruct Hbd as [->| ->]; cbn [rbind]; apply G.
Qed.
End rev.
