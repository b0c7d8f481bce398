(** Unwind.v — a closure of [update] or [update_leaf] that panics, the panic being caught by the
    caller; and drains that are leaked (never dropped). *)
From Verif Require Export Drain6 Poke Dead ByQuery.

Section model.
Context {B : BTreeTrait}.
Notation btree := (btree B).

(** the loop of update — lib.rs:1015-1039 — with a closure that may unwind: [inr e] means that
    it panics and leaves [e] behind its [&mut] argument.  The result [inr t] is the tree at the moment of the
    panic: the element is behind the reference, nothing after the call has run. *)
Fixpoint update_loop_u {S0 : Type} (fu : S0 -> Elem B -> (S0 * Elem B * option (Diff B)) + Elem B)
  (f : nat) (t : btree) (path : list idx) (en : option cursor) (s : S0)
  (dm : gmap aidx (Diff B)) (rm : list aidx)
  : res ((S0 * btree * gmap aidx (Diff B) * list aidx) + btree) :=
  match f with
  | 0 => OutOfFuel
  | S f' =>
      let? cl := ropt (last path) in
      let? l := unwrap_leaf (i_arena cl) in
      if bool_decide (cu_leaf <$> en = Some l) then Ok (inl (s, t, dm, rm))
      else
        let? lf := get_lf t l in
        match fu s (l_elem lf) with
        | inr e' => Ok (inr (set_lf t l (with_elem lf e')))
        | inl (s, e', od) =>
            let t := set_lf t l (with_elem lf e') in
            let rm := if can_remove e' then rm ++ [i_arena cl] else rm in
            let dm := match od with Some d => <[i_arena cl := d]> dm | None => dm end in
            let? o := next_sibling t path in
            match o with
            | None => Ok (inl (s, t, dm, rm))
            | Some path => update_loop_u fu f' t path en s dm rm
            end
        end
  end.
(** update — lib.rs:989-1057 — with such a closure *)
Definition update_u {S0 : Type} (ord : list aidx -> list aidx) (t : btree) (st en : cursor)
  (fu : S0 -> Elem B -> (S0 * Elem B * option (Diff B)) + Elem B) (s : S0) : res ((list nat * S0 * btree) + btree) :=
  let? (sie, t) := split_leaf_if_needed t en in
  let? sl := sl_push_option [] (si_new_leaf sie) in
  let? (sis, t) := split_leaf_if_needed t st in
  let? sl := sl_push_option sl (si_new_leaf sis) in
  match si_new_pos sis with
  | None => Ok (inl (sl, s, t))
  | Some st =>
      let? path := get_path t (ALeaf (cu_leaf st)) in
      let? r := update_loop_u fu (S (anext (leaf_nodes t))) t path (si_new_pos sie) s ∅ [] in
      match r with
      | inr t => Ok (inr t)
      | inl (s, t, dm, rm) =>
          let? t := if decide (dm = ∅) then calc_root t None
                    else update_dirty_cache_map ord t dm in
          let? t := remove_leaves t rm in
          Ok (inl (sl, s, t))
      end
  end.
(** update_leaf — lib.rs:1255-1266 — when the closure panics, leaving [e] behind its argument:
    the closure runs before anything else is touched *)
Definition update_leaf_u (t : btree) (l : nat) (e : Elem B) : res btree :=
  let? lf := get_lf t l in Ok (set_lf t l (with_elem lf e)).
(** update_leaf_by_search — lib.rs:1107-1146 — when the closure panics, leaving [f elem answer] behind its argument *)
Definition ulbs_u (Q : Query B) (t : btree) (q : QArg Q) (f : Elem B -> qresult -> Elem B) : res btree :=
  let? emp := is_empty t in
  if (emp : bool) then Panic
  else
    let? (l, cpos, s, path) := ulbs_descend Q (S (fuel t)) t (root t) 0 (q_init Q q) q [] in
    let? lf := get_lf t l in
    match q_confirm Q s q (l_elem lf) with
    | (off, found, _) => Ok (set_lf t l (with_elem lf (f (l_elem lf) (mkQR (mkCur l off) found))))
    end.
End model.

Section spec.
Context {B : BTreeTrait} {S0 : Type} (fu : S0 -> Elem B -> (S0 * Elem B * option (Diff B)) + Elem B).
(** the visited elements at the moment of the panic; [None] if no call panics *)
Fixpoint unwound (s : S0) (M : list (nat * Elem B)) : option (list (nat * Elem B)) :=
  match M with
  | [] => None
  | (l, e) :: M' =>
      match fu s e with
      | inl (s1, e', _) => cons (l, e') <$> unwound s1 M'
      | inr e' => Some ((l, e') :: M')
      end
  end.
(** the closure made total, for runs without a panic *)
Definition total_fu (s : S0) (e : Elem B) : S0 * Elem B * option (Diff B) :=
  match fu s e with inl r => r | inr e' => (s, e', None) end.
Lemma unwound_ids M : forall s W, unwound s M = Some W -> W.*1 = M.*1.
Proof.
  induction M as [|[l e] M IH]; intros s W E; [done|]. cbn [unwound] in E. destruct (fu s e) as [[[s1 e'] od]|e'].
  - destruct (unwound s1 M) as [W'|] eqn:Ew; [|done]. injection E as <-. cbn. f_equal. by eapply IH.
  - by injection E as <-.
Qed.
End spec.

Section repair.
Context {B : BTreeTrait} (L : Lawful B).
Notation btree := (btree B).
Notation OK := (OK L).
Notation Tree := (Tree L).
Implicit Types (t u : btree).

Lemma SH_sym t t' : SH t t' -> SH t' t.
Proof. intros []. by constructor. Qed.
Lemma same_sym t u : SameButCaches t u -> SameButCaches u t.
Proof. intros []. by constructor. Qed.
(** a heap that differs from an intact one only in elements and caches agrees with an intact heap in
    everything but the caches *)
Lemma repair t H lv t0 : OK t H lv -> SH t t0 -> (forall l e, el t0 l = Some e -> evalid L e) ->
  exists u, OK u H lv /\ SH t u /\ forall l, el u l = el t0 l.
Proof.
  intros O S V. pose proof (ok_wt _ _ _ _ O) as W.
  assert (forall ls : list nat, (forall l, l ∈ ls -> is_Some (el t l)) -> exists u, OK u H lv /\ SH t u /\ forall x, el u x = if decide (x ∈ ls) then el t0 x else el t x) as G.
  { induction ls as [|l ls IH]; intros Hls.
    - exists t. split; [done|]. split; [apply SH_refl|]. intros x. by rewrite decide_False by apply not_elem_of_nil.
    - destruct IH as (u & Ou & Su & Eu); [intros; apply Hls; by right|].
      destruct (proj2 (SH_el _ _ Su l) (Hls l ltac:(left))) as [e He].
      destruct (proj2 (SH_el _ _ S l) (Hls l ltac:(left))) as [e' He'].
      destruct (at_leaf_ok u H lv l e (ok_wt _ _ _ _ Ou) (ok_lk _ _ _ _ Ou) He) as (p & A & c & Z & AL).
      destruct (set_leaf_ok L u H lv l e e' p A c Z true Ou AL (V _ _ He') ltac:(done)) as (u1 & _ & O1 & S1 & _ & E1).
      exists u1. split; [done|]. split; [by eapply SH_trans|]. intros x. rewrite E1, Eu. destruct (decide (l = x)) as [<-|Hn].
      + rewrite decide_True by left. done.
      + destruct (decide (x ∈ ls)); [rewrite decide_True by (by right)|rewrite decide_False by (rewrite elem_of_cons; intros [?|?]; congruence)]; done. }
  destruct (G (leaves t)) as (u & Ou & Su & Eu). { intros l Hl. by apply (leaves_live W). }
  exists u. split; [done|]. split; [done|]. intros l. rewrite Eu. case_decide as Hd; [done|].
  destruct (el t l) as [e|] eqn:Ee; [exfalso; apply Hd, (leaves_live W); eauto|].
  destruct (el t0 l) as [e|] eqn:Ee0; [|done]. exfalso. destruct (proj1 (SH_el _ _ S l)) as [x Hx]; [rewrite Ee0; eauto|]. congruence.
Qed.
Theorem t_repair t xs t0 ys : Tree t xs -> SH t t0 -> ys.*1 = xs.*1 -> (forall l e, (l, e) ∈ ys -> el t0 l = Some e /\ evalid L e) ->
  exists u, Tree u ys /\ SameButCaches u t0.
Proof.
  intros T S Ey Hy. destruct (Tree_OK L _ _ T) as (H & lv & O & Hc). pose proof (ok_wt _ _ _ _ O) as W.
  pose proof (tree_leaves L _ _ T) as HL.
  destruct (repair t H lv t0 O S) as (u & Ou & Su & Eu).
  { intros l e He. destruct (proj1 (SH_el _ _ S l)) as [x Hx]; [rewrite He; eauto|].
    assert (l ∈ leaves t) as Hl by (apply (leaves_live W); eauto). rewrite HL, <- Ey in Hl. apply elem_of_list_fmap in Hl as ([? e'] & [= <-] & Hl).
    destruct (Hy _ _ Hl) as [He' ?]. congruence. }
  exists u. split.
  - pose proof (OK_Tree L _ _ _ Ou) as Tu. replace ys with (cont u H); [done|].
    rewrite <- (Tree_elems L _ _ Tu). unfold elems.
    assert (leaves u = ys.*1) as ->.
    { rewrite (leaves_raw (ok_wt _ _ _ _ Ou)), (SH_gen _ _ Su), (sh_root Su), <- (leaves_raw W). congruence. }
    apply elems_of. intros l e Hl. rewrite Eu. by apply Hy.
  - apply same_sym, (Er_same L), (SH_Er L t0); [apply SH_refl|eapply SH_trans; [by apply SH_sym|done]|done|done|apply Ou].
Qed.
End repair.

Section loop.
Context {B : BTreeTrait} (L : Lawful B) {S0 : Type} (fu : S0 -> Elem B -> (S0 * Elem B * option (Diff B)) + Elem B).
Notation btree := (btree B).
Notation Tree := (Tree L).
Implicit Types (t : btree).

(** the closure leaves valid elements behind, also when it panics *)
Definition unw_sound : Prop := forall s e, evalid L e -> match fu s e with inl (_, e', _) => evalid L e' | inr e' => evalid L e' end.
Lemma unwound_valid : unw_sound -> forall M s W, unwound fu s M = Some W -> (forall l e, (l, e) ∈ M -> evalid L e) -> forall l e, (l, e) ∈ W -> evalid L e.
Proof.
  intros Hs M. induction M as [|[l0 e0] M IH]; intros s W E HM l e Hl; [done|]. cbn [unwound] in E.
  pose proof (Hs s e0 (HM l0 e0 ltac:(left))) as H0. destruct (fu s e0) as [[[s1 e'] od]|e'].
  - destruct (unwound fu s1 M) as [W'|] eqn:Ew; [|done]. injection E as <-. apply elem_of_cons in Hl as [[= -> ->]|Hl]; [done|].
    eapply IH; [exact Ew| |exact Hl]. intros; eapply HM; by right.
  - injection E as <-. apply elem_of_cons in Hl as [[= -> ->]|Hl]; [done|]. eapply HM. by right.
Qed.

Lemma loop_unwind H lv M : forall t X Y l0 e0 path s dm rm f en Wd, WT NoE t H lv -> LK t ->
  leaves t = X ++ ((l0, e0) :: M).*1 ++ Y -> (forall l e, (l, e) ∈ (l0, e0) :: M -> el t l = Some e) ->
  rpath t (rev path) (ALeaf l0) -> (forall c, en = Some c -> cu_leaf c ∉ ((l0, e0) :: M).*1) -> S (length M) < f ->
  unwound fu s ((l0, e0) :: M) = Some Wd ->
  exists t', update_loop_u fu f t path en s dm rm = Ok (inr t') /\ SH t t' /\ in_nodes t' = in_nodes t /\ root_cache t' = root_cache t /\
    (forall l e, (l, e) ∈ Wd -> el t' l = Some e) /\ (forall x, x ∉ ((l0, e0) :: M).*1 -> el t' x = el t x).
Proof.
  induction M as [|[l1 e1] M IH]; intros t X Y l0 e0 path s dm rm f en Wd W K HL Hel Hp Hc Hf Hu; (destruct f as [|f]; [cbn in Hf; lia|]).
  all: cbn [update_loop_u]; destruct (rpath_head _ _ _ Hp) as (k0 & r' & Er);
    assert (last path = Some (mkIdx (ALeaf l0) k0)) as -> by (rewrite <- (rev_involutive path), Er; cbn; by rewrite last_snoc);
    cbn [ropt rbind i_arena unwrap_leaf].
  all: pose proof (leaves_nodup W) as Hnd; rewrite HL in Hnd.
  all: rewrite (bool_decide_eq_false_2 (cu_leaf <$> en = Some l0)) by (destruct en as [c|]; [intros [= Hx]; apply (Hc c eq_refl); rewrite Hx; left|done]).
  all: pose proof (Hel l0 e0 ltac:(left)) as He0.
  all: assert (exists q, llnk t l0 = Some q) as [q Hq] by (apply el_llnk; rewrite He0; eauto).
  all: rewrite (get_lf_proj _ _ _ _ He0 Hq); cbn [rbind l_elem]; cbn [unwound] in Hu; destruct (fu s e0) as [[[s1 e'] od]|e'] eqn:Ef; [try discriminate Hu|].
  all: set (t1 := set_lf t l0 (with_elem (mkLeaf e0 q) e')).
  all: assert (S1 : SH t t1) by (constructor; try done; intros x; unfold t1; rewrite llnk_set_lf; case_decide; [subst; cbn; by rewrite Hq|done]).
  all: assert (E1 : forall x, el t1 x = if decide (l0 = x) then Some e' else el t x) by (intros x; unfold t1; by rewrite el_set_lf).
  - injection Hu as <-. exists t1. split; [done|]. split; [done|]. split; [done|]. split; [done|]. split.
    + intros l e [= -> ->]%elem_of_list_singleton. rewrite E1. by rewrite decide_True.
    + intros x Hx. rewrite E1, decide_False; [done|]. intros ->. apply Hx. left.
  - destruct (unwound fu s1 ((l1, e1) :: M)) as [W'|] eqn:Ew; [|cbn [unwound] in Ew; rewrite Ew in Hu; done].
    assert ((l0, e') :: W' = Wd) as <- by (cbn [unwound] in Ew; rewrite Ew in Hu; by injection Hu as <-). clear Hu.
    pose proof (SH_WT _ _ _ _ _ S1 W) as W1. pose proof (SH_LK _ _ S1 K) as K1. pose proof (rpath_SH _ _ S1 _ _ Hp) as Hp1.
    assert (HG : gen t1 (S H) (root t1) = map ALeaf (leaves t1)) by (symmetry; apply (leaves_gen W1)).
    assert (HL1 : leaves t1 = leaves t) by (by rewrite (leaves_raw W1), (leaves_raw W), (SH_gen _ _ S1), (sh_root S1)).
    assert (Hpl : length path = S (S H)) by (pose proof (rpath_len W _ _ Hp) as Hx; rewrite rev_length in Hx; cbn in Hx; lia).
    rewrite HL1, HL, !map_app in HG. cbn [fmap list_fmap map fst app] in HG.
    pose proof (next_sibling_ok W1 K1 path (ALeaf l0) (S H) _ _ Hp1 ltac:(lia) HG Hpl) as Hns.
    cbn [map app] in Hns. destruct Hns as (pth & -> & Hp2). cbn [rbind].
    assert (Hl0 : l0 ∉ ((l1, e1) :: M).*1).
    { apply NoDup_app in Hnd as (_ & _ & Hnd). cbn [fmap list_fmap fst app] in Hnd. apply NoDup_cons in Hnd as [Hnd _]. cbn [fmap list_fmap fst]. clear -Hnd. set_solver. }
    destruct (IH t1 (X ++ [l0]) Y l1 e1 pth s1 (match od with Some d => <[ALeaf l0 := d]> dm | None => dm end)
      (if can_remove e' then rm ++ [ALeaf l0] else rm) f en W' W1 K1) as (t' & E' & S' & N' & R' & EW & Eo).
    + by rewrite HL1, HL, <- app_assoc.
    + intros l e Hl. rewrite E1, decide_False; [apply Hel; by right|]. intros ->. apply Hl0. by apply (elem_of_list_fmap_1 fst) in Hl.
    + done.
    + intros c Hce Hx. apply (Hc c Hce). by right.
    + cbn in Hf. lia.
    + done.
    + exists t'. split; [exact E'|]. split; [by eapply SH_trans|]. split; [done|]. split; [done|]. split.
      * intros l e [[= -> ->]|Hl]%elem_of_cons; [|by apply EW]. rewrite (Eo _ Hl0), E1. by rewrite decide_True.
      * intros x Hx. rewrite Eo, E1, decide_False; [done| |]; intros Hy; apply Hx; [subst; left|by right].
  - injection Hu as <-. exists t1. split; [done|]. split; [done|]. split; [done|]. split; [done|]. split.
    + intros l e [[= -> ->]|Hl]%elem_of_cons; rewrite E1; [by rewrite decide_True|].
      rewrite decide_False; [apply Hel; by right|]. intros ->. apply NoDup_app in Hnd as (_ & _ & Hnd). cbn [fmap list_fmap fst app] in Hnd. apply NoDup_cons in Hnd as [Hnd _].
      apply (elem_of_list_fmap_1 fst) in Hl. cbn in Hl. clear -Hl Hnd. set_solver.
    + intros x Hx. rewrite E1, decide_False; [done|]. intros ->. apply Hx. left.
Qed.

(** without a panic the two loops agree *)
Lemma loop_nounw f : forall t path en s dm rm,
  match update_loop_u fu f t path en s dm rm with
  | Ok (inl r) => update_loop (total_fu fu) f t path en s dm rm = Ok r
  | Ok (inr _) => True
  | Panic => update_loop (total_fu fu) f t path en s dm rm = Panic
  | OutOfFuel => update_loop (total_fu fu) f t path en s dm rm = OutOfFuel
  end.
Proof.
  induction f as [|f IH]; intros t path en s dm rm; [done|]. cbn [update_loop_u update_loop].
  destruct (ropt (last path)) as [cl| |]; [|done|done]. cbn [rbind]. destruct (unwrap_leaf (i_arena cl)) as [l| |]; [|done|done]. cbn [rbind].
  destruct (bool_decide _); [done|]. destruct (get_lf t l) as [lf| |]; [|done|done]. cbn [rbind].
  assert (total_fu fu s (l_elem lf) = match fu s (l_elem lf) with inl r => r | inr e' => (s, e', None) end) as -> by done.
  destruct (fu s (l_elem lf)) as [[[s1 e'] od]|e']; [|done].
  destruct (next_sibling _ path) as [[pth|]| |]; [|done|done|done]. cbn [rbind]. apply IH.
Qed.
Lemma loop_unw_none H lv M : forall t X Y l0 e0 path s dm rm f en, WT NoE t H lv -> LK t ->
  leaves t = X ++ ((l0, e0) :: M).*1 ++ Y -> (forall l e, (l, e) ∈ (l0, e0) :: M -> el t l = Some e) ->
  rpath t (rev path) (ALeaf l0) -> (Y = [] \/ exists c Y', en = Some c /\ Y = cu_leaf c :: Y') ->
  (forall c, en = Some c -> cu_leaf c ∉ ((l0, e0) :: M).*1) -> S (length M) < f ->
  unwound fu s ((l0, e0) :: M) = None ->
  forall t', update_loop_u fu f t path en s dm rm <> Ok (inr t').
Proof.
  induction M as [|[l1 e1] M IH]; intros t X Y l0 e0 path s dm rm f en W K HL Hel Hp HY Hc Hf Hu t'; (destruct f as [|f]; [cbn in Hf; lia|]).
  all: cbn [update_loop_u]; destruct (rpath_head _ _ _ Hp) as (k0 & r' & Er);
    assert (last path = Some (mkIdx (ALeaf l0) k0)) as -> by (rewrite <- (rev_involutive path), Er; cbn; by rewrite last_snoc);
    cbn [ropt rbind i_arena unwrap_leaf].
  all: pose proof (leaves_nodup W) as Hnd; rewrite HL in Hnd.
  all: rewrite (bool_decide_eq_false_2 (cu_leaf <$> en = Some l0)) by (destruct en as [c|]; [intros [= Hx]; apply (Hc c eq_refl); rewrite Hx; left|done]).
  all: pose proof (Hel l0 e0 ltac:(left)) as He0.
  all: assert (exists q, llnk t l0 = Some q) as [q Hq] by (apply el_llnk; rewrite He0; eauto).
  all: rewrite (get_lf_proj _ _ _ _ He0 Hq); cbn [rbind l_elem]; cbn [unwound] in Hu; destruct (fu s e0) as [[[s1 e'] od]|e'] eqn:Ef; [|done].
  all: set (t1 := set_lf t l0 (with_elem (mkLeaf e0 q) e')).
  all: assert (S1 : SH t t1) by (constructor; try done; intros x; unfold t1; rewrite llnk_set_lf; case_decide; [subst; cbn; by rewrite Hq|done]).
  all: assert (E1 : forall x, el t1 x = if decide (l0 = x) then Some e' else el t x) by (intros x; unfold t1; by rewrite el_set_lf).
  all: pose proof (SH_WT _ _ _ _ _ S1 W) as W1; pose proof (SH_LK _ _ S1 K) as K1; pose proof (rpath_SH _ _ S1 _ _ Hp) as Hp1.
  all: assert (HG : gen t1 (S H) (root t1) = map ALeaf (leaves t1)) by (symmetry; apply (leaves_gen W1)).
  all: assert (HL1 : leaves t1 = leaves t) by (by rewrite (leaves_raw W1), (leaves_raw W), (SH_gen _ _ S1), (sh_root S1)).
  all: assert (Hpl : length path = S (S H)) by (pose proof (rpath_len W _ _ Hp) as Hx; rewrite rev_length in Hx; cbn in Hx; lia).
  all: rewrite HL1, HL, !map_app in HG; cbn [fmap list_fmap map fst app] in HG.
  all: pose proof (next_sibling_ok W1 K1 path (ALeaf l0) (S H) _ _ Hp1 ltac:(lia) HG Hpl) as Hns.
  - destruct HY as [->|(c & Y' & -> & ->)].
    + cbn [map app] in Hns. rewrite Hns. done.
    + cbn [map app] in Hns. destruct Hns as (pth & -> & Hp2). cbn [rbind]. destruct f as [|f]; [cbn in Hf; lia|]. cbn [update_loop_u].
      destruct (rpath_head _ _ _ Hp2) as (k1 & r1 & Er1).
      assert (last pth = Some (mkIdx (ALeaf (cu_leaf c)) k1)) as -> by (rewrite <- (rev_involutive pth), Er1; cbn; by rewrite last_snoc).
      cbn [ropt rbind i_arena unwrap_leaf]. rewrite bool_decide_eq_true_2 by done. done.
  - cbn [map app] in Hns. destruct Hns as (pth & -> & Hp2). cbn [rbind].
    assert (Hl0 : l0 ∉ ((l1, e1) :: M).*1).
    { apply NoDup_app in Hnd as (_ & _ & Hnd). cbn [fmap list_fmap fst app] in Hnd. apply NoDup_cons in Hnd as [Hnd _]. cbn [fmap list_fmap fst]. clear -Hnd. set_solver. }
    apply (IH t1 (X ++ [l0]) Y l1 e1 pth s1 _ _ f en W1 K1).
    + by rewrite HL1, HL, <- app_assoc.
    + intros l e Hl. rewrite E1, decide_False; [apply Hel; by right|]. intros ->. apply Hl0. by apply (elem_of_list_fmap_1 fst) in Hl.
    + done.
    + done.
    + intros c Hce Hx. apply (Hc c Hce). by right.
    + cbn in Hf. lia.
    + cbn [unwound] in Hu |- *. by destruct (fu s1 e1) as [[[? ?] ?]|]; [destruct (unwound fu _ M)|].
Qed.
End loop.

Section unwind.
Context {B : BTreeTrait} (L : Lawful B).
Notation btree := (btree B).
Notation Tree := (Tree L).
Implicit Types (t u : btree).

(** rewriting elements without touching their summaries *)
Lemma t_rewrite t xs t' ys : Tree t xs -> SH t t' -> in_nodes t' = in_nodes t -> root_cache t' = root_cache t -> ys.*1 = xs.*1 ->
  (forall l e, (l, e) ∈ ys -> el t' l = Some e /\ evalid L e) ->
  (forall l e e', (l, e) ∈ xs -> (l, e') ∈ ys -> get_elem_cache e' = get_elem_cache e) -> Tree t' ys.
Proof.
  intros T S En Er Ey Hy Hc. destruct (Tree_OK L _ _ T) as (H & lv & O & _). pose proof (ok_wt _ _ _ _ O) as W.
  pose proof (tree_leaves L _ _ T) as HL.
  assert (Hk : forall i, kids t' i = kids t i) by (intros i; unfold kids; by rewrite En).
  assert (Hee : forall l e, el t' l = Some e -> evalid L e /\ exists e0, el t l = Some e0 /\ get_elem_cache e = get_elem_cache e0).
  { intros l e He. destruct (proj1 (SH_el _ _ S l)) as [x Hx]; [rewrite He; eauto|].
    assert (l ∈ leaves t) as Hl by (apply (leaves_live W); eauto). pose proof Hl as Hl'. rewrite HL, <- Ey in Hl. apply elem_of_list_fmap in Hl as ([? e'] & [= <-] & Hl).
    rewrite HL in Hl'. apply elem_of_list_fmap in Hl' as ([? e0] & [= <-] & Hl').
    destruct (Hy _ _ Hl) as [He' ?]. assert (e' = e) as -> by congruence. split; [done|]. exists e0. split; [by apply (tree_in L _ _ _ _ T)|]. by eapply Hc. }
  assert (Ha : forall a, act L t' a = act L t a).
  { intros [l|i]; unfold act; [|by rewrite Hk]. destruct (el t' l) as [e|] eqn:Ee.
    - destruct (Hee _ _ Ee) as (_ & e0 & -> & ->). done.
    - destruct (el t l) as [e|] eqn:Ee0; [|done]. exfalso. destruct (proj2 (SH_el _ _ S l)) as [x Hx]; [rewrite Ee0; eauto|]. congruence. }
  assert (O' : OK L t' H lv).
  { constructor.
    - by eapply SH_WT.
    - eapply SH_LK; [exact S|]. apply O.
    - eapply SH_SZ; [exact S|]. apply O.
    - intros p cs c Hp Hin Hn. rewrite Ha. rewrite Hk in Hp. by eapply (ok_co _ _ _ _ O).
    - intros Hr. rewrite Ha, Er, (sh_root S). apply (ok_rc _ _ _ _ O). by rewrite <- (sh_chs S), <- (sh_root S).
    - constructor; [intros l e He; by apply (Hee l e)|]. intros p cs c Hp. rewrite Hk in Hp. by eapply (va_ch _ _ (ok_va _ _ _ _ O)). }
  pose proof (OK_Tree L _ _ _ O') as T'. replace ys with (cont t' H); [done|].
  rewrite <- (Tree_elems L _ _ T'). unfold elems.
  assert (leaves t' = ys.*1) as ->.
  { rewrite (leaves_raw (ok_wt _ _ _ _ O')), (SH_gen _ _ S), (sh_root S), <- (leaves_raw W). congruence. }
  apply elems_of. intros l e Hl. by apply Hy.
Qed.

(** ** update *)
Theorem t_update_unwind {S0} (fu : S0 -> Elem B -> (S0 * Elem B * option (Diff B)) + Elem B) ord t xs (a b : cursor) ea eb s :
  Tree t xs -> Fits t a b -> (cu_leaf a, ea) ∈ xs -> cu_offset a <= rle_len ea -> (cu_leaf b, eb) ∈ xs -> cu_offset b <= rle_len eb ->
  cur_le xs a b -> unw_sound L fu ->
  exists A Z A1 M t2, let fr n := anext (leaf_nodes t) <= n < anext (leaf_nodes t2) in
    cuts t a b = Ok t2 /\ Tree t2 (A1 ++ M ++ Z) /\ Cut fr xs b A Z /\ Cut fr (A ++ Z) a A1 (M ++ Z) /\
    match unwound fu s M with
    | None => update_u ord t a b fu s = (let? r := update ord t a b (total_fu fu) s in Ok (inl r))
    | Some W => exists t' u, update_u ord t a b fu s = Ok (inr t') /\ Tree u (A1 ++ W ++ Z) /\ SameButCaches u t' /\
        in_nodes t' = in_nodes t2 /\ root_cache t' = root_cache t2 /\
        ((forall l e e', (l, e) ∈ M -> (l, e') ∈ W -> get_elem_cache e' = get_elem_cache e) -> Tree t' (A1 ++ W ++ Z))
    end.
Proof.
  intros T (t2' & Ec' & Sh) Ha Hoa Hb Hob Hle Hfu. destruct a as [la oa]. destruct b as [lb ob]. cbn [cu_leaf cu_offset] in *.
  destruct (t_cut L t xs lb eb ob T Hb Hob) as (sie & t1 & A & Z & E1 & T1 & C1 & P1 & N1 & G1 & S1).
  pose proof (cut_before xs (mkCur la oa) _ _ A Z ea (tree_nodup L _ _ T) Hle C1 Ha Hoa) as Hpos. cbn [cu_leaf cu_offset] in Hpos.
  assert (exists ea', (la, ea') ∈ A ++ Z /\ oa <= rle_len ea') as (ea' & Ha' & Hoa').
  { destruct Hpos as [(ea' & Hx & Hy)|(-> & ea' & Hx)]; exists ea'; (split; [|first [done|lia]]).
    - clear -Hx; set_solver.
    - destruct Z; [done|]. injection Hx as ->. clear; set_solver. }
  destruct (t_cut L t1 (A ++ Z) la ea' oa T1 Ha' Hoa') as (sis & t2 & A1 & R1 & E2 & T2 & C2 & P2 & N2 & G2 & S2).
  destruct (cut_left A Z (mkCur la oa) _ A1 R1 (tree_nodup L _ _ T1) C2) as [M ->].
  { cbn [cu_leaf cu_offset]. destruct Hpos as [(? & ? & _)|?]; [left|right]; eauto. }
  unfold cuts in Ec'. rewrite E1 in Ec'. cbn [rbind] in Ec'. rewrite E2 in Ec'. injection Ec' as <-.
  exists A, Z, A1, M, t2. cbn zeta.
  split. { unfold cuts. rewrite E1. cbn [rbind]. rewrite E2. done. }
  split; [done|].
  split; [eapply Cut_mono; [|exact C1]; cbn; intros; lia|]. split; [eapply Cut_mono; [|exact C2]; cbn; intros; lia|].
  unfold update_u, update. rewrite E1. cbn [rbind].
  assert (sl_push_option [] (si_new_leaf sie) = Ok (cut_new xs A Z)) as ->.
  { rewrite N1. unfold cut_new. case_decide; [done|]. destruct Z as [|[? ?] Z]; done. }
  cbn [rbind]. rewrite E2. cbn [rbind].
  assert (sl_push_option (cut_new xs A Z) (si_new_leaf sis) = Ok (cut_new xs A Z ++ cut_new (A ++ Z) A1 (M ++ Z))) as ->.
  { rewrite N2. assert (length (cut_new xs A Z) <= 1).
    { unfold cut_new. case_decide; [cbn; lia|]. rewrite fmap_length, take_length. lia. }
    unfold cut_new at 2 4. case_decide; [by rewrite app_nil_r|]. destruct (M ++ Z) as [|[? ?] ?]; [by rewrite app_nil_r|].
    cbn. unfold sl_push, vec_push. rewrite decide_True by lia. done. }
  cbn [rbind]. set (sl := cut_new xs A Z ++ _). clearbody sl. rewrite P1, P2.
  destruct (shallow_OK L t2 _ 9 ltac:(lia) T2 Sh) as (H & lv & O & HH & Hc).
  pose proof (ok_wt _ _ _ _ O) as W. pose proof (ok_lk _ _ _ _ O) as K. pose proof (tree_leaves L _ _ T2) as Hlv.
  pose proof (tree_nodup L _ _ T2) as Hnd2.
  assert (Hel : forall l e, (l, e) ∈ A1 ++ M ++ Z -> el t2 l = Some e) by (intros l e; apply (tree_in L _ _ _ _ T2)).
  destruct M as [|[l0 e0] M].
  { cbn [unwound app]. destruct Z as [|[lz ez] Z]; [done|]. cbn [head fmap option_fmap option_map fst cu_leaf].
    destruct (leaf_path W K lz) as (r & Hr & ->); [rewrite Hlv, fmap_app; clear; set_solver|lia|]. cbn [rbind].
    destruct (rpath_head _ _ _ Hr) as (k0 & r' & Er). cbn [update_loop update_loop_u].
    assert (last (rev r) = Some (mkIdx (ALeaf lz) k0)) as -> by (rewrite Er; cbn; by rewrite last_snoc).
    cbn [ropt rbind i_arena unwrap_leaf cu_leaf]. rewrite bool_decide_eq_true_2 by done. cbn [rbind]. rewrite decide_True by done.
    destruct (calc_root t2 None) as [t3| |]; done. }
  cbn [head app fmap option_fmap option_map fst cu_leaf].
  destruct (leaf_path W K l0) as (r & Hr & ->); [rewrite Hlv, !fmap_app; clear; set_solver|lia|]. cbn [rbind].
  set (en := (fun y : nat * Elem B => mkCur (fst y) 0) <$> head Z).
  assert (Hen : forall c, en = Some c -> exists Y, Z.*1 = cu_leaf c :: Y).
  { unfold en. destruct Z as [|[lz ez] Z]; [done|]. cbn. intros c [= <-]. eauto. }
  assert (Hnc : forall c, en = Some c -> cu_leaf c ∉ ((l0, e0) :: M).*1).
  { intros c [Y HY]%Hen Hx. rewrite !fmap_app, HY in Hnd2. apply NoDup_app in Hnd2 as (_ & _ & (_ & Hd & _)%NoDup_app). apply (Hd _ Hx). left. }
  assert (Hlen : S (length M) < S (anext (leaf_nodes t2))).
  { pose proof (leaves_length W) as Hx. rewrite Hlv, fmap_length, !app_length in Hx. cbn in Hx. lia. }
  assert (HL : leaves t2 = A1.*1 ++ ((l0, e0) :: M).*1 ++ Z.*1) by (by rewrite Hlv, !fmap_app).
  assert (HelM : forall l e, (l, e) ∈ (l0, e0) :: M -> el t2 l = Some e) by (intros l e Hl; apply Hel; clear -Hl; set_solver).
  destruct (unwound fu s ((l0, e0) :: M)) as [Wd|] eqn:Eu.
  - destruct (loop_unwind fu H lv M t2 A1.*1 Z.*1 l0 e0 (rev r) s ∅ [] (S (anext (leaf_nodes t2))) en Wd W K HL HelM) as (t' & -> & S' & N' & R' & EW & Eo); try done.
    { by rewrite rev_involutive. }
    cbn [rbind].
    pose proof (unwound_ids fu _ _ _ Eu) as Hids.
    assert (Hfst : (A1 ++ Wd ++ Z).*1 = (A1 ++ ((l0, e0) :: M) ++ Z).*1) by (by rewrite !fmap_app, Hids).
    assert (HyV : forall l e, (l, e) ∈ A1 ++ Wd ++ Z -> el t' l = Some e /\ evalid L e).
    { intros l e Hl. assert ((l, e) ∈ Wd \/ (l, e) ∈ A1 ++ Z) as [Hw|Ho] by (clear -Hl; set_solver).
      - split; [by apply EW|]. eapply unwound_valid; [exact Hfu|exact Eu| |exact Hw]. intros l' e' Hl'. eapply (tree_valid L _ _ l' e' T2). clear -Hl'; set_solver.
      - split; [|eapply (tree_valid L _ _ l e T2); clear -Ho; set_solver]. rewrite Eo; [apply Hel; clear -Ho; set_solver|].
        intros Hx. rewrite !fmap_app in Hnd2. apply (elem_of_list_fmap_1 fst) in Ho. cbn [fst] in Ho. rewrite fmap_app in Ho. apply elem_of_app in Ho as [Ho|Ho].
        + apply NoDup_app in Hnd2 as (_ & Hd & _). apply (Hd _ Ho). apply elem_of_app. by left.
        + apply NoDup_app in Hnd2 as (_ & _ & (_ & Hd & _)%NoDup_app). by apply (Hd _ Hx). }
    destruct (t_repair L t2 _ t' (A1 ++ Wd ++ Z) T2 S' Hfst HyV) as (u & Tu & Su).
    exists t', u. split_and!; try done. intros Hcc.
    apply (t_rewrite t2 _ t' _ T2 S' N' R' Hfst HyV). intros l e e' H1 H2.
    destruct (decide (l ∈ ((l0, e0) :: M).*1)) as [Hin|Hin].
    + apply elem_of_list_fmap in Hin as ([? e1] & [= <-] & Hin). assert (e1 = e) as ->.
      { eapply fst_lookup_unique; [exact Hnd2| |exact H1]. clear -Hin; set_solver. }
      pose proof Hin as Hw. apply (elem_of_list_fmap_1 fst) in Hw. rewrite <- Hids in Hw. apply elem_of_list_fmap in Hw as ([? e2] & Hz & Hw). cbn in Hz. subst.
      assert (e2 = e') as ->. { eapply (fst_lookup_unique (A1 ++ Wd ++ Z)); [by rewrite Hfst| |exact H2]. clear -Hw; set_solver. }
      by eapply Hcc.
    + assert (e = e') as ->; [|done]. destruct (HyV _ _ H2) as [H3 _]. rewrite Eo in H3 by done. pose proof (Hel _ _ H1). congruence.
  - pose proof (loop_nounw fu (S (anext (leaf_nodes t2))) t2 (rev r) en s ∅ []) as Hn.
    pose proof (loop_unw_none fu H lv M t2 A1.*1 Z.*1 l0 e0 (rev r) s ∅ [] (S (anext (leaf_nodes t2))) en W K HL HelM ltac:(by rewrite rev_involutive)) as Hq.
    destruct (update_loop_u fu _ t2 (rev r) en s ∅ []) as [[[[[s' t3] dm] rm]|t3]| |].
    + rewrite Hn. cbn [rbind]. destruct (if decide (dm = ∅) then _ else _) as [t4| |]; [|done|done]. cbn [rbind]. by destruct (remove_leaves t4 rm).
    + exfalso. eapply Hq; try done. destruct Z as [|[lz ez] Z]; [by left|right]. eexists _, _. split; [done|]. done.
    + by rewrite Hn.
    + by rewrite Hn.
Qed.

(** ** update_leaf *)
Theorem t_update_leaf_unwind t X l e Y e' : Tree t (X ++ (l, e) :: Y) -> evalid L e' ->
  exists t' u, update_leaf_u t l e' = Ok t' /\ poke t l e' = Some t' /\ Tree u (X ++ (l, e') :: Y) /\ SameButCaches u t' /\
    in_nodes t' = in_nodes t /\ root_cache t' = root_cache t /\
    (get_elem_cache e' = get_elem_cache e -> Tree t' (X ++ (l, e') :: Y)) /\
    (exists t2, recursive_update_cache t' (ALeaf l) false None = Ok t2 /\ Tree t2 (X ++ (l, e') :: Y)).
Proof.
  intros T Ve. destruct (tree_leaf L t X l e Y T) as [p Hl].
  destruct (t_poke L false t X l e Y e' None ltac:(done) T Ve ltac:(done)) as (t' & t2 & Ep & Er & T2).
  assert (Et : t' = set_lf t l (with_elem (mkLeaf e p) e')) by (unfold poke in Ep; rewrite Hl in Ep; by injection Ep as <-).
  assert (S1 : SH t t') by (subst t'; constructor; try done; intros x; rewrite llnk_set_lf; case_decide; [subst; cbn; unfold llnk; by rewrite Hl|done]).
  assert (E1 : forall x, el t' x = if decide (l = x) then Some e' else el t x) by (intros x; subst t'; by rewrite el_set_lf).
  pose proof (tree_nodup L _ _ T) as Hnd.
  destruct (t_repair L t _ t' (X ++ (l, e') :: Y) T S1) as (u & Tu & Su).
  { by rewrite !fmap_app. }
  { intros x ex Hx. rewrite E1. apply elem_of_app in Hx as [Hx|[[= -> ->]|Hx]%elem_of_cons]; [|by rewrite decide_True|].
    all: rewrite decide_False; [split; [apply (tree_in L _ _ _ _ T)|eapply (tree_valid L _ _ x ex T)]; clear -Hx; set_solver|].
    all: intros ->; rewrite fmap_app in Hnd; cbn in Hnd; apply (elem_of_list_fmap_1 fst) in Hx; cbn in Hx; apply NoDup_app in Hnd as (_ & Hd & [Hd2 _]%NoDup_cons).
    - apply (Hd _ Hx). left.
    - done. }
  exists t', u. split. { unfold update_leaf_u, get_lf. rewrite Hl. cbn. by subst t'. }
  split; [done|]. split; [done|]. split; [done|]. split; [by subst t'|]. split; [by subst t'|]. split.
  - intros Hc. destruct (t_poke_same L t X l e Y e' T Ve Hc) as (t3 & E3 & T3). congruence.
  - by exists t2.
Qed.
Theorem t_ulbs_unwind (Q : Query B) t X l e Y (q : QArg Q) off fd (s' : Qst Q) f :
  Tree t (X ++ (l, e) :: Y) -> Shallow t 10 -> query_with_finder_return Q t q = Ok (Some (mkQR (mkCur l off) fd), s') ->
  exists fnd, ulbs_u Q t q f = update_leaf_u t l (f e (mkQR (mkCur l off) fnd)).
Proof.
  intros T Sh Hq. destruct (shallow_OK L t _ 10 ltac:(lia) T Sh) as (H & lv & O & HH & Hc). pose proof (ok_wt _ _ _ _ O) as W.
  assert (He : el t l = Some e) by (apply (cont_el (H := H)); rewrite Hc; clear; set_solver).
  unfold query_with_finder_return in Hq. unfold ulbs_u, update_leaf_u. destruct (is_empty t) as [emp| |]; cbn [rbind] in *; try done. destruct emp; [done|].
  assert (Hlr : lv (raw (root t)) = H) by (destruct (wt_root W) as (r & -> & _ & Hr); done).
  destruct (ulbs_descend_ok Q t H lv q W _ (raw (root t)) 0 [] _ _ _ _ _ _ Hq) as (cpos & s1 & path' & lf & fnd & Ed & HU & Hgl & Hqc & Hfd);
    [apply (wt_root_live W)|rewrite <- (wt_root_id W); constructor|rewrite Hlr; cbn; lia|].
  rewrite <- (wt_root_id W) in Ed. rewrite Ed. cbn [rbind]. rewrite Hgl. cbn [rbind]. rewrite Hqc. exists fnd.
  destruct (get_lf_inv _ _ _ Hgl) as [He2 _]. rewrite He in He2. injection He2 as He2. by rewrite <- He2.
Qed.
End unwind.

(** ** iterating over a tree some of whose leaves are gone *)
Section gone.
Context {B : BTreeTrait}.
Notation btree := (btree B).
Context {t : btree} {H : nat} {lv : nat -> nat} (W : WT NoE t H lv) (K : LK t).
Context (t' : btree) (Ein : in_nodes t' = in_nodes t) (Ert : root t' = root t).

Lemma elems_of_children_dead cs l : ALeaf l ∈ map c_arena cs -> el t' l = None -> elems_of_children t' cs = Panic.
Proof using.
  clear. intros Hin Hl. induction cs as [|c cs IH]; [by apply elem_of_nil in Hin|]. cbn [elems_of_children].
  cbn [map] in Hin. destruct (c_arena c) as [x|m] eqn:Ea; [|done]. unfold get_leaf. cbn [unwrap_leaf rbind]. unfold get_lf.
  destruct (decide (x = l)) as [->|Hn].
  - unfold el in Hl. by destruct (a_get (leaf_nodes t') l).
  - destruct (a_get (leaf_nodes t') x) as [lf|]; [|done]. cbn [ropt rbind]. rewrite IH; [done|].
    apply elem_of_cons in Hin as [[= Hx]|Hin]; [by subst|done].
Qed.
Lemma elems_of_children_fuel cs : elems_of_children t' cs <> OutOfFuel.
Proof using.
  clear. induction cs as [|c cs IH]; [done|]. cbn [elems_of_children]. unfold get_leaf, get_lf. destruct (c_arena c) as [x|m]; [|done]. cbn [unwrap_leaf rbind].
  destruct (a_get (leaf_nodes t') x) as [lf|]; [|done]. cbn [ropt rbind]. by destruct (elems_of_children t' cs).
Qed.
Lemma gone_iter_f l Y : el t' l = None -> forall f path i X, rpath t (rev path) (AInt i) -> gen t H (root t) = X ++ AInt i :: Y ->
  length path = S H -> length Y < f -> ALeaf l ∈ (AInt i :: Y) ≫= achs t -> iter_f f t' path = Panic.
Proof using W K Ein.
  intros Hdead. induction Y as [|b Y IH]; intros f path i X Hr Hg Hl Hf Hin0; (destruct f as [|f]; [lia|]); cbn [iter_f].
  all: destruct (rpath_head _ _ _ Hr) as (k & r' & Er).
  all: assert (path = rev r' ++ [mkIdx (AInt i) k]) as Ep by (rewrite <- (rev_involutive path), Er; done).
  all: rewrite Ep at 1; rewrite last_snoc; cbn [ropt rbind i_arena]; unfold get_internal; cbn [unwrap_internal rbind].
  all: destruct (row_get W H i ltac:(rewrite Hg; clear; set_solver)) as (nd & Hgi & Hki & Hci).
  all: assert (get_in t' i = Ok nd) as -> by (unfold get_in in *; by rewrite Ein); cbn [rbind].
  all: destruct (decide (ALeaf l ∈ map c_arena (n_children nd))) as [Hd|Hd]; [by rewrite (elems_of_children_dead _ _ Hd Hdead)|].
  all: destruct (elems_of_children t' (n_children nd)) as [es| |] eqn:Ees; [|done|exfalso; by apply (elems_of_children_fuel _ Ees)]; cbn [rbind].
  all: assert (next_sibling t' path = next_sibling t path) as -> by (unfold next_sibling; by rewrite (next_sib_in t t' Ein)).
  all: pose proof (next_sibling_ok W K path (AInt i) H X _ Hr ltac:(lia) Hg Hl) as G; cbn in G.
  - exfalso. apply Hd. cbn [mbind list_bind achs] in Hin0. by rewrite app_nil_r, Hci in Hin0.
  - destruct G as (p2 & -> & Hp2). cbn [rbind].
    destruct (row_int W H ltac:(lia) b) as [j ->]; [rewrite Hg; clear; set_solver|].
    rewrite (IH f p2 j (X ++ [AInt i])); [done|done|by rewrite <- app_assoc| |cbn in Hf; lia|].
    + assert (AInt j ∈ gen t H (root t)) as Hj by (rewrite Hg; clear; set_solver).
      apply (row_live W) in Hj as [_ Hj]. apply (rpath_len W) in Hp2. rewrite rev_length in Hp2. lia.
    + cbn [mbind list_bind achs] in Hin0 |- *. rewrite Hci in Hin0. apply elem_of_app in Hin0 as [?|?]; done.
Qed.
Lemma first_path_same : first_path t' = first_path t.
Proof using Ein Ert.
  unfold first_path, get_internal. rewrite Ert. destruct (unwrap_internal (root t)) as [r| |]; [|done|done]. cbn [rbind].
  unfold get_in at 1 2, fuel. rewrite Ein. destruct (ropt _) as [rn| |]; [|done|done]. cbn [rbind]. destruct (n_is_empty rn); [done|].
  assert (forall f x acc, first_path_f f t' x acc = first_path_f f t x acc) as ->; [|done].
  induction f as [|f IH]; intros x acc; [done|]. cbn [first_path_f]. destruct (vec_push 10 acc _) as [acc'| |]; [|done|done]. cbn [rbind].
  destruct x as [l|i]; [done|]. unfold get_in. rewrite Ein. destruct (ropt (a_get (in_nodes t) i)) as [n| |]; [|done|done]. cbn [rbind].
  destruct (vec_get (n_children n) 0) as [c| |]; [|done|done]. cbn [rbind]. apply IH.
Qed.
Lemma gone_iter l : H <= 8 -> l ∈ leaves t -> el t' l = None -> BTree.iter t' = Panic.
Proof using W K Ein Ert.
  intros HH Hl Hdead. unfold BTree.iter. rewrite first_path_same.
  assert (Hlg : ALeaf l ∈ gen t (S H) (root t)) by (rewrite <- (leaves_gen W); by apply elem_of_list_fmap_1).
  destruct (decide (chs t (raw (root t)) = [])) as [He|He].
  - exfalso. rewrite (wt_root_id W) in Hlg. cbn [gen achs] in Hlg. rewrite He in Hlg. by apply elem_of_nil in Hlg.
  - destruct (first_path_ok W K He HH) as (r & l0 & Y & -> & Hr & Hg). cbn [rbind].
    destruct r as [|x r _] using rev_ind; [inversion Hr|]. rewrite removelast_last.
    rewrite rev_app_distr in Hr. cbn in Hr.
    inversion Hr as [E1|i a k p Hp Hk]; subst.
    { exfalso. rewrite (wt_root_id W) in *. done. }
    destruct (row_parent W H (ALeaf l0) [] Y Hg) as (q & X0 & Y0 & A & C & Hrow & Hc & HA & HY).
    symmetry in HA. apply app_nil in HA as [HX0 ->].
    assert (chs t q !! 0 = Some (ALeaf l0)) as Hq by (by rewrite Hc).
    destruct (wt_uniq W _ _ _ _ _ Hk Hq) as [-> ->].
    destruct (row_right W H q X0 Y0 Hrow ltac:(lia)) as [_ HX].
    assert (X0 = []) as ->.
    { destruct X0 as [|b X0]; [done|]. destruct (HX b) as (m & -> & Hm); [left|]. cbn in HX0. by apply app_nil in HX0 as [? _]. }
    pose proof (row_length W H ltac:(lia)) as Hrl. rewrite Hrow in Hrl. cbn in Hrl.
    apply (gone_iter_f l Y0 Hdead (fuel t') r q []); try done.
    + apply (rpath_len W) in Hp. rewrite rev_length in Hp. cbn in Hp.
      assert (AInt q ∈ gen t H (root t)) as Hj by (rewrite Hrow; clear; set_solver).
      apply (row_live W) in Hj as [_ Hj]. cbn in Hj. lia.
    + unfold fuel. rewrite Ein. lia.
    + by rewrite gen_S_r, Hrow in Hlg.
Qed.
End gone.

(** ** drains that are never dropped *)
Section leak.
Context {B : BTreeTrait} (L : Lawful B).
Notation btree := (btree B).
Notation Tree := (Tree L).
Implicit Types (t : btree).

(** a drain that is leaked (mem::forget) after [k] calls of next — iter.rs:21-125, the Drop of
    iter.rs:127-141 never runs; returns the elements handed out and the tree left behind *)
Definition drain_leak t (st en : option qresult) (k : nat) : res (list (Elem B) * btree) :=
  let? d := drain_new t st en in
  let? (es, d) := drain_take k d in
  Ok (es, dr_tree d).

Lemma drain_new2_inv t st en d : drain_new2 t st en = Ok d ->
  dr_tree d = t /\ dr_end d = en /\ dr_done d = false /\ get_path t (ALeaf (cu_leaf st)) = Ok (dr_path d).
Proof.
  unfold drain_new2. destruct (get_path t (ALeaf (cu_leaf st))) as [sp| |]; [|done|done]. cbn [rbind].
  destruct (match en with Some c => Ok (cu_leaf c) | None => _ end) as [le| |]; [|done|done]. cbn [rbind].
  destruct (get_path t (ALeaf le)) as [ep| |]; [|done|done]. cbn [rbind].
  destruct (ropt (last sp)) as [sl| |]; [|done|done]. cbn [rbind].
  destruct (if decide (cu_offset st = 0) then _ else _) as [bf| |]; [|done|done]. cbn [rbind].
  destruct (ropt (last ep)) as [ela| |]; [|done|done]. cbn [rbind].
  destruct (match en with Some e => _ | None => Ok None end) as [af| |]; [|done|done]. cbn [rbind]. by intros [= <-].
Qed.
Theorem t_leak t xs (a b : cursor) (ea eb : Elem B) (fa fb : bool) :
  Tree t xs -> Fits t a b -> (cu_leaf a, ea) ∈ xs -> cu_offset a <= rle_len ea -> (cu_leaf b, eb) ∈ xs -> cu_offset b <= rle_len eb ->
  cur_le xs a b -> (forall X, xs = X ++ [(cu_leaf a, ea)] -> cu_offset a = rle_len ea -> cu_offset a = 0) ->
  exists A Z A1 M t2, let fr n := anext (leaf_nodes t) <= n < anext (leaf_nodes t2) in
    cuts t a b = Ok t2 /\ Tree t2 (A1 ++ M ++ Z) /\ Cut fr xs b A Z /\ Cut fr (A ++ Z) a A1 (M ++ Z) /\
    forall k, exists t', drain_leak t (Some (mkQR a fa)) (Some (mkQR b fb)) k = Ok (snd <$> take k M, t') /\
      (k = 0 -> t' = t2) /\
      in_nodes t' = in_nodes t2 /\ root t' = root t2 /\ root_cache t' = root_cache t2 /\ anext (leaf_nodes t') = anext (leaf_nodes t2) /\
      (forall l, get_elem t' l = if decide (l ∈ (take k M).*1) then None else get_elem t2 l) /\
      (k <> 0 -> M <> [] -> BTree.iter t' = Panic).
Proof.
  intros T (t2' & Ec' & Sh) Ha Hoa Hb Hob Hle Hst. destruct a as [la oa]. destruct b as [lb ob]. cbn [cu_leaf cu_offset] in *.
  destruct (t_cut L t xs lb eb ob T Hb Hob) as (sie & t1 & A & Z & E1 & T1 & C1 & P1 & N1 & G1 & S1).
  pose proof (cut_before xs (mkCur la oa) _ _ A Z ea (tree_nodup L _ _ T) Hle C1 Ha Hoa) as Hpos. cbn [cu_leaf cu_offset] in Hpos.
  assert (exists ea', (la, ea') ∈ A ++ Z /\ oa <= rle_len ea') as (ea' & Ha' & Hoa').
  { destruct Hpos as [(ea' & Hx & Hy)|(-> & ea' & Hx)]; exists ea'; (split; [|first [done|lia]]).
    - clear -Hx; set_solver.
    - destruct Z; [done|]. injection Hx as ->. clear; set_solver. }
  destruct (t_cut L t1 (A ++ Z) la ea' oa T1 Ha' Hoa') as (sis & t2 & A1 & R1 & E2 & T2 & C2 & P2 & N2 & G2 & S2).
  destruct (cut_left A Z (mkCur la oa) _ A1 R1 (tree_nodup L _ _ T1) C2) as [M ->].
  { cbn [cu_leaf cu_offset]. destruct Hpos as [(? & ? & _)|?]; [left|right]; eauto. }
  assert (Hne : M ++ Z <> []).
  { intros HMZ. rewrite HMZ in C2. apply app_nil in HMZ as [-> ->].
    inversion C2 as [|X l e Y off Hz Hf EX E3 E4 E5|]; subst. rewrite app_nil_r in EX.
    inversion C1 as [|X' l' e' Y' off' Hz' Hf' EX' E3' E4' E5'|]; subst. pose proof (tree_nodup L _ _ T) as Hnd.
    rewrite E4' in Hst, Ha, Hnd.
    assert (ea = e) as -> by (eapply fst_lookup_unique; [exact Hnd|exact Ha|clear; set_solver]).
    apply Hz, (Hst X); [done|done]. }
  unfold cuts in Ec'. rewrite E1 in Ec'. cbn [rbind] in Ec'. rewrite E2 in Ec'. injection Ec' as <-.
  exists A, Z, A1, M, t2. cbn zeta.
  split. { unfold cuts. rewrite E1. cbn [rbind]. rewrite E2. done. }
  split; [done|].
  split; [eapply Cut_mono; [|exact C1]; cbn; intros; lia|]. split; [eapply Cut_mono; [|exact C2]; cbn; intros; lia|].
  destruct (drain_body_gen L t2 A1 M Z T2 Sh Hne) as (d & _ & _ & _ & (st & -> & Ed) & _).
  destruct (shallow_OK L t2 _ 9 ltac:(lia) T2 Sh) as (H & lv & O & HH & Hc).
  pose proof (ok_wt _ _ _ _ O) as W. pose proof (ok_lk _ _ _ _ O) as K. pose proof (tree_leaves L _ _ T2) as Hlv.
  destruct (head (M ++ Z)) as [[l0 e0]|] eqn:Hhd; [|destruct (M ++ Z); done]. cbn [fmap option_fmap option_map fst] in Ed.
  destruct (drain_new2_inv _ _ _ _ Ed) as (D1 & D2 & D3 & D4). cbn [cu_leaf] in D4.
  destruct (leaf_path W K l0) as (r & Hr & Er); [|lia|].
  { rewrite Hlv, fmap_app. destruct (M ++ Z) as [|y R]; [done|]. injection Hhd as ->. clear; set_solver. }
  rewrite Er in D4. injection D4 as D4.
  assert (D0 : DS (t := t2) M Z [] M (dr_store d) d).
  { constructor; [done|done|done|done|]. rewrite Hhd. split; [done|]. by rewrite <- D4, rev_involutive. }
  intros k. destruct (drain_take_ok W K A1 M Z Hlv ltac:(intros l e; apply (tree_in L _ _ _ _ T2)) k [] M _ d D0) as (d' & Et & D').
  exists (dr_tree d'). split.
  { unfold drain_leak, drain_new. cbn [qr_cursor]. rewrite E1. cbn [rbind]. rewrite E2. cbn [rbind]. rewrite P2, P1.
    cbn [fmap option_fmap option_map fst]. unfold drain_new2 in Ed. cbn [fst] in Ed. rewrite Ed. cbn [rbind]. rewrite Et. done. }
  rewrite (ds_tree _ _ _ _ _ _ D'). cbn [app].
  destruct (rem_all_root t2 (take k M).*1) as (Q1 & Q2 & Q3).
  split; [intros ->; by destruct M|]. split; [apply rem_all_in|]. split; [done|]. split; [done|]. split; [done|].
  split; [intros l; apply rem_all_el|]. intros Hk Hm.
  destruct M as [|[m em] M]; [done|]. destruct k as [|k]; [done|].
  apply (gone_iter W K _ (rem_all_in _ _) Q1 m); [lia|rewrite Hlv, !fmap_app; clear; set_solver|].
  rewrite rem_all_el, decide_True; [done|]. cbn [take fmap list_fmap fst]. left.
Qed.
End leak.
