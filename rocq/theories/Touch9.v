(** Touch9.v — how many arena entries an update of a range writes. *)
From Verif Require Export Touch7.
From Verif Require Import Upd Many Pos Thick.

Section dirty.
Context {B : BTreeTrait}.
Notation btree := (btree B).
Implicit Types (t : btree).

Lemma lts_size (l : list aidx) : size (list_to_set l : gset aidx) <= length l.
Proof.
  induction l as [|x l IH]; cbn [list_to_set length]; [by rewrite size_empty|]. rewrite size_union_alt, size_singleton.
  assert (size (list_to_set l ∖ {[x]} : gset aidx) <= size (list_to_set l : gset aidx)) by (apply subseteq_size; set_solver). lia.
Qed.
(** nodes at level [v] or higher *)
Definition Hi (lv : nat -> nat) (v : nat) (a : aidx) : Prop := match a with ALeaf _ => v = 0 | AInt i => v <= S (lv i) end.
Lemma dirty_step_to H lv v a t dm vs t' dm' vs' : dirty_step a (t, dm, vs) = Ok (t', dm', vs') -> Lev t H lv -> Hi lv v a ->
  Touched 1 t t' /\ Lev t' H lv /\ v <= S H /\ (vs' = vs \/ exists p, vs' = {[p]} ∪ vs /\ Hi lv (S v) p).
Proof.
  intros E HL Ha. unfold dirty_step in E. destruct a as [l|i]; cbn in Ha.
  - subst v. destruct (get_lf t l) as [lf| |]; cbn [rbind] in E; [|done..]. destruct (get_in t (l_parent lf)) as [pn| |] eqn:Gp; cbn [rbind] in E; [|done..].
    destruct (ropt _) as [d| |]; cbn [rbind] in E; [|done..].
    match type of E with rbind (rbind ?m _) _ = _ => destruct m as [t1| |] eqn:E1; cbn [rbind] in E; [|done..] end. injection E as <- _ <-.
    assert (Touched 1 t t1 /\ Lev t1 H lv) as [T1 L1].
    { destruct (find_index _ _) as [j|]; [|injection E1 as <-; split; [eapply to_le; [apply to_refl0|lia]|done]].
      destruct (apply_child_cache _ _ _) as [cs| |] eqn:Ec; cbn [rbind] in E1; [|done..]. injection E1 as <-. split; [apply to_set_in|].
      apply lev_set; [done|]. apply ln_arenas; [by eapply lev_get|]. by eapply apply_cache_ar. }
    split; [done|]. split; [done|]. split; [lia|]. right. exists (AInt (l_parent lf)). split; [done|]. cbn. lia.
  - destruct (get_in t i) as [n| |] eqn:G; cbn [rbind] in E; [|done..]. pose proof (lev_get _ _ _ _ _ HL G) as (N1 & N2 & N3 & N4 & N5).
    destruct (n_parent n) as [p|] eqn:Ep; cbn [rbind] in E.
    + destruct (unwrap_internal p) as [pi| |] eqn:Eu; cbn [rbind] in E; [|done..]. apply unwrap_int in Eu as ->. destruct (N4 pi eq_refl) as [Hp1 Hp2].
      destruct (calc_into_parent _ _ _ _ _) as [[d t1]| |] eqn:E1; cbn [rbind] in E; [|done..]. injection E as <- _ <-.
      destruct (calc_into_st H lv _ _ _ _ _ _ _ E1 HL) as (T1 & L1 & _). split; [done|]. split; [done|]. split; [lia|]. right. exists (AInt pi). split; [done|]. cbn. lia.
    + injection E as <- _ <-. split; [eapply to_le; [apply to_refl0|lia]|]. split; [done|]. split; [lia|by left].
Qed.
Lemma dirty_level_to H lv v xs : forall t dm vs t' dm' vs', dirty_level xs (t, dm, vs) = Ok (t', dm', vs') -> Lev t H lv -> (forall a, a ∈ xs -> Hi lv v a) -> (forall a, a ∈ vs -> Hi lv (S v) a) ->
  Touched (length xs) t t' /\ Lev t' H lv /\ (xs <> [] -> v <= S H) /\ size vs' <= size vs + length xs /\ forall a, a ∈ vs' -> Hi lv (S v) a.
Proof.
  induction xs as [|x xs IH]; intros t dm vs t' dm' vs' E HL Hx Hv; cbn [dirty_level] in E.
  - injection E as <- <- <-. split; [apply to_refl0|]. split; [done|]. split; [done|]. split; [lia|done].
  - destruct (dirty_step x (t, dm, vs)) as [[[t1 dm1] vs1]| |] eqn:E1; cbn [rbind] in E; [|done..].
    destruct (dirty_step_to H lv v x _ _ _ _ _ _ E1 HL) as (T1 & L1 & Hv1 & Hvs); [apply Hx; left|].
    assert (size vs1 <= S (size vs) /\ forall a, a ∈ vs1 -> Hi lv (S v) a) as [Hs1 Hh1].
    { destruct Hvs as [->|(p & -> & Hp)]; [split; [lia|done]|]. split.
      - rewrite size_union_alt, size_singleton. assert (size (vs ∖ {[p]}) <= size vs) by (apply subseteq_size; set_solver). lia.
      - intros a [->%elem_of_singleton|Ha]%elem_of_union; [done|by apply Hv]. }
    destruct (IH _ _ _ _ _ _ E L1) as (T2 & L2 & _ & Hs & Hh); [intros a Ha; apply Hx; by right|done|].
    split; [exact (Touch.to_trans 1 (length xs) _ _ _ T1 T2)|]. split; [done|]. split; [done|]. split; [cbn [length]; lia|done].
Qed.
Lemma dirty_f_to H lv ord n (Hord : forall l, ord l ≡ₚ l) f : forall v t dm vs t', dirty_f ord f t dm vs = Ok t' -> Lev t H lv -> size vs <= n -> (forall a, a ∈ vs -> Hi lv v a) ->
  Touched ((S (S H) - v) * n) t t' /\ Lev t' H lv.
Proof.
  induction f as [|f IH]; intros v t dm vs t' E HL Hn Hv; cbn [dirty_f] in E; (case_decide as D; [injection E as <-; split; [eapply to_le; [apply to_refl0|apply Nat.le_0_l]|done]|]); [done|].
  destruct (dirty_level _ _) as [[[t1 dm1] vs1]| |] eqn:E1; cbn [rbind] in E; [|done..].
  assert (Hlen : length (ord (elements vs)) = size vs) by (by rewrite (Permutation_length (Hord _))).
  destruct (dirty_level_to H lv v _ _ _ _ _ _ _ E1 HL) as (T1 & L1 & Hv1 & Hs & Hh).
  { intros a Ha. apply Hv. rewrite (Hord _) in Ha. by apply elem_of_elements. }
  { intros a Ha. by apply elem_of_empty in Ha. }
  rewrite size_empty in Hs. destruct (IH (S v) t1 dm1 vs1 t' E L1) as [T2 L2]; [lia|done|]. split; [|done].
  assert (v <= S H). { apply Hv1. intros Hx. rewrite Hx in Hlen. cbn in Hlen. apply D. by apply leibniz_equiv, size_empty_inv. }
  eapply to_le; [eapply Touch.to_trans; [exact T1|exact T2]|]. rewrite Hlen. replace (S (S H) - v) with (S (S (S H) - S v)) by lia. cbn [Nat.mul]. lia.
Qed.
Lemma dirty_map_to H lv ord n (Hord : forall l, ord l ≡ₚ l) t dm t' : update_dirty_cache_map ord t dm = Ok t' -> Lev t H lv -> size (dom dm : gset aidx) <= n ->
  (forall a, is_Some (dm !! a) -> exists l, a = ALeaf l) -> Touched ((H + 2) * n) t t'.
Proof.
  unfold update_dirty_cache_map. intros E HL Hn Hd. destruct (dirty_f _ _ _ _ _) as [t1| |] eqn:E1; cbn [rbind] in E; [|done..].
  destruct (dirty_f_to H lv ord n Hord _ 0 _ _ _ _ E1 HL Hn) as [T1 L1].
  { intros a Ha. apply elem_of_dom in Ha. by destruct (Hd a Ha) as [l ->]. }
  destruct (calc_root_st H lv _ _ _ E L1) as (T2 & _). eapply to_le; [eapply Touch.to_trans; [exact T1|exact T2]|]. replace (S (S H) - 0) with (H + 2) by lia. lia.
Qed.
Lemma update_loop_in {S0 : Type} (fu : S0 -> Elem B -> S0 * Elem B * option (Diff B)) f : forall t path en s dm rm s' t' dm' rm',
  update_loop fu f t path en s dm rm = Ok (s', t', dm', rm') -> in_nodes t' = in_nodes t.
Proof.
  induction f as [|f IH]; intros t path en s dm rm s' t' dm' rm'; [done|]. cbn [update_loop]. intros E.
  destruct (ropt _) as [cl| |]; cbn [rbind] in E; [|done..]. destruct (unwrap_leaf _) as [l| |]; cbn [rbind] in E; [|done..].
  case_bool_decide; [by injection E as _ <- _ _|]. destruct (get_lf t l) as [lf| |]; cbn [rbind] in E; [|done..].
  destruct (fu s (l_elem lf)) as [[s1 e'] od]. cbv zeta in E.
  match type of E with rbind ?m _ = _ => destruct m as [[pth|]| |]; cbn [rbind] in E; [| |done..] end; [|by injection E as _ <- _ _].
  by rewrite (IH _ _ _ _ _ _ _ _ _ _ E).
Qed.
End dirty.

Section range.
Context {B : BTreeTrait} (L : Lawful B).
Notation btree := (btree B).
Notation Tree := (Tree L).
Notation OK := (OK L).
Implicit Types (t : btree) (i j m q : nat) (a b : aidx).

Lemma remove_leaves_to k rm : 1 <= k -> forall t xs t', rm = [] \/ mono L = true -> Tree t xs -> NoDup rm -> (forall a, a ∈ rm -> exists l, a = ALeaf l /\ l ∈ xs.*1) ->
  MDw true t -> length xs <= 5 ^ k -> remove_leaves t rm = Ok t' -> Touched (length rm * (31 * k + 1)) t t'.
Proof.
  intros Hk. induction rm as [|a rm IH]; intros t xs t' Hm T Hnd Hin M Hl E; cbn [remove_leaves] in E; [injection E as <-; apply to_refl0|].
  destruct Hm as [|Hm]; [done|]. apply NoDup_cons in Hnd as [Ha Hnd]. destruct (Hin a ltac:(left)) as (l & -> & Hll).
  apply elem_of_list_fmap in Hll as ([? e] & [= <-] & Hll). apply elem_of_list_split in Hll as (X & Y & ->).
  destruct (t_remove L t X l e Y 0 T (or_introl Hm)) as (t1 & E1 & T1 & M1 & A1). cbn [raw] in E. rewrite E1 in E. cbn [rbind] in E.
  pose proof (log_remove L t _ k _ _ _ T M Hk Hl E1) as To1.
  assert (To2 : Touched (length rm * (31 * k + 1)) t1 t').
  { eapply (IH t1 (X ++ Y)); [by right|done|done| |by apply M1| |done].
    - intros b Hb. destruct (Hin b ltac:(by right)) as (l' & -> & Hl'). exists l'. split; [done|].
      rewrite !fmap_app in Hl' |- *. cbn in Hl'. apply elem_of_app in Hl' as [H|[->|H]%elem_of_cons]; [clear -H; set_solver|done|clear -H; set_solver].
    - rewrite app_length in *. cbn [length] in Hl. lia. }
  exact (Touch.to_trans _ _ _ _ _ To1 To2).
Qed.
Lemma update_body_to {S0} (fu : S0 -> Elem B -> S0 * Elem B * option (Diff B)) ord t A1 M Z s st en k s' t' :
  Tree t (A1 ++ M ++ Z) -> Shallow t 9 -> (forall l, ord l ≡ₚ l) -> upd_sound L fu ->
  st = (fun y => mkCur (fst y) 0) <$> head (M ++ Z) -> en = (fun y => mkCur (fst y) 0) <$> head Z ->
  MDw true t -> 1 <= k -> length (A1 ++ M ++ Z) <= 5 ^ k ->
  (match st with
   | None => Ok (s, t)
   | Some st =>
      let? path := get_path t (ALeaf (cu_leaf st)) in
      let? (s, t, dm, rm) := update_loop fu (S (anext (leaf_nodes t))) t path en s ∅ [] in
      let? t := if decide (dm = ∅) then calc_root t None else update_dirty_cache_map ord t dm in
      let? t := remove_leaves t rm in
      Ok (s, t)
   end) = Ok (s', t') -> Touched (length M * (32 * k + 3)) t t'.
Proof.
  intros T Sh Hord Hfu -> -> Md Hk1 Hlen E. destruct (shallow_OK L t _ 9 ltac:(lia) T Sh) as (H & lv & O & HH & Hc).
  pose proof (ok_wt _ _ _ _ O) as W. pose proof (ok_lk _ _ _ _ O) as K.
  assert (Hlv : leaves t = (A1 ++ M ++ Z).*1).
  { rewrite <- (Tree_elems L _ _ T). unfold elems. pose proof (leaves_live W) as Hl. clear -Hl.
    assert (Forall (fun l => is_Some (el t l)) (leaves t)) as F by (apply Forall_forall; intros x; apply Hl). clear Hl.
    induction F as [|l ls [e He] F IH]; [done|]. cbn. rewrite He. cbn. f_equal. exact IH. }
  assert (Hel : forall l e, (l, e) ∈ A1 ++ M ++ Z -> el t l = Some e).
  { intros l e. apply (tree_in L _ _ _ _ T). }
  pose proof (lev_ok L _ _ _ O) as HL. assert (HHk : A1 ++ M ++ Z <> [] -> S H <= k).
  { intros Hne. destruct (decide (S H <= k)); [done|]. exfalso. pose proof (content_cont _ _ _ W) as Hco. rewrite Hc in Hco.
    pose proof (thick_log L t _ (S H) T Md Hco ltac:(lia) Hne) as Hm.
    assert (5 ^ k <= 5 ^ (S H - 1)) as Hp by (apply Nat.pow_le_mono_r; lia). apply (Nat.lt_irrefl (@length (nat * Elem B) (A1 ++ M ++ Z))).
    eapply Nat.le_lt_trans; [exact Hlen|]. eapply Nat.le_lt_trans; [exact Hp|exact Hm]. }
  destruct M as [|[l0 e0] M].
  { cbn [app] in *. eapply to_le; [|apply Nat.le_0_l]. destruct Z as [|[lz ez] Z].
    { injection E as _ <-. apply to_refl0. }
    cbn [head fmap option_fmap option_map fst cu_leaf] in E.
    destruct (leaf_path W K lz) as (r & Hr & Ep); [rewrite Hlv, fmap_app; clear; set_solver|lia|]. rewrite Ep in E. cbn [rbind] in E.
    destruct (rpath_head _ _ _ Hr) as (k0 & r' & Er). cbn [update_loop] in E.
    assert (last (rev r) = Some (mkIdx (ALeaf lz) k0)) as Els by (rewrite Er; cbn; by rewrite last_snoc). rewrite Els in E.
    cbn [ropt rbind i_arena unwrap_leaf] in E. rewrite bool_decide_eq_true_2 in E by done. cbn [rbind] in E. rewrite decide_True in E by done.
    destruct (calc_root t None) as [t1| |] eqn:E1; cbn [rbind remove_leaves] in E; [|done..]. injection E as _ <-. by destruct (calc_root_st H lv _ _ _ E1 HL). }
  cbn [head app fmap option_fmap option_map fst cu_leaf] in E. set (M0 := (l0, e0) :: M) in *.
  destruct (leaf_path W K l0) as (r & Hr & Ep); [rewrite Hlv, !fmap_app; clear; set_solver|lia|]. rewrite Ep in E. cbn [rbind] in E.
  destruct (update_loop_ok fu H lv M t A1.*1 Z.*1 l0 e0 (rev r) s ∅ [] (S (anext (leaf_nodes t)))
     ((fun y : nat * Elem B => mkCur y.1 0) <$> head Z) W K) as (t2 & dm & El & S2 & K2 & Hr2 & Ho2 & Dm2).
  { by rewrite Hlv, !fmap_app. }
  { intros l e Hl. apply Hel. fold M0 in Hl. clear -Hl; set_solver. }
  { by rewrite rev_involutive. }
  { by destruct Z. }
  { pose proof (leaves_length W) as Hx. rewrite Hlv, fmap_length, !app_length in Hx. cbn in Hx. destruct Z; cbn in Hx; lia. }
  pose proof (update_loop_in fu _ _ _ _ _ _ _ _ _ _ _ El) as Ein.
  rewrite El in E. cbn [rbind] in E. fold M0 in Hr2, Ho2, Dm2, E |- *. clear El. change ((upd_run fu s ((l0, e0) :: M))) with (upd_run fu s M0) in *.
  assert (To2 : Touched (length M0) t t2).
  { exists (map ALeaf M0.*1). split; [by rewrite map_length, fmap_length|]. intros [l|i] Ha; cbn; [|by rewrite Ein].
    assert (l ∉ M0.*1) as Hl by (intros Hx; apply Ha; by apply elem_of_list_fmap_1). pose proof (Ho2 l Hl) as H1. pose proof (sh_llnk S2 l) as H2. unfold el, llnk in H1, H2.
    destruct (a_get (leaf_nodes t2) l) as [[x1 x2]|], (a_get (leaf_nodes t) l) as [[y1 y2]|]; cbn in *; congruence. }
  assert (HL2 : Lev t2 H lv) by (by apply (lev_same t)).
  assert (Hsz : size (dom dm : gset aidx) <= length M0).
  { transitivity (size (list_to_set (map ALeaf M0.*1) : gset aidx)); [|etrans; [apply lts_size|by rewrite map_length, fmap_length]].
    apply subseteq_size. intros x [d Hx]%elem_of_dom. apply elem_of_list_to_set. destruct (decide (x ∈ map ALeaf M0.*1)) as [|Hn]; [done|].
    rewrite Dm2, lookup_empty in Hx; [done|]. intros l Hl ->. apply Hn. by apply elem_of_list_fmap_1. }
  destruct (upd_run fu s M0) as [s2 rr] eqn:Erun. cbn [fst snd] in *.
  assert (Hids : rr.*1.*1 = M0.*1) by (pose proof (upd_run_ids fu s M0) as Hx; by rewrite Erun in Hx).
  assert (HVM : Forall (fun x : nat * Elem B => evalid L x.2) M0).
  { apply Forall_forall. intros [l e] Hl. apply (va_el _ _ (ok_va _ _ _ _ O) l). apply Hel. clear -Hl; set_solver. }
  assert (Hrun : forall l e' od, (l, e', od) ∈ rr -> exists e, (l, e) ∈ M0 /\ evalid L e' /\
    match od with Some d => drel L (get_elem_cache e) d (get_elem_cache e') | None => get_elem_cache e' = get_elem_cache e end).
  { intros l e' od Hin. apply (upd_run_el L fu Hfu M0 s l e' od HVM). by rewrite Erun. }
  pose proof (tree_nodup L _ _ T) as Hnd.
  assert (Hin2 : forall l, l ∈ M0.*1 -> exists e' od, (l, e', od) ∈ rr).
  { intros l Hl. rewrite <- Hids in Hl. apply elem_of_list_fmap in Hl as ([l' e'] & [= <-] & Hl).
    apply elem_of_list_fmap in Hl as ([[l' e''] od] & [= <- <-] & Hl). eauto. }
  assert (V2 : VA L t2).
  { constructor.
    - intros l e Hl. destruct (decide (l ∈ M0.*1)) as [Hi|Hi].
      + destruct (Hin2 l Hi) as (e' & od & Hx). destruct (Hr2 _ _ _ Hx) as [He' _]. destruct (Hrun _ _ _ Hx) as (_ & _ & Hv & _). congruence.
      + rewrite Ho2 in Hl by done. by eapply (va_el _ _ (ok_va _ _ _ _ O)).
    - intros p cs c. rewrite K2. apply (va_ch _ _ (ok_va _ _ _ _ O)). }
  assert (D2 : DMI L t2 dm).
  { intros p cs c Hkc Hcc. rewrite K2 in Hkc. pose proof (ok_co _ _ _ _ O p cs c Hkc Hcc ltac:(by intros [])) as Hco.
    destruct (c_arena c) as [l|m] eqn:Ea.
    - destruct (decide (l ∈ M0.*1)) as [Hi|Hi].
      + destruct (Hin2 l Hi) as (e' & od & Hx). destruct (Hr2 _ _ _ Hx) as [He' Hd']. destruct (Hrun _ _ _ Hx) as (e & He & _ & Hd).
        rewrite Hd', (act_leaf _ _ _ _ He'), Hco, (act_leaf _ _ _ e); [|apply Hel; clear -He; set_solver].
        destruct od; [done|]. rewrite lookup_empty. done.
      + rewrite Dm2, lookup_empty, Hco by (intros l' Hl' [= ->]; done). unfold act. by rewrite Ho2.
    - rewrite Dm2, lookup_empty, Hco by done. unfold act. by rewrite K2. }
  assert (Hdl : forall a, is_Some (dm !! a) -> exists l, a = ALeaf l /\ is_Some (el t2 l)).
  { intros a Ha. destruct a as [l|m]; [|exfalso; rewrite Dm2, lookup_empty in Ha by done; by destruct Ha].
    exists l. split; [done|]. destruct (decide (l ∈ M0.*1)) as [Hi|Hi].
    - destruct (Hin2 l Hi) as (e' & od & Hx). destruct (Hr2 _ _ _ Hx) as [He' _]. eauto.
    - exfalso. rewrite Dm2, lookup_empty in Ha by (intros l' Hl' [= ->]; done). by destruct Ha. }
  assert (Hne : chs t2 (raw (root t2)) <> []).
  { rewrite (sh_chs S2), (sh_root S2). intros He. assert (leaves t = []) as Hn.
    { rewrite (leaves_raw W), (wt_root_id W). cbn [gen achs]. by rewrite He. }
    rewrite Hlv, !fmap_app in Hn. apply app_nil in Hn as [_ Hn]. done. }
  pose proof (SH_WT _ _ _ _ _ S2 W) as W2. pose proof (SH_LK _ _ S2 K) as K2'. pose proof (SH_SZ _ _ 11 S2 (ok_sz _ _ _ _ O)) as Z2.
  assert (exists t3, (if decide (dm = ∅) then calc_root t2 None else update_dirty_cache_map ord t2 dm) = Ok t3 /\ OK t3 H lv /\ SH t2 t3 /\
    (forall z, el t3 z = el t2 z)) as (t3 & E3 & O3 & S3 & El3).
  { case_decide as Ed.
    - destruct (calc_root_ok L NoE t2 H lv W2 V2 (or_introl Hne)) as (t3 & E3 & ->). eexists. split; [exact E3|].
      set (t3 := set_root_cache t2 _). assert (S3 : SH t2 t3) by (by constructor). split; [|done].
      constructor; [by eapply SH_WT|by eapply SH_LK|by eapply SH_SZ| |done|constructor; apply V2].
      intros p cs c Hkc Hcc _. specialize (D2 p cs c Hkc Hcc). rewrite Ed, lookup_empty in D2. exact D2.
    - by apply dirty_ok. }
  assert (To3 : Touched ((H + 2) * length M0) t2 t3).
  { clear E. case_decide as Ed.
    - eapply to_le; [by destruct (calc_root_st H lv _ _ _ E3 HL2)|apply Nat.le_0_l].
    - eapply (dirty_map_to H lv ord); try done. intros a Ha. destruct (Hdl a Ha) as (l & -> & _). by exists l. }
  rewrite E3 in E. cbn [rbind] in E.
  set (ys := A1 ++ map fst rr ++ Z).
  assert (T3 : Tree t3 ys).
  { pose proof (OK_Tree L _ _ _ O3) as T3. replace ys with (cont t3 H); [done|].
    rewrite <- (Tree_elems L _ _ T3). unfold elems.
    assert (leaves t3 = ys.*1) as ->.
    { rewrite (leaves_raw (ok_wt _ _ _ _ O3)), (SH_gen _ _ S3), (SH_gen _ _ S2), (sh_root S3), (sh_root S2), <- (leaves_raw W), Hlv.
      unfold ys. rewrite !fmap_app. by rewrite <- Hids. }
    apply elems_of. intros l e Hl. rewrite El3. unfold ys in Hl. rewrite !elem_of_app in Hl.
    rewrite !fmap_app in Hnd. apply NoDup_app in Hnd as (_ & Hn1 & Hn2). apply NoDup_app in Hn2 as (_ & Hn2 & _).
    destruct Hl as [Hl|[Hl|Hl]].
    - rewrite Ho2; [apply Hel; clear -Hl; set_solver|]. intros Hx. apply (Hn1 l); [by apply (elem_of_list_fmap_1 fst) in Hl|clear -Hx; set_solver].
    - apply elem_of_list_fmap in Hl as ([[l' e'] od] & [= -> ->] & Hl). by destruct (Hr2 _ _ _ Hl).
    - rewrite Ho2; [apply Hel; clear -Hl; set_solver|]. intros Hx. apply (Hn2 l); [done|by apply (elem_of_list_fmap_1 fst) in Hl]. }
  pose proof (tree_nodup L _ _ T3) as Hnd3.
  cbn [app] in E. destruct (remove_leaves t3 (rm_of rr)) as [t4| |] eqn:E4; cbn [rbind] in E; [|done..]. injection E as _ <-.
  assert (To4 : Touched (length (rm_of rr) * (31 * k + 1)) t3 t4).
  { apply (remove_leaves_to k (rm_of rr) Hk1 t3 ys t4).
  { unfold rm_of. destruct (filter _ rr) as [|[[l e'] od] fs] eqn:Ef; [by left|right].
    assert ((l, e', od) ∈ filter (fun x : nat * Elem B * option (Diff B) => can_remove x.1.2 = true) rr) as Hx by (rewrite Ef; left).
    apply elem_of_list_filter in Hx as [Hx1 Hx2]. destruct (Hrun _ _ _ Hx2) as (_ & _ & Hv & _). by destruct (lw_rm _ L e' Hv Hx1). }
  { exact T3. }
  { unfold rm_of. assert (NoDup rr.*1.*1) as Hn.
    { rewrite Hids. rewrite !fmap_app in Hnd. apply NoDup_app in Hnd as (_ & _ & Hn2). by apply NoDup_app in Hn2 as (? & _). }
    clear -Hn. induction rr as [|[[l e'] od] rr IH]; [constructor|]. cbn in Hn. apply NoDup_cons in Hn as [Hl Hn]. rewrite filter_cons.
    case_decide; [|by apply IH]. cbn [map]. apply NoDup_cons. split; [|by apply IH].
    intros ([[l' e''] od'] & [= <-] & Hx)%elem_of_list_fmap. apply elem_of_list_filter in Hx as [_ Hx]. apply Hl. rewrite <- list_fmap_compose.
    by apply (elem_of_list_fmap_1 (fst ∘ fst)) in Hx. }
  { intros a ([[l e'] od] & -> & Hx)%elem_of_list_fmap. exists l. split; [done|]. apply elem_of_list_filter in Hx as [_ Hx].
    unfold ys. rewrite !fmap_app, !elem_of_app. right; left. apply (elem_of_list_fmap_1 (fst ∘ fst)) in Hx. by rewrite list_fmap_compose in Hx. }
    - apply (MD_SH true t2 t3 S3), (MD_SH true t t2 S2), Md.
    - unfold ys. rewrite !app_length, map_length. apply (f_equal length) in Hids. rewrite !fmap_length in Hids. rewrite Hids. by rewrite !app_length in Hlen.
    - exact E4. }
  assert (Hrm : length (rm_of rr) <= length M0).
  { apply (f_equal length) in Hids. rewrite !fmap_length in Hids. rewrite <- Hids. unfold rm_of. rewrite map_length. apply filter_length. }
  specialize (HHk ltac:(by destruct A1)). pose proof (Nat.mul_le_mono_r _ _ (31 * k + 1) Hrm). pose proof (Nat.mul_le_mono_r (H + 2) (k + 1) (length M0) ltac:(lia)).
  eapply to_le; [eapply Touch.to_trans; [eapply Touch.to_trans; [exact To2|exact To3]|exact To4]|]. lia.
Qed.
Lemma cut_len fr xs cur (A Z : list (nat * Elem B)) : Cut fr xs cur A Z -> length (A ++ Z) <= length xs + 1.
Proof. intros []; rewrite !app_length; cbn [length]; lia. Qed.
Lemma cut_to t xs l e off si t' k : Tree t xs -> (l, e) ∈ xs -> MDw true t -> 1 <= k -> length xs <= 5 ^ k -> split_leaf_if_needed t (mkCur l off) = Ok (si, t') -> Touched (28 * k + 6) t t'.
Proof.
  intros T Hin M Hk Hl E. destruct (thick_d L t xs k T M Hk Hl) as (d & Hd & Hdk). destruct (tree_ok_d L t d xs T Hd) as (H & lv & O & -> & _); [by intros ->; apply elem_of_nil in Hin|].
  destruct (sl_to L t H lv _ _ _ O E) as (_ & _ & _ & _ & To). eapply to_le; [exact To|lia].
Qed.
Theorem update_to {S0} (fu : S0 -> Elem B -> S0 * Elem B * option (Diff B)) ord t xs (a b : cursor) ea eb s k r t' :
  Tree t xs -> (cu_leaf a, ea) ∈ xs -> cu_offset a <= rle_len ea -> (cu_leaf b, eb) ∈ xs -> cu_offset b <= rle_len eb ->
  cur_le xs a b -> (forall l, ord l ≡ₚ l) -> upd_sound L fu -> MDw true t -> 1 <= k -> length xs + 2 <= 5 ^ k ->
  update ord t a b fu s = Ok (r, t') ->
  exists A Z A1 M, Cut (fun n => anext (leaf_nodes t) <= n) xs b A Z /\ Cut (fun n => anext (leaf_nodes t) <= n) (A ++ Z) a A1 (M ++ Z) /\
    Touched (56 * k + 12 + length M * (32 * k + 3)) t t'.
Proof.
  intros T Ha Hoa Hb Hob Hle Hord Hfu Md Hk Hlen E. destruct a as [la oa]. destruct b as [lb ob]. cbn [cu_leaf cu_offset] in *.
  destruct (t_cut L t xs lb eb ob T Hb Hob) as (sie & t1 & A & Z & E1 & T1 & C1 & P1 & N1 & G1 & S1).
  pose proof (cut_before xs (mkCur la oa) _ _ A Z ea (tree_nodup L _ _ T) Hle C1 Ha Hoa) as Hpos. cbn [cu_leaf cu_offset] in Hpos.
  assert (exists ea', (la, ea') ∈ A ++ Z /\ oa <= rle_len ea') as (ea' & Ha' & Hoa').
  { destruct Hpos as [(ea' & Hx & Hy)|(-> & ea' & Hx)]; exists ea'; (split; [|first [done|lia]]).
    - clear -Hx; set_solver.
    - destruct Z; [done|]. injection Hx as ->. clear; set_solver. }
  destruct (t_cut L t1 (A ++ Z) la ea' oa T1 Ha' Hoa') as (sis & t2 & A1 & R1 & E2 & T2 & C2 & P2 & N2 & G2 & S2).
  destruct (cut_left A Z (mkCur la oa) _ A1 R1 (tree_nodup L _ _ T1) C2) as [M ->].
  { cbn [cu_leaf cu_offset]. destruct Hpos as [(? & ? & _)|?]; [left|right]; eauto. }
  exists A, Z, A1, M. split; [eapply Cut_mono; [|exact C1]; cbn; intros; lia|]. split; [eapply Cut_mono; [|exact C2]; cbn; intros; lia|].
  pose proof (cut_len _ _ _ _ _ C1) as Hl1. pose proof (cut_len _ _ _ _ _ C2) as Hl2.
  pose proof (md_cut L _ _ _ _ _ _ _ T Hb Hob E1 Md) as Md1. pose proof (md_cut L _ _ _ _ _ _ _ T1 Ha' Hoa' E2 Md1) as Md2.
  pose proof (cut_to _ _ _ _ _ _ _ k T Hb Md Hk ltac:(lia) E1) as To1. pose proof (cut_to _ _ _ _ _ _ _ k T1 Ha' Md1 Hk ltac:(lia) E2) as To2.
  enough (To3 : Touched (length M * (32 * k + 3)) t2 t').
  { eapply to_le; [eapply Touch.to_trans; [eapply Touch.to_trans; [exact To1|exact To2]|exact To3]|]. lia. }
  unfold update in E. rewrite E1 in E. cbn [rbind] in E. destruct (sl_push_option [] _) as [sl| |]; cbn [rbind] in E; [|done..].
  rewrite E2 in E. cbn [rbind] in E. destruct (sl_push_option sl _) as [sl'| |]; cbn [rbind] in E; [|done..].
  destruct (decide (M ++ Z = [])) as [HMZ|HMZ].
  { rewrite P2, HMZ in E. cbn in E. injection E as _ <-. eapply to_le; [apply to_refl0|apply Nat.le_0_l]. }
  assert (Sh : Shallow t2 9).
  { destruct (Tree_OK L _ _ T2) as (H & lv & O & Hc). pose proof (ok_wt _ _ _ _ O) as W. destruct (decide (S H <= 9)) as [HH|HH].
    - exists (S H), (cont t2 H). split; [by eapply content_cont|done].
    - exfalso. rewrite P2 in E. destruct (M ++ Z) as [|[lm em] R] eqn:EMZ; [done|]. cbn [head fmap option_fmap option_map cu_leaf fst] in E.
      assert (lm ∈ leaves t2) as Hll by (rewrite (tree_leaves L _ _ T2), fmap_app; apply elem_of_app; right; left). apply (leaves_live W) in Hll.
      destruct (rpath_exists W (ALeaf lm) Hll) as [r0 Hr]. pose proof (rpath_len W _ _ Hr) as Hlr. cbn in Hlr.
      assert (get_path t2 (ALeaf lm) = Panic) as Ep by (eapply (get_path_panic W (ok_lk _ _ _ _ O)); [exact Hr|lia]). rewrite Ep in E. done. }
  destruct r as [slr sr]. eapply (update_body_to fu ord t2 A1 M Z s _ _ k sr t' T2 Sh Hord Hfu P2 P1 Md2 Hk ltac:(lia)).
  destruct (si_new_pos sis) as [st|]; [|injection E as _ <- <-; reflexivity].
  destruct (get_path t2 _) as [path| |]; [|done|done]. cbn [rbind] in *.
  destruct (update_loop _ _ _ _ _ _ _ _) as [[[[s1 t3] dm] rm]| |]; [|done|done]. cbn [rbind] in *.
  destruct (if decide (dm = ∅) then _ else _) as [t4| |]; [|done|done]. cbn [rbind] in *.
  destruct (remove_leaves t4 rm) as [t5| |]; [|done|done]. cbn [rbind] in *. injection E as _ <- <-. reflexivity.
Qed.
End range.
