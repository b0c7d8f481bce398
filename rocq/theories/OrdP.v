(** OrdP.v — the ordered map (generic_impl/ord.rs): key search, insertion, deletion. *)
From Coq Require Export Sorted.
From Verif Require Export Query OrdMap Inst.

(** a replacement below one parent, finished by an update of that parent's aggregate *)
Section fin.
Context {B : BTreeTrait} (L : Lawful B).
Notation btree := (btree B).
Notation child := (child B).
Implicit Types (t : btree) (p l : nat) (c : child).
Lemma rp_finish_int t t' H lv p l e A c Z N (N' : list child) :
  OK L t H lv -> lv p = 0 -> el t l = Some e -> RP t t' p l A c Z N N' -> N' <> [] ->
  (forall c0, c0 ∈ N' -> c_cache c0 = act L t' (c_arena c0)) ->
  (forall x e, (x, e) ∈ N -> evalid L e) -> (forall c0, c0 ∈ N' -> cvalid L (c_cache c0)) ->
  length (A ++ N' ++ Z) <= 12 ->
  exists t'' H'' lv'',
    (let? t := recursive_update_cache t' (AInt p) (USE_DIFF (b := B)) None in
     if bool_decide (12 <= length (A ++ N' ++ Z)) then BTree.split t (AInt p) else Ok t) = Ok t'' /\ OK L t'' H'' lv'' /\
    (forall X Y, cont t H = X ++ (l, e) :: Y -> cont t'' H'' = X ++ N ++ Y) /\
    (forall x, el t'' x = el t' x) /\ (forall w, MDw w t -> MDw w t'') /\ anext (leaf_nodes t') <= anext (leaf_nodes t'').
Proof.
  intros O Hlp He R Hne Hnew Hev Hcv Hlen. destruct O as [W K Z11 C HR V].
  pose proof (rp_ED L W K Hlp R) as D.
  assert (W' : WT NoE t' H lv).
  { apply (ed_WT_ne W Hlp D). destruct A; [|done]. by destruct N'. }
  assert (Hch : chs t' p = map c_arena (A ++ N' ++ Z)) by exact (chs_kids _ _ _ (rp_p' _ _ _ _ _ _ _ _ _ R)).
  destruct (finish_int L t' H lv p None (bool_decide (12 <= length (A ++ N' ++ Z))))
    as (t'' & H'' & lv'' & E2 & O2 & C2 & El2 & M2 & Al2); try done.
  - by apply (ed_LK W D).
  - rewrite (rp_p' _ _ _ _ _ _ _ _ _ R). eauto.
  - rewrite Hch. destruct A; [|done]. by destruct N'.
  - by eapply (rp_CO_all L W K Hlp R).
  - by eapply (rp_VA L W K Hlp R).
  - by apply (ed_RC1 L W D).
  - intros j Hj. unfold chs. rewrite (rp_other _ _ _ _ _ _ _ _ _ R) by done. apply Z11.
  - rewrite Hch, map_length. intros Hf%bool_decide_eq_true. lia.
  - rewrite Hch, map_length. intros Hf%bool_decide_eq_false. lia.
  - exists t'', H'', lv''. split; [done|]. split; [done|]. split; [|split; [|split]]; try done.
    + intros X Y Hc. rewrite C2. by eapply (rp_cont L W K Hlp R).
    + intros w M. apply M2; [by apply (rp_MD L W K Hlp R)|]. rewrite Hch, map_length. intros Hf%bool_decide_eq_true. destruct w; lia.
Qed.

(** navigation does not look at leaves *)
Lemma next_int_in t t' : in_nodes t' = in_nodes t -> forall f x, next_int_f f t' x = next_int_f f t x.
Proof.
  intros E. assert (forall i, get_in t' i = get_in t i) as G by (intros i; unfold get_in; by rewrite E).
  induction f as [|f IH]; intros x; [done|]. cbn [next_int_f]. rewrite G. destruct (get_in t x) as [n| |]; try done. cbn [rbind].
  destruct (n_parent n) as [q|]; [|done]. destruct (unwrap_internal q) as [pi| |]; try done. cbn [rbind]. rewrite G.
  destruct (get_in t pi) as [pn| |]; try done. cbn [rbind]. destruct (n_children pn !! S (n_slot n)); [done|]. rewrite IH.
  destruct (next_int_f f t pi) as [o| |]; try done. cbn [rbind]. destruct o as [[]|]; try done. unfold get_internal. cbn [unwrap_internal rbind]. by rewrite G.
Qed.
Lemma next_elem_in t t' (cur : cursor) : in_nodes t' = in_nodes t -> get_lf t' (cu_leaf cur) = get_lf t (cu_leaf cur) ->
  next_elem t' cur = next_elem t cur.
Proof.
  intros E El. assert (forall i, get_in t' i = get_in t i) as G by (intros i; unfold get_in; by rewrite E).
  unfold next_elem, next_same_level_in_node. rewrite El. destruct (get_lf t (cu_leaf cur)) as [lf| |]; try done. cbn [rbind].
  rewrite G. destruct (get_in t (l_parent lf)) as [pn| |]; try done. cbn [rbind].
  destruct (get_leaf_slot (cu_leaf cur) pn) as [ix| |]; try done. cbn [rbind]. destruct (n_children pn !! S ix); [done|].
  unfold fuel. rewrite E, (next_int_in _ _ E).
  destruct (next_int_f _ t (l_parent lf)) as [o| |]; try done. cbn [rbind]. destruct o as [[]|]; try done. unfold get_internal. cbn [unwrap_internal rbind]. by rewrite G.
Qed.
(** at the border of an element split_leaf_if_needed only locates *)
Lemma split_leaf_in t t' l e off p A c Z H lv : at_leaf t lv l e p A c Z -> OK L t H lv -> off = 0 \/ off = rle_len e ->
  in_nodes t' = in_nodes t -> get_lf t' l = get_lf t l ->
  exists np lft, split_leaf_if_needed t' (mkCur l off) =
    Ok (mkSI np lft p (if decide (off = 0) then length A else S (length A)) None, t').
Proof.
  intros AL O Hoff E El. pose proof AL as (Hk & Ha & Hlv & He & Hl & Hget & Hrp & _ & po & s & Hg & Hlk).
  assert (forall i, get_in t' i = get_in t i) as G by (intros i; unfold get_in; by rewrite E).
  unfold split_leaf_if_needed. cbn [split_leaf_f cu_leaf cu_offset]. rewrite El, Hget. cbn [rbind l_parent l_elem]. rewrite G, Hg.
  cbn [rbind n_children]. rewrite Hrp. cbn [ropt rbind].
  assert (exists lft, (match length A with 0 => Ok None | S s0 => let? c0 := vec_get (A ++ c :: Z) s0 in Ok (Some (raw (c_arena c0))) end) = Ok lft) as [lft ->].
  { destruct (length A) as [|s0] eqn:EA; [eauto|]. unfold vec_get.
    destruct (lookup_lt_is_Some_2 (A ++ c :: Z) s0) as [c1 ->]; [rewrite app_length; cbn; lia|]. cbn. eauto. }
  cbn [rbind]. destruct (decide (off = 0)) as [H0|H0]; [eauto|]. rewrite decide_True by lia.
  assert (exists np, (match (A ++ c :: Z) !! S (length A) with
       | Some c1 => Ok (Some (mkCur (raw (c_arena c1)) 0)) | None => next_elem t' (mkCur l off) end) = Ok np) as [np ->]; [|cbn; eauto].
  destruct ((A ++ c :: Z) !! S (length A)); [eauto|]. rewrite (next_elem_in t t') by done.
  destruct (elem_of_list_split (leaves t) l) as (X & Y & HL).
  { apply (leaves_live (ok_wt _ _ _ _ O)). rewrite He. eauto. }
  rewrite (next_elem_ok (ok_wt _ _ _ _ O) (ok_lk _ _ _ _ O) l _ X Y HL). eauto.
Qed.
(** replacing an element by one with the same aggregate *)
Lemma set_same t xs X l e e' Y p : Tree L t xs -> xs = X ++ (l, e) :: Y -> get_lf t l = Ok (mkLeaf e p) ->
  get_elem_cache e' = get_elem_cache e -> evalid L e' -> Tree L (set_lf t l (mkLeaf e' p)) (X ++ (l, e') :: Y) /\ (MD t -> MD (set_lf t l (mkLeaf e' p))).
Proof.
  intros T Hx Hg Hc Ve. destruct (Tree_OK L _ _ T) as (H & lv & O & Ex). set (t1 := set_lf t l (mkLeaf e' p)).
  apply get_lf_inv in Hg as [He Hl]. cbn [l_elem l_parent] in He, Hl.
  assert (S1 : SH t t1).
  { constructor; try done. intros x. unfold t1. rewrite llnk_set_lf. case_decide; [by subst|done]. }
  assert (Hact : forall a, act L t1 a = act L t a).
  { intros [x|m]; [|done]. unfold act, t1. rewrite el_set_lf. case_decide; [subst|done]. by rewrite He. }
  assert (O1 : OK L t1 H lv).
  { destruct O as [W K Z C R V]. constructor.
    - by eapply SH_WT.
    - by eapply SH_LK.
    - by eapply SH_SZ.
    - intros q cs c Hk Hcs Hn. rewrite Hact. by apply (C q cs).
    - intros Hr. rewrite Hact. by apply R.
    - destruct V as [V1 V2]. constructor; [|done]. intros x ex. unfold t1. rewrite el_set_lf. case_decide; [by intros [= <-]|apply V1]. }
  split.
  - assert (cont t1 H = X ++ (l, e') :: Y) as <-; [|by eapply OK_Tree].
    destruct (at_leaf_ok t H lv l e (ok_wt _ _ _ _ O) (ok_lk _ _ _ _ O) He) as (p' & A & c & Z & AL).
    assert (p' = p) as -> by (destruct AL as (_ & _ & _ & _ & Hl' & _); congruence).
    pose proof AL as (_ & _ & Hlv & _).
    apply (rp_cont L (ok_wt _ _ _ _ O) (ok_lk _ _ _ _ O) Hlv (RP_set t H lv l e e' p A c Z (ok_wt _ _ _ _ O) AL) e); [done|by rewrite <- Ex].
  - by apply MD_SH.
Qed.
End fin.

(** ** Total preorders: what Ord promises *)
Record TOrd {Key : Type} (kcmp : Key -> Key -> comparison) : Prop := {
  to_refl : forall x, kcmp x x = Eq;
  to_flip : forall x y, kcmp y x = CompOpp (kcmp x y);
  to_trans : forall x y z, kcmp x y <> Gt -> kcmp y z <> Gt -> kcmp x z <> Gt;
}.
Section tord.
Context {Key : Type} {kcmp : Key -> Key -> comparison} (TO : TOrd kcmp).
Lemma to_gt x y : kcmp x y = Gt <-> kcmp y x = Lt.
Proof. rewrite (to_flip _ TO x y). by destruct (kcmp x y). Qed.
Lemma to_eq x y : kcmp x y = Eq <-> kcmp y x = Eq.
Proof. rewrite (to_flip _ TO x y). by destruct (kcmp x y). Qed.
Lemma to_lt_le x y z : kcmp x y = Lt -> kcmp y z <> Gt -> kcmp x z = Lt.
Proof.
  intros H1 H2. destruct (kcmp x z) eqn:E; [|done|].
  - exfalso. assert (kcmp y x <> Gt) as H3. { apply (to_trans _ TO y z x); [done|]. apply to_eq in E. by rewrite E. }
    apply to_gt in H1. done.
  - exfalso. apply (to_trans _ TO x y z); [by rewrite H1|done|done].
Qed.
Lemma to_le_lt x y z : kcmp x y <> Gt -> kcmp y z = Lt -> kcmp x z = Lt.
Proof.
  intros H1 H2. destruct (kcmp x z) eqn:E; [|done|].
  - exfalso. assert (kcmp z y <> Gt) as H3. { apply (to_trans _ TO z x y); [|done]. apply to_eq in E. by rewrite E. }
    apply to_gt in H2. done.
  - exfalso. apply (to_trans _ TO x y z); [done|by rewrite H2|done].
Qed.
Lemma to_lt x y z : kcmp x y = Lt -> kcmp y z = Lt -> kcmp x z = Lt.
Proof. intros H1 H2. apply (to_lt_le x y z H1). by rewrite H2. Qed.
End tord.

(** ** binary search *)
Lemma bsearch_ok {A} (g : A -> comparison) (cmp : A -> res comparison) (l : list A) :
  (forall x, x ∈ l -> cmp x = Ok (g x)) ->
  (forall i j x y, l !! i = Some x -> l !! j = Some y -> i < j -> (g y = Lt -> g x = Lt) /\ (g x = Gt -> g y = Gt)) ->
  forall f lo hi, hi - lo < f -> lo <= hi <= length l ->
  (forall j x, l !! j = Some x -> j < lo -> g x = Lt) -> (forall j x, l !! j = Some x -> hi <= j -> g x = Gt) ->
  (exists i x, bsearch_f f cmp l lo hi = Ok (inl i) /\ l !! i = Some x /\ g x = Eq) \/
  (exists i, bsearch_f f cmp l lo hi = Ok (inr i) /\ i <= length l /\
     (forall j x, l !! j = Some x -> j < i -> g x = Lt) /\ (forall j x, l !! j = Some x -> i <= j -> g x = Gt)).
Proof.
  intros Hg Hm. induction f as [|f IH]; intros lo hi Hf Hb Hlo Hhi; [lia|]. cbn [bsearch_f].
  destruct (decide (lo < hi)) as [D|D].
  - set (mid := lo + (hi - lo) / 2). assert (lo <= mid < hi) as Hmid.
    { unfold mid. pose proof (Nat.div_lt (hi - lo) 2). lia. }
    destruct (lookup_lt_is_Some_2 l mid) as [x Hx]; [lia|]. unfold vec_get. rewrite Hx. cbn [ropt rbind].
    rewrite (Hg x) by (by eapply elem_of_list_lookup_2). cbn [rbind]. destruct (g x) eqn:Eg.
    + left. eauto.
    + apply IH; [lia|lia| |done]. intros j y Hj Hjm. destruct (decide (j = mid)) as [->|]; [congruence|].
      apply (proj1 (Hm j mid y x Hj Hx ltac:(lia)) Eg).
    + apply IH; [lia|lia|done|]. intros j y Hj Hjm. destruct (decide (j = mid)) as [->|]; [congruence|].
      apply (proj2 (Hm mid j x y Hx Hj ltac:(lia)) Eg).
  - right. exists lo. split_and!; try done; [lia|]. intros j x Hj Hle. apply (Hhi j x Hj). lia.
Qed.

Section ord.
Context {Key Value : Type} {kcmp : Key -> Key -> comparison} (TO : TOrd kcmp).
Notation OT := (@OrdTrait Key Value kcmp).
Notation OL := (@OrdLaw Key Value kcmp (to_refl _ TO)).
Notation entry := (nat * (Key * Value))%type.
Implicit Types (t : btree OT) (k : Key) (v : Value) (xs X Y ys : list entry).
Definition klt (a b : Key * Value) : Prop := kcmp (fst a) (fst b) = Lt.
(** strictly increasing keys *)
Definition Incr (m : list (Key * Value)) : Prop := StronglySorted klt m.
Definition below k (m : list (Key * Value)) : Prop := forall a, a ∈ m -> kcmp (fst a) k = Lt.
Definition above k (m : list (Key * Value)) : Prop := forall a, a ∈ m -> kcmp k (fst a) = Lt.

Lemma incr_app (m1 m2 : list (Key * Value)) : Incr (m1 ++ m2) <-> Incr m1 /\ Incr m2 /\ (forall a b, a ∈ m1 -> b ∈ m2 -> klt a b).
Proof.
  unfold Incr. induction m1 as [|x m1 IH]; cbn.
  - split; [intros H; split_and!; [constructor|done|by intros ? ? ?%elem_of_nil]|tauto].
  - split.
    + intros H. apply StronglySorted_inv in H as [H F]. apply IH in H as (H1 & H2 & H3). rewrite Forall_forall in F. split_and!.
      * constructor; [done|]. apply Forall_forall. intros y Hy. apply F. set_solver.
      * done.
      * intros a b [-> |Ha]%elem_of_cons Hb; [apply F; set_solver|auto].
    + intros (H1 & H2 & H3). apply StronglySorted_inv in H1 as [H1 F]. constructor.
      * apply IH. split_and!; try done. intros a b Ha. apply H3. by right.
      * apply Forall_app. split; [done|]. apply Forall_forall. intros y Hy. apply H3; [left|done].
Qed.

Lemma osumm_ends (cs : list (option (Key * Key))) a a' b' b : head cs = Some (Some (a, a')) -> last cs = Some (Some (b', b)) -> osumm cs = Some (a, b).
Proof. intros H1 H2. destruct cs as [|c cs]; [done|]. injection H1 as ->. unfold osumm. by rewrite H2. Qed.
Lemma agg_ord (s : list entry) : s <> [] -> exists a b s1 s2, head s = Some a /\ last s = Some b /\ s = a :: s1 /\ s = s2 ++ [b] /\
  agg OL s = Some (fst (snd a), fst (snd b)).
Proof.
  intros Hne. destruct s as [|a s1] eqn:Es; [done|]. destruct (last (a :: s1)) as [b|] eqn:El; [|by apply last_None in El].
  pose proof El as El'. apply last_Some in El' as [s2 E2]. exists a, b, s1, s2. split_and!; try done. unfold agg.
  apply (osumm_ends (map (fun x : entry => Some (x.2.1, x.2.1)) (a :: s1)) a.2.1 a.2.1 b.2.1 b.2.1); [done|]. by rewrite E2, map_app, last_app.
Qed.

(** the comparison of a target with a segment *)
Definition sg k (s : list entry) : comparison :=
  match head s, last s with
  | Some a, Some b => match kcmp k (fst (snd a)) with Lt => Gt | _ => match kcmp k (fst (snd b)) with Gt => Lt | _ => Eq end end
  | _, _ => Eq
  end.

Lemma incr_last (s : list entry) b x : Incr (map snd s) -> last s = Some b -> x ∈ s -> kcmp (fst (snd x)) (fst (snd b)) <> Gt.
Proof.
  intros Hi Hl Hx. apply last_Some in Hl as [s2 ->]. rewrite map_app, incr_app in Hi. destruct Hi as (_ & _ & Hi).
  apply elem_of_app in Hx as [Hx|Hx%elem_of_list_singleton]; [|subst; by rewrite (to_refl _ TO)].
  assert (klt (snd x) (snd b)) as Hk by (apply Hi; [by apply elem_of_list_fmap_1|set_solver]). unfold klt in Hk. by rewrite Hk.
Qed.
Lemma incr_head (s : list entry) a x : Incr (map snd s) -> head s = Some a -> x ∈ s -> kcmp (fst (snd a)) (fst (snd x)) <> Gt.
Proof.
  intros Hi Hl Hx. destruct s as [|a' s]; [done|]. injection Hl as ->. cbn in Hi. apply StronglySorted_inv in Hi as [_ Hi].
  rewrite Forall_forall in Hi. apply elem_of_cons in Hx as [-> |Hx]; [by rewrite (to_refl _ TO)|].
  assert (klt (snd a) (snd x)) as Hk by (apply Hi; by apply elem_of_list_fmap_1). unfold klt in Hk. by rewrite Hk.
Qed.

Lemma sg_lt k s : Incr (map snd s) -> s <> [] -> sg k s = Lt <-> below k (map snd s).
Proof.
  intros Hi Hne. unfold sg. destruct (head s) as [a|] eqn:Ea; [|by destruct s]. destruct (last s) as [b|] eqn:Eb; [|by apply last_None in Eb].
  assert (a ∈ s) as Ha by (destruct s; [done|]; injection Ea as ->; left).
  assert (b ∈ s) as Hb by (apply last_Some in Eb as [? ->]; set_solver).
  split.
  - intros Hs. assert (kcmp k (fst (snd b)) = Gt) as Hg by (destruct (kcmp k a.2.1), (kcmp k b.2.1); done).
    intros x (y & -> & Hy)%elem_of_list_fmap. apply (to_le_lt TO _ (fst (snd b))); [by apply (incr_last s)|]. by apply (to_gt TO).
  - intros Hbl. pose proof (Hbl (snd a)) as H1. pose proof (Hbl (snd b)) as H2.
    rewrite (proj2 (to_gt TO k (fst (snd a)))), (proj2 (to_gt TO k (fst (snd b)))); [done|apply H2|apply H1]; by apply elem_of_list_fmap_1.
Qed.
Lemma sg_gt k s : Incr (map snd s) -> s <> [] -> sg k s = Gt <-> above k (map snd s).
Proof.
  intros Hi Hne. unfold sg. destruct (head s) as [a|] eqn:Ea; [|by destruct s]. destruct (last s) as [b|] eqn:Eb; [|by apply last_None in Eb].
  assert (a ∈ s) as Ha by (destruct s; [done|]; injection Ea as ->; left).
  assert (b ∈ s) as Hb by (apply last_Some in Eb as [? ->]; set_solver).
  split.
  - intros Hs. assert (kcmp k (fst (snd a)) = Lt) as Hg by (destruct (kcmp k a.2.1), (kcmp k b.2.1); done).
    intros x (y & -> & Hy)%elem_of_list_fmap. apply (to_lt_le TO _ (fst (snd a))); [done|]. by apply (incr_head s).
  - intros Hbl. rewrite (Hbl (snd a)); [done|]. by apply elem_of_list_fmap_1.
Qed.
Lemma sg_eq k s a : Incr (map snd s) -> a ∈ map snd s -> kcmp k (fst a) = Eq -> sg k s = Eq.
Proof.
  intros Hi Ha He. assert (s <> []) as Hne by (by intros ->; apply elem_of_nil in Ha).
  destruct (sg k s) eqn:E; [done| |]; exfalso.
  - apply sg_lt in E; [|done|done]. specialize (E a Ha). apply (to_eq TO) in He. congruence.
  - apply sg_gt in E; [|done|done]. specialize (E a Ha). congruence.
Qed.

Lemma sg_bd k s : sg k s = Eq -> s <> [] -> exists a b, a ∈ map snd s /\ b ∈ map snd s /\ kcmp k (fst a) <> Lt /\ kcmp k (fst b) <> Gt.
Proof.
  intros Hgc Hne. unfold sg in Hgc. destruct (head s) as [a|] eqn:Ea; [|by destruct s]. destruct (last s) as [b|] eqn:El; [|by apply last_None in El].
  exists (snd a), (snd b). split_and!.
  - destruct s; [done|]. injection Ea as ->. left.
  - apply last_Some in El as [? ->]. rewrite map_app. set_solver.
  - intros E. by rewrite E in Hgc.
  - intros E. rewrite E in Hgc. by destruct (kcmp k a.2.1).
Qed.

Section search.
Context (q : Key) (t : btree OT) (D : nat) (xs : list entry) (I : Intact OL t D xs) (Hinc : Incr (map snd xs)).
Definition ord_inv (s : unit) (a : aidx) X ys Y (fd : bool) : Prop :=
  below q (map snd X) /\ above q (map snd Y) /\ (forall y, y ∈ ys -> kcmp q (fst (snd y)) = Eq -> fd = true).

Lemma ord_cmp_seg d (c : child OT) s : segm OL t d c s -> ord_cmp kcmp q c = Ok (sg q s).
Proof using.
  intros (_ & Hne & Hc). unfold ord_cmp. rewrite Hc. destruct (agg_ord s Hne) as (a & b & s1 & s2 & Ha & Hb & _ & _ & ->). cbn [ropt rbind].
  unfold sg. by rewrite Ha, Hb.
Qed.
Lemma ord_step : @q_step OT OL (OrdQuery kcmp) q t xs ord_inv.
Proof using Hinc.
  clear I D. intros s i n d X ss Y fd Hn Hne F (HX & HY & Hfd) Hx. destruct s.
  assert (Hlen : length ss = length (n_children n)) by (symmetry; by eapply Forall2_length).
  assert (Hall : Incr (map snd (concat ss))).
  { rewrite <- Hx, !map_app in Hinc. apply incr_app in Hinc as (_ & Hinc & _). by apply incr_app in Hinc as (Hinc & _). }
  assert (Hone : forall j s, ss !! j = Some s -> Incr (map snd s) /\ s <> []).
  { intros j s Hj. split.
    - apply elem_of_list_split_length in Hj as (S1 & S2 & -> & _). rewrite concat_app, map_app in Hall. cbn [concat] in Hall.
      apply incr_app in Hall as (_ & Hall & _). rewrite map_app in Hall. by apply incr_app in Hall as (Hall & _).
    - destruct (Forall2_lookup_r _ _ _ _ _ F Hj) as (c & _ & _ & Hs & _). done. }
  assert (Htwo : forall j1 j2 s1 s2 a b, ss !! j1 = Some s1 -> ss !! j2 = Some s2 -> j1 < j2 -> a ∈ map snd s1 -> b ∈ map snd s2 -> klt a b).
  { intros j1 j2 s1 s2 a b H1 H2 Hlt Ha Hb. apply elem_of_list_split_length in H1 as (S1 & S2 & -> & ->).
    rewrite lookup_app_r in H2 by lia. destruct (j2 - length S1) as [|j] eqn:Ej; [lia|]. cbn in H2.
    rewrite concat_app, map_app in Hall. cbn [concat] in Hall. apply incr_app in Hall as (_ & Hall & _).
    rewrite map_app in Hall. apply incr_app in Hall as (_ & _ & Hall). apply Hall; [done|].
    apply elem_of_list_lookup_2, elem_of_list_split in H2 as (U & V & ->).
    rewrite concat_app. cbn [concat]. rewrite !map_app. set_solver. }
  (* the child comparisons as a function on indices *)
  set (g := fun c : child OT => match ord_cmp kcmp q c with Ok r => r | _ => Eq end).
  assert (Hg : forall j c s, n_children n !! j = Some c -> ss !! j = Some s -> ord_cmp kcmp q c = Ok (sg q s) /\ g c = sg q s).
  { intros j c s Hc Hs. pose proof (Forall2_lookup_lr _ _ _ _ _ _ F Hc Hs) as G.
    apply ord_cmp_seg in G. unfold g. by rewrite G. }
  assert (Hgs : forall j c, n_children n !! j = Some c -> exists s, ss !! j = Some s).
  { intros j c Hc. apply lookup_lt_is_Some_2. rewrite Hlen. by eapply lookup_lt_Some. }
  destruct (bsearch_ok g (ord_cmp kcmp q) (n_children n)) with (f := S (length (n_children n))) (lo := 0) (hi := length (n_children n))
    as [(i0 & c & Eb & Hc & Hgc)|(i0 & Eb & Hi0 & Hlo & Hhi)]; try lia.
  - intros c [j Hj]%elem_of_list_lookup. destruct (Hgs j c Hj) as [s Hs]. destruct (Hg j c s Hj Hs) as [-> ->]. done.
  - intros j1 j2 c1 c2 H1 H2 Hlt. destruct (Hgs j1 c1 H1) as [s1 Hs1]. destruct (Hgs j2 c2 H2) as [s2 Hs2].
    rewrite (proj2 (Hg _ _ _ H1 Hs1)), (proj2 (Hg _ _ _ H2 Hs2)).
    destruct (Hone _ _ Hs1) as [I1 N1]. destruct (Hone _ _ Hs2) as [I2 N2]. rewrite !sg_lt, !sg_gt by done.
    assert (forall s : list entry, s <> [] -> exists a, a ∈ map snd s) as Hex.
    { intros [|a s] Hs; [done|]. exists (snd a). left. }
    split.
    + intros Hb a Ha. destruct (Hex s2 N2) as [b Hb']. apply (to_lt TO _ (fst b)); [by apply (Htwo j1 j2 s1 s2)|by apply Hb].
    + intros Hb a Ha. destruct (Hex s1 N1) as [b Hb']. apply (to_lt TO _ (fst b)); [by apply Hb|by apply (Htwo j1 j2 s1 s2)].
  - intros j c Hc Hle. apply lookup_lt_Some in Hc. lia.
  - (* a child whose interval contains the key *)
    destruct (Hgs _ _ Hc) as [s Hs]. rewrite (proj2 (Hg _ _ _ Hc Hs)) in Hgc. destruct (Hone _ _ Hs) as [Is Ns].
    pose proof (elem_of_list_split_length _ _ _ Hc) as (C1 & C2 & Ec & E1). pose proof (elem_of_list_split_length _ _ _ Hs) as (S1 & S2 & Es & E2).
    exists 0, true, tt, C1, c, C2, S1, s, S2. split_and!; try done; [congruence| |].
    { cbn [q_find OrdQuery]. unfold ord_find. rewrite Eb. cbn [rbind]. by rewrite <- E1. }
    rewrite andb_true_r. unfold ord_inv.
    assert (Hbd : exists a b, a ∈ map snd s /\ b ∈ map snd s /\ kcmp q (fst a) <> Lt /\ kcmp q (fst b) <> Gt).
    { by apply sg_bd. }
    destruct Hbd as (a & b & Ha & Hb & Ka & Kb). rewrite Es, concat_app in Hall. cbn [concat] in Hall. rewrite map_app, map_app in Hall.
    apply incr_app in Hall as (_ & Hall2 & Hall1). apply incr_app in Hall2 as (_ & _ & Hall2). split_and!.
    + rewrite map_app. intros z [Hz|Hz]%elem_of_app; [by apply HX|]. apply (to_lt_le TO _ (fst a)); [apply Hall1; [done|set_solver]|].
      intros E. by apply (to_gt TO) in E.
    + rewrite map_app. intros z [Hz|Hz]%elem_of_app; [|by apply HY]. apply (to_le_lt TO _ (fst b)); [done|]. by apply Hall2.
    + intros y Hy. apply Hfd. rewrite Es, concat_app. cbn. set_solver.
  - (* no such child *)
    set (i1 := Nat.min i0 (length (n_children n) - 1)).
    assert (0 < length (n_children n)) as Hpos by (destruct (n_children n); [done|cbn; lia]).
    destruct (lookup_lt_is_Some_2 (n_children n) i1) as [c Hc]; [lia|]. destruct (Hgs _ _ Hc) as [s Hs]. destruct (Hone _ _ Hs) as [Is Ns].
    pose proof (elem_of_list_split_length _ _ _ Hc) as (C1 & C2 & Ec & E1). pose proof (elem_of_list_split_length _ _ _ Hs) as (S1 & S2 & Es & E2).
    exists (if decide (i0 = length (n_children n)) then 1 else 0), false, tt, C1, c, C2, S1, s, S2. split_and!; try done; [congruence| |].
    { cbn [q_find OrdQuery]. unfold ord_find. rewrite Eb. cbn [rbind]. unfold rassert. rewrite bool_decide_eq_true_2 by lia. cbn [rbind].
      by rewrite <- E1. }
    unfold ord_inv.
    assert (Hsg : forall j s, ss !! j = Some s -> (j < i0 -> below q (map snd s)) /\ (i0 <= j -> above q (map snd s))).
    { intros j s' Hj. destruct (Hone _ _ Hj) as [I' N']. destruct (lookup_lt_is_Some_2 (n_children n) j) as [c' Hc'].
      { rewrite <- Hlen. by eapply lookup_lt_Some. }
      rewrite <- sg_lt, <- sg_gt by done. rewrite <- (proj2 (Hg _ _ _ Hc' Hj)). split; intros; [by eapply Hlo|by eapply Hhi]. }
    split_and!.
    + rewrite map_app. intros z [Hz|Hz]%elem_of_app; [by apply HX|]. apply elem_of_list_fmap in Hz as (y & -> & Hy).
      apply elem_of_list_In, in_concat in Hy as (s' & Hs' & Hy). apply elem_of_list_In in Hs', Hy.
      apply elem_of_list_lookup in Hs' as [j Hj]. pose proof (lookup_lt_Some _ _ _ Hj).
      apply (proj1 (Hsg j s' ltac:(rewrite Es; by apply lookup_app_l_Some))); [lia|by apply elem_of_list_fmap_1].
    + rewrite map_app. intros z [Hz|Hz]%elem_of_app; [|by apply HY]. apply elem_of_list_fmap in Hz as (y & -> & Hy).
      apply elem_of_list_In, in_concat in Hy as (s' & Hs' & Hy). apply elem_of_list_In in Hs', Hy.
      apply elem_of_list_lookup in Hs' as [j Hj].
      assert (ss !! (S (length S1) + j) = Some s') as Hj'.
      { rewrite Es, lookup_app_r by lia. replace (S (length S1) + j - length S1) with (S j) by lia. done. }
      pose proof (lookup_lt_Some _ _ _ Hj'). 
      apply (proj2 (Hsg _ s' Hj')); [lia|by apply elem_of_list_fmap_1].
    + intros y Hy He. exfalso. pose proof (sg_eq q s (snd y) Is ltac:(by apply elem_of_list_fmap_1) He) as Hq.
      destruct (decide (i1 < i0)) as [Dl|Dl].
      * pose proof (proj1 (Hsg _ _ Hs) Dl) as Hb. apply sg_lt in Hb; [|done|done]. congruence.
      * pose proof (proj2 (Hsg _ _ Hs) ltac:(lia)) as Hb. apply sg_gt in Hb; [|done|done]. congruence.
Qed.
End search.

(** the key search: the entry with the key, or the neighbour of the place where it belongs *)
Theorem ord_query t xs q : Tree OL t xs -> Incr (map snd xs) -> xs <> [] ->
  exists X l e Y, xs = X ++ (l, e) :: Y /\ below q (map snd X) /\ above q (map snd Y) /\
    query (OrdQuery kcmp) t q = Ok (Some (mkQR (mkCur l (match kcmp q (fst e) with Gt => 1 | _ => 0 end)) (match kcmp q (fst e) with Eq => true | _ => false end))).
Proof.
  intros [D I] Hinc Hne.
  destruct (query_wf_ok OL (OrdQuery kcmp) q t D xs I (ord_inv q) tt (ord_step q t xs Hinc)) as (s & l & e & X & Y & fd & Hx & (HX & HY & Hfd) & E); [done| |done|].
  - unfold ord_inv. split_and!; try done; by intros ? ?%elem_of_nil.
  - exists X, l, e, Y. split_and!; try done. unfold query. rewrite E. cbn [rbind q_confirm OrdQuery].
    destruct (kcmp q (fst e)) eqn:Ec; cbn [rbind]; rewrite ?andb_false_r; [|done|done].
    rewrite (Hfd (l, e)); [done|left|done].
Qed.
End ord.
