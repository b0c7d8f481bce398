(** OrdM.v — OrdTreeMap / OrdTreeSet (generic_impl/ord.rs) against sorted association lists. *)
From Verif Require Export OrdP.

(** ** Specification: sorted association lists (independent of the model) *)
Section spec.
Context {Key Value : Type} (kcmp : Key -> Key -> comparison).
Fixpoint sm_insert (k : Key) (v : Value) (m : list (Key * Value)) : list (Key * Value) :=
  match m with
  | [] => [(k, v)]
  | (k', v') :: m' =>
      match kcmp k k' with
      | Lt => (k, v) :: m
      | Eq => (k', v) :: m'
      | Gt => (k', v') :: sm_insert k v m'
      end
  end.
Fixpoint sm_get (k : Key) (m : list (Key * Value)) : option (Key * Value) :=
  match m with
  | [] => None
  | (k', v') :: m' => match kcmp k k' with Eq => Some (k', v') | _ => sm_get k m' end
  end.
Fixpoint sm_delete (k : Key) (m : list (Key * Value)) : list (Key * Value) :=
  match m with
  | [] => []
  | (k', v') :: m' => match kcmp k k' with Eq => m' | _ => (k', v') :: sm_delete k m' end
  end.
End spec.

Section gen.
Context {B : BTreeTrait} (L : Lawful B).
Implicit Types (t : btree B).
Lemma insert_new t H lv xs X l e Y x off p : OK L t H lv -> xs = cont t H -> xs = X ++ (l, e) :: Y -> off = 0 \/ off = rle_len e -> rle_len e <> 0 -> evalid L x -> get_lf t l = Ok (mkLeaf (B := B) e p) ->
  exists n t', (let (ch, t) := alloc_leaf_child t x p in
        let? (si, t) := split_leaf_if_needed t (mkCur l off) in
        let? pn := get_in t (si_parent si) in
        let? cs := vec_insert 12 (n_children pn) (si_slot si) ch in
        let pn := with_children pn cs in
        let t := set_in t (si_parent si) pn in
        let? t := recursive_update_cache t (AInt p) (USE_DIFF (b := B)) None in
        if is_full pn then BTree.split t (AInt p) else Ok t) = Ok t' /\
    Tree L t' (if decide (off = 0) then X ++ (n, x) :: (l, e) :: Y else X ++ (l, e) :: (n, x) :: Y) /\ (MD t -> MD t').
Proof.
  intros O Ex Hx Hoff Hln Hv Hg. pose proof (ok_wt _ _ _ _ O) as W. pose proof (ok_lk _ _ _ _ O) as K.
  apply get_lf_inv in Hg as [He Hl]. cbn [l_elem l_parent] in He, Hl.
  destruct (at_leaf_ok t H lv l e W K He) as (p' & A & c & Z & AL).
  assert (p' = p) as -> by (destruct AL as (_ & _ & _ & _ & Hl' & _); congruence).
  pose proof AL as (Hk & Ha & Hlv & _ & _ & Hget & Hrp & Hsl & po & s & Hgp & Hlk).
  assert (Hlen : length (A ++ c :: Z) <= 11).
  { pose proof (ok_sz _ _ _ _ O p) as Hz. by rewrite (chs_kids _ _ _ Hk), map_length in Hz. }
  assert (Hcc : c_cache c = get_elem_cache  e) by (eapply cache_ok; eauto; set_solver).
  set (n := anext (leaf_nodes t)). set (t1 := snd (ins_lf t (mkLeaf (B := B) x p))).
  assert (Hnl : n <> l).
  { intros E. pose proof (fresh_leaf t H lv W) as Hf. fold n in Hf. rewrite E in Hf. congruence. }
  assert (El1 : get_lf t1 l = get_lf t l).
  { rewrite Hget. apply get_lf_proj; unfold t1; rewrite ?el_ins_lf, ?llnk_ins_lf, decide_False by done; done. }
  destruct (split_leaf_in L t t1 l e off p A c Z H lv AL O Hoff eq_refl El1) as (np & lft & Hs).
  unfold alloc_leaf_child. rewrite (surjective_pairing (ins_lf t (mkLeaf x p))).
  change (fst (ins_lf t (mkLeaf x p))) with n. change (snd (ins_lf t (mkLeaf x p))) with t1. cbv beta iota zeta.
  rewrite Hs. cbn [rbind si_parent si_slot]. assert (get_in t1 p = Ok (mkNode po s (A ++ c :: Z))) as Hg1 by exact Hgp. rewrite Hg1. cbn [rbind n_children].
  set (ch := mkChild (B := B) (ALeaf n) (get_elem_cache  x)).
  assert (G : forall N N', RP t (set_in t1 p (mkNode po s (A ++ N' ++ Z))) p l A c Z N N' ->
    (forall c0, c0 ∈ N' -> c0 = c \/ c0 = ch) -> (forall y d, (y, d) ∈ N -> d = e \/ d = x) -> (N' = [ch; c] \/ N' = [c; ch]) ->
    exists t', (let? t := recursive_update_cache (set_in t1 p (mkNode po s (A ++ N' ++ Z))) (AInt p) (USE_DIFF (b := B)) None in
        if is_full (mkNode po s (A ++ N' ++ Z)) then BTree.split t (AInt p) else Ok t) = Ok t' /\ Tree L t' (X ++ N ++ Y) /\ (MD t -> MD t')).
  { intros N N' R HN' HNv Hor. destruct (rp_finish_int L t _ H lv p l e A c Z N N' O Hlv He R) as (t' & H' & lv' & E & O' & C' & _ & M' & _).
    - destruct Hor as [-> | ->]; done.
    - intros c0 Hc0. destruct (HN' c0 Hc0) as [-> | ->].
      + rewrite Hcc, Ha. symmetry. apply (act_leaf L). rewrite el_set_in. unfold t1. rewrite el_ins_lf, decide_False by done. done.
      + symmetry. apply (act_leaf L _ n x). rewrite el_set_in. unfold t1. rewrite el_ins_lf. by rewrite decide_True.
    - intros y d Hd. destruct (HNv y d Hd) as [-> | ->]; [|done]. by eapply (va_el _ _ (ok_va _ _ _ _ O)).
    - intros c0 Hc0. destruct (HN' c0 Hc0) as [-> | ->]; rewrite ?Hcc; cbn; apply (lw_get _ L); [|done]. by eapply (va_el _ _ (ok_va _ _ _ _ O)).
    - rewrite app_length in *. cbn in Hlen. destruct Hor as [-> | ->]; cbn; lia.
    - exists t'. split; [|split; [|exact (M' false)]].
      + rewrite <- E. done.
      + rewrite <- (C' X Y); [|congruence]. by eapply OK_Tree. }
  exists n. destruct (decide (off = 0)) as [H0|H0].
  - rewrite vec_insert_ok by (rewrite ?app_length in *; cbn in *; lia). cbn [rbind]. rewrite ins_at. unfold with_children. cbn [n_parent n_slot].
    apply (G [(n, x); (l, e)] [ch; c]); [|set_solver| |by left]; [|intros y d Hd; apply elem_of_cons in Hd as [[= -> ->]|[[= -> ->]|[]%elem_of_nil]%elem_of_cons]; tauto].
    exact (RP_before t H lv l e x p A c Z po s W AL Hlk).
  - rewrite vec_insert_ok by (rewrite ?app_length in *; cbn in *; lia). cbn [rbind]. rewrite ins_after. unfold with_children. cbn [n_parent n_slot].
    apply (G [(l, e); (n, x)] [c; ch]); [|set_solver| |by right]; [|intros y d Hd; apply elem_of_cons in Hd as [[= -> ->]|[[= -> ->]|[]%elem_of_nil]%elem_of_cons]; tauto].
    exact (RP_after t H lv l e x p A c Z po s W AL Hlk).
Qed.

Lemma empty_shallow t (h : nat) : Tree L t [] -> 1 <= h -> Shallow t h.
Proof.
  intros T Hk. pose proof (t_is_empty L t [] T) as E. pose proof T as [d Id]. destruct (in_top _ _ _ _ Id) as (r & rn & Er & Hr & _).
  exists 1, []. split; [|done]. rewrite Er. econstructor; [done|].
  unfold is_empty in E. rewrite Er in E. unfold get_internal in E. cbn [unwrap_internal rbind] in E. unfold get_in in E. rewrite Hr in E. cbn in E.
  unfold n_is_empty in E. destruct (n_children rn); [constructor|done].
Qed.
End gen.

Section map.
Context {Key Value : Type} {kcmp : Key -> Key -> comparison} (TO : TOrd kcmp).
Notation OT := (@OrdTrait Key Value kcmp).
Notation OL := (@OrdLaw Key Value kcmp (to_refl _ TO)).
Notation entry := (nat * (Key * Value))%type.
Notation below := (@below Key Value kcmp).
Notation above := (@above Key Value kcmp).
Implicit Types (t : btree OT) (k : Key) (v : Value) (xs X Y ys : list entry) (m : omap_t Key Value kcmp) (s : list (Key * Value)).

Lemma below_gt k s a : below k s -> a ∈ s -> kcmp k (fst a) = Gt.
Proof. intros Hb Ha. apply (to_gt TO). by apply Hb. Qed.
Lemma sm_insert_at k v s1 s2 : below k s1 -> above k s2 -> sm_insert kcmp k v (s1 ++ s2) = s1 ++ (k, v) :: s2.
Proof.
  intros H1 H2. induction s1 as [|[k' v'] s1 IH]; cbn.
  - destruct s2 as [|[k' v'] s2]; [done|]. cbn. pose proof (H2 (k', v') ltac:(left)) as Hk. cbn in Hk. by rewrite Hk.
  - pose proof (below_gt _ _ (k', v') H1 ltac:(left)) as Hk. cbn in Hk. rewrite Hk. rewrite IH; [done|]. intros a Ha. apply H1. by right.
Qed.
Lemma sm_insert_eq k v k' v' s1 s2 : below k s1 -> kcmp k k' = Eq -> sm_insert kcmp k v (s1 ++ (k', v') :: s2) = s1 ++ (k', v) :: s2.
Proof.
  intros H1 H2. induction s1 as [|[k1 v1] s1 IH]; cbn; [by rewrite H2|].
  pose proof (below_gt _ _ (k1, v1) H1 ltac:(left)) as Hk. cbn in Hk. rewrite Hk. rewrite IH; [done|]. intros a Ha. apply H1. by right.
Qed.
Lemma sm_delete_eq k k' v' s1 s2 : below k s1 -> kcmp k k' = Eq -> sm_delete kcmp k (s1 ++ (k', v') :: s2) = s1 ++ s2.
Proof.
  intros H1 H2. induction s1 as [|[k1 v1] s1 IH]; cbn; [by rewrite H2|].
  pose proof (below_gt _ _ (k1, v1) H1 ltac:(left)) as Hk. cbn in Hk. rewrite Hk. rewrite IH; [done|]. intros a Ha. apply H1. by right.
Qed.
Lemma sm_get_app k s1 s2 : below k s1 -> sm_get kcmp k (s1 ++ s2) = sm_get kcmp k s2.
Proof.
  intros H1. induction s1 as [|[k1 v1] s1 IH]; cbn; [done|].
  pose proof (below_gt _ _ (k1, v1) H1 ltac:(left)) as Hk. cbn in Hk. rewrite Hk. apply IH. intros a Ha. apply H1. by right.
Qed.
Lemma sm_get_above k s2 : above k s2 -> sm_get kcmp k s2 = None.
Proof.
  intros H1. induction s2 as [|[k1 v1] s2 IH]; cbn; [done|].
  pose proof (H1 (k1, v1) ltac:(left)) as Hk. cbn in Hk. rewrite Hk. apply IH. intros a Ha. apply H1. by right.
Qed.
(** the three operations obey the map laws and keep the list sorted *)
Lemma sm_insert_incr k v s : Incr (kcmp := kcmp) s -> Incr (kcmp := kcmp) (sm_insert kcmp k v s).
Proof.
  intros Hs. assert (G : forall a, (forall b, b ∈ s -> klt (kcmp := kcmp) a b) -> kcmp (fst a) k = Lt -> forall b, b ∈ sm_insert kcmp k v s -> klt (kcmp := kcmp) a b).
  { intros a Ha Hk. clear Hs. induction s as [|[k1 v1] s IH]; cbn.
    - intros b ->%elem_of_list_singleton. done.
    - destruct (kcmp k k1) eqn:E.
      + intros b [-> |Hb]%elem_of_cons; [|apply Ha; by right]. unfold klt. cbn. apply (Ha (k1, v1)). left.
      + intros b [-> |Hb]%elem_of_cons; [done|by apply Ha].
      + intros b [-> |Hb]%elem_of_cons; [apply Ha; left|]. apply IH; [|done]. intros; apply Ha; by right. }
  induction s as [|[k1 v1] s IH]; cbn.
  - repeat constructor.
  - apply StronglySorted_inv in Hs as [Hs F]. destruct (kcmp k k1) eqn:E.
    + constructor; [done|]. eapply Forall_impl; [exact F|]. done.
    + constructor; [by constructor|]. constructor; [done|]. eapply Forall_impl; [exact F|]. intros a Ha. unfold klt in *. cbn in *. by eapply (to_lt TO).
    + constructor.
      * apply IH; [done|]. intros a Ha Hk b Hb. specialize (G a).
        assert (forall b0, b0 ∈ sm_insert kcmp k v s -> klt (kcmp := kcmp) a b0) as G'; [|by apply G'].
        clear -Ha Hk TO. induction s as [|[k2 v2] s IH]; cbn.
        -- intros b ->%elem_of_list_singleton. done.
        -- destruct (kcmp k k2) eqn:E2.
           ++ intros b [-> |Hb]%elem_of_cons; [|apply Ha; by right]. unfold klt. cbn. apply (Ha (k2, v2)). left.
           ++ intros b [-> |Hb]%elem_of_cons; [done|by apply Ha].
           ++ intros b [-> |Hb]%elem_of_cons; [apply Ha; left|]. apply IH; [|done]. intros; apply Ha; by right.
      * apply Forall_forall. intros b Hb. rewrite Forall_forall in F.
        assert (kcmp k1 k = Lt) as Hk by (by apply (to_gt TO)). revert b Hb. clear -F Hk TO.
        induction s as [|[k2 v2] s IH]; cbn.
        -- intros b ->%elem_of_list_singleton. done.
        -- destruct (kcmp k k2) eqn:E2.
           ++ intros b [-> |Hb]%elem_of_cons; [|apply F; by right]. unfold klt. cbn. apply (F (k2, v2)). left.
           ++ intros b [-> |Hb]%elem_of_cons; [done|by apply F].
           ++ intros b [-> |Hb]%elem_of_cons; [apply F; left|]. apply IH; [|done]. intros; apply F; by right.
Qed.

(** ** The state relation: the map holds exactly the entries [s] *)
Definition MapOf m s : Prop := exists xs, Tree OL (om_tree kcmp m) xs /\ MD (om_tree kcmp m) /\ map snd xs = s /\ Incr (kcmp := kcmp) s /\ om_len kcmp m = length s.

Lemma new_map : MapOf (om_new kcmp) [].
Proof.
  exists []. split_and!; try done.
  - exact (Tree_new OL).
  - exact (MD_new (B := OT) false).
  - constructor.
Qed.

Theorem t_om_insert m s k v : MapOf m s -> exists m', om_insert kcmp m k v = Ok m' /\ MapOf m' (sm_insert kcmp k v s).
Proof.
  intros (xs & T & M & <- & Hi & Hn). unfold om_insert. destruct (decide (length xs = 0)) as [E0|E0].
  - apply nil_length_inv in E0 as ->. unfold query. rewrite (t_query_empty OL _ _ _ T). cbn [rbind].
    destruct (t_push OL _ _ (k, v) T I) as (cur & t' & -> & M' & _ & [(X & l & e & e' & Hx & _)|(n & _ & T' & _)]); [by destruct X|].
    cbn [rbind]. eexists. split; [done|]. exists [(n, (k, v))]. cbn. split_and!; try done; [by apply M'|repeat constructor|]. cbn in Hn. lia.
  - destruct (ord_query TO _ xs k T Hi) as (X & l & [k' v'] & Y & Hx & HX & HY & ->); [by intros ->|]. cbn [rbind qr_found qr_cursor fst cu_leaf].
    destruct (tree_get_lf OL _ xs l (k', v') T) as [p Hg]; [rewrite Hx; set_solver|].
    destruct (kcmp k k') eqn:Ek.
    + rewrite Hg. cbn [rbind]. unfold with_elem. cbn [l_elem l_parent fst].
      destruct (set_same OL _ xs X l (k', v') (k', v) Y p T Hx Hg) as [T' M']; [done|done|].
      eexists. split; [done|]. exists (X ++ (l, (k', v)) :: Y). cbn [om_tree om_len]. subst xs. rewrite !map_app in *. cbn [map snd] in *.
      rewrite sm_insert_eq by done. split_and!; try done; [by apply M'| |].
      * rewrite <- (sm_insert_eq k v k' v') by done. by apply sm_insert_incr.
      * rewrite Hn, !app_length. done.
    + rewrite Hg. cbn [rbind l_parent]. destruct (Tree_OK OL _ _ T) as (H & lv & O & Ex).
      destruct (insert_new OL _ H lv xs X l (k', v') Y (k, v) 0 p O Ex Hx ltac:(by left) ltac:(done) I Hg) as (n & t' & E & T' & M').
      rewrite decide_True in T' by done.
      destruct (alloc_leaf_child _ _ _) as [ch t1]. destruct (split_leaf_if_needed t1 _) as [[si t2]| |]; try done. cbn [rbind] in E |- *.
      destruct (get_in t2 _) as [pn| |]; try done. cbn [rbind] in E |- *. destruct (vec_insert _ _ _ _) as [cs| |]; try done. cbn [rbind] in E |- *.
      destruct (recursive_update_cache _ _ _ _) as [t3| |]; try done. cbn [rbind] in E |- *. rewrite E. cbn [rbind].
      eexists. split; [done|]. exists (X ++ (n, (k, v)) :: (l, (k', v')) :: Y). cbn [om_tree om_len]. subst xs. rewrite !map_app in *. cbn [map snd] in *.
      assert (above k ((k', v') :: map snd Y)) as Hab by (intros a [-> |Ha]%elem_of_cons; [done|by apply HY]).
      rewrite sm_insert_at by done. split_and!; try done; [by apply M'| |].
      * rewrite <- (sm_insert_at k v) by done. by apply sm_insert_incr.
      * rewrite Hn, !app_length. cbn. lia.
    + rewrite Hg. cbn [rbind l_parent]. destruct (Tree_OK OL _ _ T) as (H & lv & O & Ex).
      destruct (insert_new OL _ H lv xs X l (k', v') Y (k, v) 1 p O Ex Hx ltac:(by right) ltac:(done) I Hg) as (n & t' & E & T' & M').
      rewrite decide_False in T' by done.
      destruct (alloc_leaf_child _ _ _) as [ch t1]. destruct (split_leaf_if_needed t1 _) as [[si t2]| |]; try done. cbn [rbind] in E |- *.
      destruct (get_in t2 _) as [pn| |]; try done. cbn [rbind] in E |- *. destruct (vec_insert _ _ _ _) as [cs| |]; try done. cbn [rbind] in E |- *.
      destruct (recursive_update_cache _ _ _ _) as [t3| |]; try done. cbn [rbind] in E |- *. rewrite E. cbn [rbind].
      eexists. split; [done|]. exists ((X ++ [(l, (k', v'))]) ++ (n, (k, v)) :: Y). cbn [om_tree om_len]. rewrite <- app_assoc. cbn [app].
      split; [done|]. split; [by apply M'|]. subst xs. 
      assert (map snd (X ++ (l, (k', v')) :: (n, (k, v)) :: Y) = (map snd X ++ [(k', v')]) ++ (k, v) :: map snd Y) as -> by (rewrite map_app; cbn; by rewrite <- app_assoc).
      assert (map snd (X ++ (l, (k', v')) :: Y) = (map snd X ++ [(k', v')]) ++ map snd Y) as Em by (rewrite map_app; cbn; by rewrite <- app_assoc).
      rewrite Em in *.
      assert (below k (map snd X ++ [(k', v')])) as Hbl.
      { intros a [Ha|Ha%elem_of_list_singleton]%elem_of_app; [by apply HX|]. subst a. by apply (to_gt TO). }
      rewrite sm_insert_at by done. split_and!; try done.
      * rewrite <- (sm_insert_at k v) by done. by apply sm_insert_incr.
      * rewrite Hn, !app_length. cbn. lia.
Qed.

(** deletion: the searched entry, or — if the key is absent — its neighbour *)
Lemma om_delete_gen m s k : MapOf m s -> s <> [] ->
  exists s1 e s2 m', s = s1 ++ e :: s2 /\ below k s1 /\ above k s2 /\ om_delete kcmp m k = Ok (Some e, m') /\ MapOf m' (s1 ++ s2).
Proof.
  intros (xs & T & M & <- & Hi & Hn) Hne.
  destruct (ord_query TO _ xs k T Hi) as (X & l & e & Y & Hx & HX & HY & E); [by intros ->|].
  exists (map snd X), e, (map snd Y). unfold om_delete. rewrite E. cbn [rbind qr_cursor]. subst xs.
  destruct (t_remove OL _ X l e Y (match kcmp k (fst e) with Gt => 1 | _ => 0 end) T (or_intror M)) as (t' & -> & T' & M' & _). cbn [rbind].
  rewrite map_app, app_length in *. cbn [map snd length] in *. unfold rassert. rewrite bool_decide_eq_true_2 by lia. cbn [rbind].
  eexists. split_and!; try done. exists (X ++ Y). cbn [om_tree om_len]. rewrite map_app. split_and!; try done; [by apply M'| |].
  - rewrite (incr_app TO) in Hi |- *. destruct Hi as (H1 & H2 & H3). apply StronglySorted_inv in H2 as [H2 _]. split_and!; try done.
    intros a b Ha Hb. apply H3; [done|by right].
  - rewrite app_length. lia.
Qed.
Theorem t_om_delete m s k e : MapOf m s -> sm_get kcmp k s = Some e ->
  exists m', om_delete kcmp m k = Ok (Some e, m') /\ MapOf m' (sm_delete kcmp k s).
Proof.
  intros Hm Hg. destruct (om_delete_gen m s k Hm) as (s1 & e' & s2 & m' & -> & H1 & H2 & E & Hm'); [by intros ->|].
  rewrite sm_get_app in Hg by done. destruct e' as [k' v']. cbn in Hg. destruct (kcmp k k') eqn:Ek.
  - injection Hg as <-. exists m'. split; [done|]. by rewrite sm_delete_eq.
  - by rewrite sm_get_above in Hg.
  - by rewrite sm_get_above in Hg.
Qed.
Theorem t_om_delete_empty m k : MapOf m [] -> om_delete kcmp m k = Ok (None, m).
Proof.
  intros (xs & T & M & Hx & Hi & Hn). destruct xs; [|done]. unfold om_delete, query. by rewrite (t_query_empty OL _ _ _ T).
Qed.
(** deleting an absent key from a non-empty map always removes another entry *)
Theorem t_om_delete_absent m s k : MapOf m s -> s <> [] -> sm_get kcmp k s = None ->
  exists s1 e s2 m', s = s1 ++ e :: s2 /\ kcmp k (fst e) <> Eq /\ om_delete kcmp m k = Ok (Some e, m') /\ MapOf m' (s1 ++ s2).
Proof.
  intros Hm Hne Hg. destruct (om_delete_gen m s k Hm Hne) as (s1 & e & s2 & m' & -> & H1 & H2 & E & Hm').
  exists s1, e, s2, m'. split_and!; try done. intros Ek. rewrite sm_get_app in Hg by done. destruct e as [k' v']. cbn in *. by rewrite Ek in Hg.
Qed.
Lemma map_shallow m s : MapOf m s -> length s < 2 * 6 ^ 9 -> Shallow (om_tree kcmp m) 9.
Proof.
  intros (xs & T & M & <- & _) Hl. rewrite map_length in Hl. pose proof T as [d I]. pose proof (in_order _ _ _ _ I) as Ho.
  destruct (decide (length xs = 0)) as [E0|E0].
  - apply nil_length_inv in E0 as ->. exact (empty_shallow OL _ 9 T ltac:(lia)).
  - exists d, xs. split; [done|]. destruct (decide (d <= 9)); [done|]. exfalso.
    pose proof (t_depth_min OL _ d xs T ltac:(by intros ->) M Ho ltac:(lia)) as Hd.
    assert (6 ^ 9 <= 6 ^ (d - 1)) by (apply Nat.pow_le_mono_r; lia). apply (Nat.lt_irrefl (@length (nat * Elem OT) xs)). eapply Nat.lt_le_trans; [exact Hl|]. etransitivity; [|exact Hd]. by apply Nat.mul_le_mono_l.
Qed.
Theorem t_om_iter m s : MapOf m s -> length s < 2 * 6 ^ 9 -> om_iter kcmp m = Ok s /\ om_iter_key kcmp m = Ok (map fst s) /\ om_len kcmp m = length s /\
  om_is_empty kcmp m = bool_decide (s = []).
Proof.
  intros Hm Hl. pose proof (map_shallow m s Hm Hl) as Hs. destruct Hm as (xs & T & M & <- & Hi & Hn).
  assert (om_iter kcmp m = Ok (map snd xs)) as E by (by apply (t_iter OL)).
  split_and!; try done.
  - unfold om_iter_key. by rewrite E.
  - unfold om_is_empty. apply bool_decide_ext. rewrite Hn. split; [apply nil_length_inv|by intros ->].
Qed.

(** ** Histories: any sequence of insertions and deletions of present keys *)
Inductive mop := MIns (k : Key) (v : Value) | MDel (k : Key).
Definition mstep (o : mop) m : res (omap_t Key Value kcmp) :=
  match o with
  | MIns k v => om_insert kcmp m k v
  | MDel k => let? (_, m') := om_delete kcmp m k in Ok m'
  end.
Fixpoint mrun (os : list mop) m : res (omap_t Key Value kcmp) :=
  match os with [] => Ok m | o :: os => let? m := mstep o m in mrun os m end.
(** the same history on association lists; [None] when a key that is not there is deleted from a non-empty map *)
Fixpoint sm_run (os : list mop) s : option (list (Key * Value)) :=
  match os with
  | [] => Some s
  | MIns k v :: os => sm_run os (sm_insert kcmp k v s)
  | MDel k :: os => match s, sm_get kcmp k s with
                    | [], _ => sm_run os []
                    | _, Some _ => sm_run os (sm_delete kcmp k s)
                    | _, None => None
                    end
  end.
Theorem t_om_run os m s s' : MapOf m s -> sm_run os s = Some s' -> exists m', mrun os m = Ok m' /\ MapOf m' s'.
Proof.
  revert m s. induction os as [|[k v|k] os IH]; intros m s Hm Hr; cbn [sm_run mrun mstep] in *.
  - injection Hr as <-. eauto.
  - destruct (t_om_insert m s k v Hm) as (m' & -> & Hm'). cbn [rbind]. by eapply IH.
  - destruct s as [|a s].
    + rewrite (t_om_delete_empty m k Hm). cbn [rbind]. by eapply IH.
    + destruct (sm_get kcmp k (a :: s)) as [e|] eqn:Eg; [|done].
      destruct (t_om_delete m _ k e Hm Eg) as (m' & -> & Hm'). cbn [rbind]. by eapply IH.
Qed.

(** the association-list operations are the map operations *)
Lemma to_eq_trans x y z : kcmp x y = Eq -> kcmp y z = kcmp x z.
Proof.
  intros E. destruct (kcmp y z) eqn:E1, (kcmp x z) eqn:E2; try done; exfalso.
  - assert (kcmp y z = Lt) as F; [|congruence]. apply (to_le_lt TO y x z); [|done]. apply (to_eq TO) in E. by rewrite E.
  - assert (kcmp x z <> Gt) as F; [|congruence]. apply (to_trans _ TO x y z); congruence.
  - assert (kcmp x z = Lt) as F; [|congruence]. apply (to_le_lt TO x y z); [|done]. by rewrite E.
  - assert (kcmp x z = Lt) as F; [|congruence]. apply (to_le_lt TO x y z); [|done]. by rewrite E.
  - assert (kcmp y z <> Gt) as F; [|congruence]. apply (to_trans _ TO y x z); [|congruence]. apply (to_eq TO) in E. by rewrite E.
  - assert (kcmp y z = Lt) as F; [|congruence]. apply (to_le_lt TO y x z); [|done]. apply (to_eq TO) in E. by rewrite E.
Qed.
Theorem sm_get_insert k v s : exists k', kcmp k k' = Eq /\ sm_get kcmp k (sm_insert kcmp k v s) = Some (k', v).
Proof.
  induction s as [|[k1 v1] s IH]; cbn.
  - exists k. by rewrite (to_refl _ TO).
  - destruct (kcmp k k1) eqn:E; cbn.
    + exists k1. by rewrite E.
    + exists k. by rewrite (to_refl _ TO).
    + rewrite E. done.
Qed.
Theorem sm_get_insert_ne k k2 v s : kcmp k k2 <> Eq -> option_map snd (sm_get kcmp k2 (sm_insert kcmp k v s)) = option_map snd (sm_get kcmp k2 s).
Proof.
  intros Hn. assert (forall k1, kcmp k k1 = Eq -> kcmp k2 k1 <> Eq) as G.
  { intros k1 E F. apply Hn. apply (to_eq TO) in F. rewrite <- (to_eq_trans k k1 k2 E). done. }
  assert (kcmp k2 k <> Eq) as Hn' by (intros F; by apply (to_eq TO) in F).
  induction s as [|[k1 v1] s IH]; cbn.
  - by destruct (kcmp k2 k).
  - destruct (kcmp k k1) eqn:E; cbn.
    + specialize (G k1 E). by destruct (kcmp k2 k1).
    + by destruct (kcmp k2 k).
    + destruct (kcmp k2 k1); done.
Qed.
Lemma incr_cons a s : Incr (kcmp := kcmp) (a :: s) -> Incr (kcmp := kcmp) s /\ forall b, b ∈ s -> kcmp (fst a) (fst b) = Lt.
Proof. intros Hs. apply StronglySorted_inv in Hs as [Hs F]. rewrite Forall_forall in F. done. Qed.
Theorem sm_get_delete k s : Incr (kcmp := kcmp) s -> sm_get kcmp k (sm_delete kcmp k s) = None.
Proof.
  induction s as [|[k1 v1] s IH]; intros Hi; [done|]. apply incr_cons in Hi as [Hi F]. cbn. destruct (kcmp k k1) eqn:E; cbn.
  - apply sm_get_above. intros b Hb. specialize (F b Hb). cbn in F. rewrite <- (to_eq_trans k k1); done.
  - rewrite E. by apply IH.
  - rewrite E. by apply IH.
Qed.
Theorem sm_get_delete_ne k k2 s : kcmp k k2 <> Eq -> sm_get kcmp k2 (sm_delete kcmp k s) = sm_get kcmp k2 s.
Proof.
  intros Hn. induction s as [|[k1 v1] s IH]; [done|]. cbn. destruct (kcmp k k1) eqn:E; cbn.
  - destruct (kcmp k2 k1) eqn:F; [|done|done]. exfalso. apply Hn. apply (to_eq TO) in F. rewrite <- (to_eq_trans k k1 k2 E). done.
  - destruct (kcmp k2 k1); done.
  - destruct (kcmp k2 k1); done.
Qed.

(** what an observer sees of a map holding [s] *)
Theorem t_om_history os s : sm_run os [] = Some s ->
  exists m, mrun os (om_new kcmp) = Ok m /\ MapOf m s /\ StronglySorted (fun a b => kcmp (fst a) (fst b) = Lt) s /\
    om_len kcmp m = length s /\ om_is_empty kcmp m = bool_decide (s = []) /\
    (length s < 2 * 6 ^ 9 -> om_iter kcmp m = Ok s /\ om_iter_key kcmp m = Ok (map fst s)).
Proof.
  intros Hr. destruct (t_om_run os _ _ s new_map Hr) as (m & E & Hm). exists m. pose proof Hm as (xs & T & M & Hx & Hi & Hn).
  split_and!; try done.
  - unfold om_is_empty. apply bool_decide_ext. rewrite Hn. split; [apply nil_length_inv|by intros ->].
  - intros Hl. by destruct (t_om_iter m s Hm Hl) as (? & ? & _).
Qed.
(** consistency of a map that holds at least one entry *)
Theorem t_om_check m s a z : MapOf m s -> head s = Some a -> last s = Some z ->
  root_cache (om_tree kcmp m) = Some (fst a, fst z) /\ (length s < 2 * 6 ^ 9 -> check (om_tree kcmp m) = Ok tt).
Proof.
  intros Hm Ha Hz. split.
  - destruct Hm as (xs & T & M & <- & Hi & Hn). assert (Hne : xs <> []) by (by intros ->).
    rewrite (t_root_cache OL _ xs T) by (by left). destruct (agg_ord TO xs Hne) as (a' & b' & s1 & s2 & _ & _ & E1 & E2 & ->).
    rewrite E1 in Ha. rewrite E2, map_app in Hz. cbn in Ha, Hz. rewrite last_snoc in Hz. by injection Ha as ->; injection Hz as ->.
  - intros Hl. pose proof (map_shallow m s Hm Hl) as Hs. destruct Hm as (xs & T & M & <- & Hi & Hn).
    apply (t_check OL _ xs T Hs). left. by intros ->.
Qed.
End map.

(** ** OrdTreeSet *)
Section set.
Context {Key : Type} {kcmp : Key -> Key -> comparison} (TO : TOrd kcmp).
Implicit Types (k : Key) (s : list Key).
(** specification: sorted lists without repetition *)
Fixpoint ss_insert k s : list Key :=
  match s with
  | [] => [k]
  | k' :: s' => match kcmp k k' with Lt => k :: s | Eq => s | Gt => k' :: ss_insert k s' end
  end.
Fixpoint ss_mem k s : bool := match s with [] => false | k' :: s' => match kcmp k k' with Eq => true | _ => ss_mem k s' end end.
Fixpoint ss_delete k s : list Key :=
  match s with [] => [] | k' :: s' => match kcmp k k' with Eq => s' | _ => k' :: ss_delete k s' end end.
Lemma ss_insert_fst k (m : list (Key * unit)) : map fst (sm_insert kcmp k tt m) = ss_insert k (map fst m).
Proof. induction m as [|[k' []] m IH]; [done|]. cbn. destruct (kcmp k k'); cbn; by rewrite ?IH. Qed.
Lemma ss_delete_fst k (m : list (Key * unit)) : map fst (sm_delete kcmp k m) = ss_delete k (map fst m).
Proof. induction m as [|[k' []] m IH]; [done|]. cbn. destruct (kcmp k k'); cbn; by rewrite ?IH. Qed.
Lemma ss_mem_fst k (m : list (Key * unit)) : ss_mem k (map fst m) = match sm_get kcmp k m with Some _ => true | None => false end.
Proof. induction m as [|[k' []] m IH]; [done|]. cbn. destruct (kcmp k k'); cbn; by rewrite ?IH. Qed.
(** what the set lists mean *)
Lemma ss_mem_spec k s : ss_mem k s = true <-> exists k', k' ∈ s /\ kcmp k k' = Eq.
Proof.
  induction s as [|k' s IH]; cbn.
  - split; [done|]. by intros (? & ?%elem_of_nil & _).
  - destruct (kcmp k k') eqn:E.
    + split; [|done]. intros _. exists k'. split; [left|done].
    + rewrite IH. split; intros (k1 & H1 & H2); exists k1; (split; [|done]); [by right|]. apply elem_of_cons in H1 as [-> |H1]; [congruence|done].
    + rewrite IH. split; intros (k1 & H1 & H2); exists k1; (split; [|done]); [by right|]. apply elem_of_cons in H1 as [-> |H1]; [congruence|done].
Qed.
Definition SetOf (t : omap_t Key unit kcmp) s : Prop := exists m, MapOf TO t m /\ map fst m = s.

Inductive sop := SIns k | SDel k.
Fixpoint srun (os : list sop) (t : omap_t Key unit kcmp) : res (list bool * omap_t Key unit kcmp) :=
  match os with
  | [] => Ok ([], t)
  | SIns k :: os => let? t := os_insert kcmp t k in srun os t
  | SDel k :: os => let? (b, t) := os_delete kcmp t k in let? (bs, t) := srun os t in Ok (b :: bs, t)
  end.
(** the same history on sorted lists, with the answers of [delete] *)
Fixpoint ss_run (os : list sop) s : option (list bool * list Key) :=
  match os with
  | [] => Some ([], s)
  | SIns k :: os => ss_run os (ss_insert k s)
  | SDel k :: os =>
      match s with
      | [] => match ss_run os [] with Some (bs, s) => Some (false :: bs, s) | None => None end
      | _ => if ss_mem k s then match ss_run os (ss_delete k s) with Some (bs, s) => Some (true :: bs, s) | None => None end else None
      end
  end.
Theorem t_os_run os t s bs s' : SetOf t s -> ss_run os s = Some (bs, s') -> exists t', srun os t = Ok (bs, t') /\ SetOf t' s'.
Proof.
  revert t s bs. induction os as [|[k|k] os IH]; intros t s bs (m & Hm & <-) Hr; cbn [srun ss_run] in *.
  - injection Hr as <- <-. eexists. split; [done|]. by exists m.
  - unfold os_insert. destruct (t_om_insert TO t m k tt Hm) as (t' & -> & Hm'). cbn [rbind]. eapply IH; [|exact Hr].
    eexists. split; [done|]. apply ss_insert_fst.
  - unfold os_delete. destruct m as [|a m].
    + cbn [map] in Hr. destruct (ss_run os []) as [[bs' s1]|] eqn:E; [|done]. injection Hr as <- <-.
      rewrite (t_om_delete_empty TO t k Hm). cbn [rbind]. destruct (IH t [] bs') as (t' & -> & Ht'); [by exists []|done|]. cbn [rbind]. eauto.
    + rewrite <- (ss_delete_fst k (a :: m)), ss_mem_fst in Hr. destruct (sm_get kcmp k (a :: m)) as [e|] eqn:Eg; [|done].
      cbn [map] in Hr. destruct (ss_run os _) as [[bs' s1]|] eqn:E; [|done]. injection Hr as <- <-.
      destruct (t_om_delete TO t _ k e Hm Eg) as (t1 & -> & Hm'). cbn [rbind].
      destruct (IH t1 _ bs' ltac:(eexists; split; [exact Hm'|reflexivity]) E) as (t' & -> & Ht'). cbn [rbind]. eauto.
Qed.
Theorem t_os_history os bs s : ss_run os [] = Some (bs, s) ->
  exists t, srun os (os_new kcmp) = Ok (bs, t) /\ StronglySorted (fun a b => kcmp a b = Lt) s /\ om_len kcmp t = length s /\
    (length s < 2 * 6 ^ 9 -> os_iter kcmp t = Ok s).
Proof.
  intros Hr. destruct (t_os_run os (os_new kcmp) [] bs s) as (t & E & m & Hm & <-); [exists []; split; [apply new_map|done]|done|].
  exists t. split; [done|]. pose proof Hm as (xs & T & M & Hx & Hi & Hn). split_and!.
  - clear -Hi. induction Hi as [|a m Hm IH F]; cbn; constructor; [done|]. apply Forall_forall. intros k (b & -> & Hb)%elem_of_list_fmap. rewrite Forall_forall in F. by apply (F b).
  - by rewrite map_length.
  - intros Hl. rewrite map_length in Hl. unfold os_iter. by destruct (t_om_iter TO t m Hm Hl) as (_ & ? & _).
Qed.
End set.
Lemma nat_TO : TOrd Nat.compare.
Proof.
  constructor.
  - intros x. apply Nat.compare_refl.
  - intros x y. apply Nat.compare_antisym.
  - intros x y z. rewrite !Nat.compare_le_iff. lia.
Qed.

(** a concrete history: 40 interleaved insertions, a replaced value, deletions *)
Definition demo_ops : list mop :=
  map (fun i => MIns (i * 17 mod 40) i) (seq 0 40) ++ [MIns 7 100; MDel 3; MDel 39; MDel 0].
Definition demo_map : list (nat * nat) := match sm_run (kcmp := Nat.compare) demo_ops [] with Some s => s | None => [] end.
Lemma demo_ops_ok : sm_run (kcmp := Nat.compare) demo_ops [] = Some demo_map /\ length demo_map = 37 /\ map fst demo_map = [1; 2] ++ seq 4 35 /\
  sm_get Nat.compare 7 demo_map = Some (7, 100) /\ sm_get Nat.compare 3 demo_map = None.
Proof. by vm_compute. Qed.
