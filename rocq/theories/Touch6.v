(** Touch6.v — how many arena entries [update_leaf_by_search] writes. *)
From Verif Require Export Touch3.

Local Ltac unbind E := repeat (let z := fresh "z" in let Ez := fresh "Ez" in
  match type of E with rbind ?m _ = _ => destruct m as [z| |] eqn:Ez; cbn [rbind] in E; [|done..] end;
  try (match type of z with (_ * _)%type => destruct z; cbn [rbind] in E end)).

Section ulbs.
Context {B : BTreeTrait}.
Notation btree := (btree B).
Notation child := (child B).
Implicit Types (t : btree) (i m p k r v N : nat) (a b : aidx) (cs : list child) (d : Diff B).

(** a path, nearest ancestor first, whose levels go up by one from [v] *)
Fixpoint PL N (lv : nat -> nat) v (path : list idx) : Prop :=
  match path with [] => True | x :: path => (exists q, i_arena x = AInt q /\ q < N /\ lv q = v) /\ PL N lv (S v) path end.
Lemma pl_app N lv (p1 p2 : list idx) : forall v, PL N lv v (p1 ++ p2) <-> PL N lv v p1 /\ PL N lv (v + length p1) p2.
Proof.
  induction p1 as [|x p1 IH]; intros v; cbn [app PL length]; [rewrite Nat.add_0_r; tauto|]. rewrite IH, Nat.add_succ_r. cbn. tauto.
Qed.
Lemma pl_ext N lv lv' path : (forall j, j < N -> lv' j = lv j) -> forall v, PL N lv v path -> PL N lv' v path.
Proof.
  intros HE. induction path as [|x path IH]; intros v; [done|]. cbn. intros [(q & E & Hq & Hl) HP]. split; [|by apply IH]. exists q. by rewrite HE.
Qed.

(** the rebalancing of a node that is not the root leaves the root *)
Lemma slots_root cs : forall t j t', set_slots t cs j = Ok t' -> root t' = root t.
Proof. induction cs as [|c cs IH]; intros t j t'; cbn [set_slots]; [by intros [= <-]|]. intros E. rs E. by apply IH in E. Qed.
Lemma uc_root t (pa : aidx) j t' : update_children_parent_slot_from t pa j = Ok t' -> root t' = root t.
Proof. unfold update_children_parent_slot_from. intros E. rs E. destruct (_ || _); [by injection E as <-|by eapply slots_root]. Qed.
Lemma re_root es : forall t t', apply_re_parent t es = Ok t' -> root t' = root t.
Proof. induction es as [|[[a p] s] es IH]; intros t t'; cbn [apply_re_parent]; [by intros [= <-]|]. intros E. destruct a; rs E; by apply IH in E. Qed.
Lemma purge_root f : forall t st t', purge_f f t st = Ok t' -> root t' = root t.
Proof.
  induction f as [|f IH]; intros t st t'; cbn [purge_f]; destruct st as [|a st]; try done; try (by intros [= <-]).
  destruct a as [l|i]; [intros E; by apply IH in E|]. destruct (a_get _ _); intros E; by apply IH in E.
Qed.
Lemma hls_root t a o t' : handle_lack_single_layer t a = Ok (o, t') -> root t <> a -> root t' = root t.
Proof.
  unfold handle_lack_single_layer. intros E D. rewrite decide_False in E by done. rs E. clear Ey Ey0 Ey1 Ey2 Ey3 Ey4.
  destruct (n_children y0).
  { rs E. match goal with H : vec_remove _ _ = Ok ?x |- _ => destruct x end. cbn [rbind] in E. rs E. injection E as <- <-. match goal with H : update_children_parent_slot_from _ _ _ = _ |- _ => by apply uc_root in H end. }
  destruct (pair_neighbor t a) as [[[x1 x2]|]| |]; cbn [rbind] in E; [|by injection E as <- <-|done..].
  rs E. case_decide.
  - match type of E with rbind ?m _ = _ => destruct m as [[[A' B'] re]| |]; cbn [rbind] in E; [|done..] end.
    unbind E.
    injection E as <- <-. match goal with H : apply_re_parent _ _ = _ |- _ => by apply re_root in H end.
  - match type of E with rbind ?m _ = _ => destruct m as [u| |]; cbn [rbind] in E; [|done..] end.
    match type of E with rbind ?m _ = _ => destruct m as [[[lk re] t2]| |] eqn:Em; cbn [rbind] in E; [|done..] end.
    assert (root t2 = root t) as R2.
    { clear E. case_decide.
      all: unbind Em.
      all: injection Em as <- <- <-; match goal with H : update_children_parent_slot_from _ _ _ = _ |- _ => apply uc_root in H as -> end;
        match goal with H : purge _ _ = _ |- _ => unfold purge in H; apply purge_root in H as -> end; done. }
    clear Em. rs E. injection E as <- <-. match goal with H : apply_re_parent _ _ = _ |- _ => apply re_root in H as -> end. done.
Qed.

Lemma ulbs_delete_to H lv d r N path : forall t (first lack : bool) a pos lack' t' v, ulbs_delete t path first lack a pos d = Ok (lack', t') -> Lev t H lv -> root t = AInt r ->
  PL N lv v path -> S (lv r) = v + length path -> (lack = true -> exists i, a = AInt i /\ S (lv i) = v) -> Touched (29 * length path) t t' /\ Lev t' H lv.
Proof.
  induction path as [|[p pp] path IH]; intros t first lack a pos lack' t' v; cbn [ulbs_delete].
  { intros [= <- <-] HL _ _ _ _. split; [apply to_refl0|done]. }
  intros E HL Er [(q & Eq & _ & Hq) HP] Hr Hl. cbn in Eq. subst p. cbn [unwrap_internal rbind] in E.
  destruct (get_in t q) as [pn| |] eqn:G; cbn [rbind] in E; [|done..]. pose proof (lev_get _ _ _ _ _ HL G) as Hn. pose proof Hn as (_ & _ & N3 & _).
  match type of E with rbind ?m _ = _ => destruct m as [cs| |] eqn:Ec; cbn [rbind] in E; [|done..] end.
  assert (L1 : Lev (set_in t q (with_children pn cs)) H lv).
  { apply lev_set; [done|]. destruct first.
    - destruct (vec_remove _ _) as [[c0 cs0]| |] eqn:Ev; cbn [rbind] in Ec; [|done..]. injection Ec as <-. apply vec_remove_in in Ev as (V1 & _ & V2).
      apply (ln_with _ _ _ _ _ _ Hn); [cbn; lia|by left|]. cbn. intros c m Hc Ha. left. exists c. split; [by apply V2|done].
    - apply ln_arenas; [done|]. by apply apply_cache_ar in Ec. }
  match type of E with rbind ?m _ = _ => destruct m as [t2| |] eqn:E2; cbn [rbind] in E; [|done..] end.
  assert (Touched 28 (set_in t q (with_children pn cs)) t2 /\ Lev t2 H lv /\ root t2 = AInt r) as (T2 & L2 & R2).
  { destruct lack.
    - destruct (Hl eq_refl) as (i & -> & Hi). destruct (handle_lack_single_layer _ _) as [[o t3]| |] eqn:Eh; cbn [rbind] in E2; [|done..]. injection E2 as <-.
      assert (Dr : root (set_in t q (with_children pn cs)) <> AInt i).
      { change (root t <> AInt i). rewrite Er. intros [= ->]. cbn [length] in Hr. lia. }
      pose proof (hls_root _ _ _ _ Eh Dr) as Rt. pose proof (lack1_ne H lv _ _ _ _ Eh Dr L1) as HN. split_and!; [| |by rewrite Rt].
      + destruct o as [x|]; [by destruct HN as (p & _ & _ & _ & ? & _)|apply HN].
      + destruct o as [x|]; [by destruct HN as (p & _ & _ & _ & _ & ?)|apply HN].
    - injection E2 as <-. split_and!; try done. eapply to_le; [apply to_refl0|lia]. }
  destruct (IH _ _ _ _ _ _ _ (S v) E L2 R2 HP) as [T3 L3]; [cbn [length] in Hr; lia|intros _; exists q; split; [done|lia]|].
  split; [|done]. eapply to_le; [eapply (to_trans 1); [apply to_set_in|eapply to_trans; [exact T2|exact T3]]|cbn [length]; lia].
Qed.
Lemma ulbs_insert_to H d N path : forall lv t pos new new' t' v, ulbs_insert t path pos d new = Ok (new', t') -> Lev t H lv -> N <= anext (in_nodes t) ->
  PL N lv v path -> (forall c ch m, new = Some (c, ch) -> c_arena ch = AInt m -> m < anext (in_nodes t) /\ S (lv m) = v) -> Touched (28 * length path) t t' /\ exists lv', Lev t' H lv'.
Proof.
  induction path as [|[p pp] path IH]; intros lv t pos new new' t' v; cbn [ulbs_insert].
  { intros [= <- <-] HL _ _ _. split; [apply to_refl0|eauto]. }
  intros E HL HN [(q & Eq & Hqn & Hq) HP] Hnew. cbn in Eq. subst p. cbn [unwrap_internal rbind] in E.
  destruct (get_in t q) as [pn| |] eqn:G; cbn [rbind] in E; [|done..]. pose proof (lev_get _ _ _ _ _ HL G) as Hn. pose proof Hn as (_ & _ & N3 & _).
  destruct new as [[cache ch]|].
  - destruct (set_child_cache _ _ _) as [cs1| |] eqn:E1; cbn [rbind] in E; [|done..]. apply set_cache_ar in E1.
    destruct (vec_insert _ _ _ _) as [cs| |] eqn:E2; cbn [rbind] in E; [|done..]. apply vec_insert_in in E2 as [V1 V2].
    assert (L1 : Lev (set_in t q (with_children pn cs)) H lv).
    { apply lev_set; [done|]. apply (ln_with _ _ _ _ _ _ Hn); [done|by left|]. cbn. intros c m Hc Ha. destruct (V2 c Hc) as [->|Hc'].
      - right. destruct (Hnew _ _ m eq_refl Ha). lia.
      - left. by eapply ar_in. }
    match type of E with rbind ?m _ = _ => destruct m as [t2| |] eqn:Eu; cbn [rbind] in E; [|done..] end.
    assert (Touched 12 (set_in t q (with_children pn cs)) t2 /\ Lev t2 H lv /\ anext (in_nodes t2) = anext (in_nodes t)) as (T2 & L2 & A2).
    { destruct (is_child_leaf _); [injection Eu as <-; split_and!; try done; eapply to_le; [apply to_refl0|lia]|]. exact (uc_slots_st H lv _ _ _ _ Eu L1). }
    destruct (is_full _).
    + destruct (split_node t2 (AInt q)) as [[[[[np s] tc] rc] t3]| |] eqn:Es; cbn [rbind] in E; [|done..].
      destruct (split_node_st H lv _ _ _ _ _ _ _ Es L2) as (lv' & T3 & L3 & Hlv & A3 & _ & _ & Hrc).
      destruct (IH lv' _ _ _ _ _ (S v) E L3) as [T4 L4]; [lia| | |split; [|done]].
      * apply (pl_ext N lv); [|done]. intros j Hj. apply Hlv. lia.
      * intros c ch' m [= <- <-] Ha. destruct (Hrc m Ha) as [Hm1 Hm2]. lia.
      * eapply to_le; [eapply (to_trans 1); [apply to_set_in|eapply to_trans; [exact T2|eapply to_trans; [exact T3|exact T4]]]|cbn [length]; lia].
    + destruct (IH lv _ _ _ _ _ (S v) E L2) as [T4 L4]; [lia|done|done|split; [|done]].
      eapply to_le; [eapply (to_trans 1); [apply to_set_in|eapply to_trans; [exact T2|exact T4]]|cbn [length]; lia].
  - destruct (apply_child_cache _ _ _) as [cs| |] eqn:E1; cbn [rbind] in E; [|done..]. apply apply_cache_ar in E1.
    destruct (IH lv _ _ _ _ _ (S v) E) as [T4 L4]; [apply lev_set; [done|by apply ln_arenas]|done|done|done|split; [|done]].
    eapply to_le; [eapply (to_trans 1); [apply to_set_in|exact T4]|cbn [length]; lia].
Qed.
Lemma ulbs_descend_pl (Q : Query B) H lv t (q : QArg Q) : Lev t H lv -> forall f i pos (s : Qst Q) path l cpos s' path', ulbs_descend Q f t (AInt i) pos s q path = Ok (l, cpos, s', path') ->
  exists new v, path' = path ++ new /\ PL (anext (in_nodes t)) lv v (rev new) /\ S (lv i) = v + length new /\ lv i <= H.
Proof.
  intros HL. induction f as [|f IH]; intros i pos s path l cpos s' path'; [done|]. cbn [ulbs_descend]. intros E.
  unfold vec_push in E. case_decide; [|done]. cbn [rbind] in E.
  destruct (get_in t i) as [n| |] eqn:G; cbn [rbind] in E; [|done..]. pose proof (lev_get _ _ _ _ _ HL G) as (N1 & N2 & _ & _ & N5).
  destruct (q_find _ _ _ _) as [[[[ix o] fd] s1]| |]; cbn [rbind] in E; [|done..].
  destruct (vec_get (n_children n) ix) as [c| |] eqn:Hc; cbn [rbind] in E; [|done..]. apply vec_get_ok, elem_of_list_lookup_2 in Hc.
  destruct (c_arena c) as [lf|m] eqn:Ea.
  - destruct f as [|f]; [done|]. cbn [ulbs_descend] in E. injection E as <- <- <- <-. exists [mkIdx (AInt i) pos], (lv i). split_and!; [done|cbn; eauto|cbn; lia|done].
  - destruct (N5 c m Hc Ea) as [Hm1 Hm2]. destruct (IH _ _ _ _ _ _ _ _ E) as (new & v & -> & HP & Hv & _).
    exists (mkIdx (AInt i) pos :: new), v. split_and!; [by rewrite <- app_assoc| |cbn [length]; lia|done].
    cbn [rev]. apply pl_app. split; [done|]. rewrite rev_length. cbn. split; [|done]. exists i. split_and!; [done|done|lia].
Qed.

Theorem ulbs_to (Q : Query B) t H lv r (q : QArg Q) f x t' : Lev t H lv -> root t = AInt r -> update_leaf_by_search Q t q f = Ok (x, t') -> Touched (31 * H + 47) t t'.
Proof.
  intros HL Er E. unfold update_leaf_by_search in E. destruct (is_empty t) as [[|]| |]; cbn [rbind] in E; try done. rewrite Er in E.
  destruct (ulbs_descend _ _ _ _ _ _ _ _) as [[[[l cpos] s] path]| |] eqn:Ed; cbn [rbind] in E; [|done..].
  destruct (ulbs_descend_pl Q H lv t q HL _ _ _ _ _ _ _ _ _ Ed) as (new & v & -> & HP & Hv & Hr). cbn [app] in E.
  destruct (get_lf t l) as [lf| |]; cbn [rbind] in E; [|done..]. destruct (q_confirm _ _ _ _) as [[off found] s2].
  destruct (f _ _) as [e' [[[d n1] [n2|]]|]]; [done| |injection E as <- <-; eapply to_le; [apply to_set_lf|lia]].
  set (t1 := set_lf t l (with_elem lf e')) in *. assert (L1 : Lev t1 H lv) by (by apply (lev_same t)).
  destruct (can_remove e').
  - destruct (rassert _) as [u| |]; cbn [rbind] in E; [|done..].
    destruct (ulbs_delete _ _ _ _ _ _ _) as [[lack t2]| |] eqn:E2; cbn [rbind] in E; [|done..].
    destruct (ulbs_delete_to H lv d r (anext (in_nodes t)) _ (rem_lf t1 l) _ _ _ _ _ _ v E2) as [T2 L2]; [by apply (lev_same t1)|done|done|by rewrite rev_length|done|].
    rewrite rev_length in T2. destruct (apply_cache_diff _ _) as [c| |]; cbn [rbind] in E; [|done..].
    match type of E with rbind ?m _ = _ => destruct m as [t3| |] eqn:E3; cbn [rbind] in E; [|done..] end. injection E as <- <-.
    assert (T3 : Touched (2 * H + 13) (set_root_cache t2 c) t3).
    { destruct lack; [|injection E3 as <-; eapply to_le; [apply to_refl0|lia]]. destruct (get_internal _ _) as [rn| |]; cbn [rbind] in E3; [|done..].
      destruct (_ && _); [|injection E3 as <-; eapply to_le; [apply to_refl0|lia]]. eapply try_reduce_to; [exact E3|]. by apply (lev_same t2). }
    eapply to_le; [eapply (to_trans 1); [apply to_set_lf|eapply (to_trans 1); [apply to_rem_lf|eapply to_trans; [exact T2|eapply (to_trans 0); [apply (to_same t2 (set_root_cache t2 c)); done|exact T3]]]]|lia].
  - match type of E with rbind ?m _ = _ => destruct m as [[[nw sl] t2]| |] eqn:E2; cbn [rbind] in E; [|done..] end.
    assert (Touched 1 t1 t2 /\ Lev t2 H lv /\ anext (in_nodes t2) = anext (in_nodes t) /\ (forall c ch m, nw = Some (c, ch) -> c_arena ch = AInt m -> False)) as (T2 & L2 & A2 & Hn2).
    { destruct n1 as [e1|]; [|injection E2 as <- <- <-; split_and!; try done; eapply to_le; [apply to_refl0|lia]].
      destruct (ropt _) as [lp| |]; cbn [rbind] in E2; [|done..]. destruct (alloc_leaf_child t1 e1 (raw (i_arena lp))) as [ch t3] eqn:Ea.
      destruct (alloc_lev _ _ _ _ _ _ _ Ea L1) as (A1 & A2 & (l2 & A3)). destruct (sl_push _ _) as [sl0| |]; cbn [rbind] in E2; [|done..]. injection E2 as <- <- <-.
      split_and!; [done|done| |].
      - unfold alloc_leaf_child in Ea. rewrite (surjective_pairing (ins_lf _ _)) in Ea. by injection Ea as <- <-.
      - intros c ch' m [= <- <-]. by rewrite A3. }
    destruct (ulbs_insert _ _ _ _ _) as [[nw2 t3]| |] eqn:E3; cbn [rbind] in E; [|done..].
    destruct (ulbs_insert_to H d (anext (in_nodes t)) _ lv _ _ _ _ _ v E3 L2) as [T3 [lv3 L3]]; [lia|done|intros c ch m Hc Ha; by destruct (Hn2 c ch m Hc Ha)|]. rewrite rev_length in T3.
    match type of E with rbind ?m _ = _ => destruct m as [t4| |] eqn:E4; cbn [rbind] in E; [|done..] end. injection E as <- <-.
    assert (T4 : Touched 16 t3 t4).
    { destruct nw2 as [[cc ch]|]; [by eapply split_root_to|]. destruct (apply_cache_diff _ _); cbn [rbind] in E4; [|done..]. injection E4 as <-. apply (to_le 0); [by apply to_same|lia]. }
    eapply to_le; [eapply (to_trans 1); [apply to_set_lf|eapply to_trans; [exact T2|eapply to_trans; [exact T3|exact T4]]]|lia].
Qed.
Theorem t_ulbs_to (L : Lawful B) (Q : Query B) t dp xs (q : QArg Q) f x t' : Tree L t xs -> InOrder t (root t) dp xs -> update_leaf_by_search Q t q f = Ok (x, t') -> Touched (31 * dp + 16) t t'.
Proof.
  intros T Hio E. destruct (lev_tree L t dp xs T Hio) as (H & lv & HL & Hd). pose proof T as [d0 I]. destruct (in_top _ _ _ _ I) as (r & rn & Er & _).
  eapply to_le; [by eapply ulbs_to|lia].
Qed.
End ulbs.
