(** ByQuery.v — the operations that take a query: insert, range, drain_by_query,
    update_leaf_by_search, for length queries; and the depth limit of update_leaf_by_search. *)
From Verif Require Export Many Ulbs.

Section deep.
Context {B : BTreeTrait} (L : Lawful B).
Notation btree := (btree B).
Lemma ulbs_descend_deep (Q : Query B) (t : btree) H lv (q : QArg Q) : WT NoE t H lv -> forall f i pos path (s : Qst Q) fd qr (s' : Qst Q),
  query_f Q f t i s q fd = Ok (Some qr, s') -> is_Some (kids t i) -> 10 <= lv i + length path -> length path <= 10 ->
  ulbs_descend Q (S f) t (AInt i) pos s q path = Panic.
Proof.
  intros W f. induction f as [|f IH]; intros i pos path s fd qr s' Hq Hi H10 Hp; [done|].
  cbn [query_f] in Hq. remember (S f) as f1 eqn:Ef. cbn [ulbs_descend]. unfold vec_push at 1.
  destruct (decide (length path < 10)) as [Hl|Hl]; [|done]. cbn [rbind].
  destruct (get_in t i) as [n| |] eqn:Hg; cbn [rbind] in *; try done.
  destruct (q_find Q s q (n_children n)) as [[[[ix o] fd1] s1]| |]; cbn [rbind] in *; try done.
  destruct (n_is_empty n); cbn [negb rassert rbind] in Hq; try done.
  unfold vec_get in *. destruct (n_children n !! ix) as [c|] eqn:Hc; cbn [ropt rbind] in *; try done.
  destruct (get_in_inv _ _ _ Hg) as [Hk _].
  assert (Hch : chs t i !! ix = Some (c_arena c)) by (by rewrite (chs_kids _ _ _ Hk), list_lookup_fmap, Hc).
  destruct (wt_ch W _ _ _ Hch) as [Hlive Hlv].
  destruct (c_arena c) as [l0|m] eqn:Ea; cbn in Hlv; [lia|]. subst f1.
  eapply IH; [exact Hq|done|rewrite app_length; cbn; lia|rewrite app_length; cbn; lia].
Qed.
Lemma ulbs_deep_ok (Q : Query B) (t : btree) H lv (q : QArg Q) qr (s' : Qst Q) f : OK L t H lv -> 10 <= H ->
  query_with_finder_return Q t q = Ok (Some qr, s') -> update_leaf_by_search Q t q f = Panic.
Proof.
  intros O HH Hq. pose proof (ok_wt _ _ _ _ O) as W.
  unfold query_with_finder_return in Hq. unfold update_leaf_by_search.
  destruct (is_empty t) as [emp| |]; cbn [rbind] in *; try done. destruct emp; [done|].
  assert (Hlr : lv (raw (root t)) = H). { destruct (wt_root W) as (r & -> & _ & Hr). done. }
  pose proof (ulbs_descend_deep Q t H lv q W _ (raw (root t)) 0 [] _ _ _ _ Hq) as Ed.
  rewrite <- (wt_root_id W) in Ed. rewrite Ed; [done|apply (wt_root_live W)|cbn; lia|cbn; lia].
Qed.
Theorem t_ulbs_deep (Q : Query B) (t : btree) xs (q : QArg Q) qr (s' : Qst Q) f : Tree L t xs -> xs <> [] -> ~ Shallow t 10 ->
  query_with_finder_return Q t q = Ok (Some qr, s') -> update_leaf_by_search Q t q f = Panic.
Proof.
  intros T Hne Hsh Hq. destruct (Tree_OK L _ _ T) as (H & lv & O & Hc). pose proof (ok_wt _ _ _ _ O) as W.
  eapply ulbs_deep_ok; [exact O| |exact Hq].
  destruct (decide (10 <= H)); [done|]. exfalso. apply Hsh. exists (S H), xs. rewrite Hc. split; [by eapply content_cont|lia].
Qed.
Theorem t_ulbs_second (Q : Query B) (t : btree) X l e Y (q : QArg Q) off fd (s' : Qst Q) f :
  Tree L t (X ++ (l, e) :: Y) -> query_with_finder_return Q t q = Ok (Some (mkQR (mkCur l off) fd), s') ->
  (forall fnd, exists e' d n1 n2, f e (mkQR (mkCur l off) fnd) = (e', Some (d, n1, Some n2))) -> update_leaf_by_search Q t q f = Panic.
Proof.
  intros T Hq Hf. destruct (Tree_OK L _ _ T) as (H & lv & O & Hc). pose proof (ok_wt _ _ _ _ O) as W.
  assert (He : el t l = Some e) by (apply (cont_el (H := H)); rewrite <- Hc; clear; set_solver).
  destruct (decide (10 <= H)) as [HH|HH]; [by eapply ulbs_deep_ok|].
  unfold query_with_finder_return in Hq. unfold update_leaf_by_search. destruct (is_empty t) as [emp| |]; cbn [rbind] in *; try done. destruct emp; [done|].
  assert (Hlr : lv (raw (root t)) = H) by (destruct (wt_root W) as (r & -> & _ & Hr); done).
  destruct (ulbs_descend_ok Q t H lv q W _ (raw (root t)) 0 [] _ _ _ _ _ _ Hq) as (cpos & s1 & path' & lf & fnd & Ed & HU & Hgl & Hqc & Hfd);
    [apply (wt_root_live W)|rewrite <- (wt_root_id W); constructor|rewrite Hlr; cbn; lia|].
  rewrite <- (wt_root_id W) in Ed. rewrite Ed. cbn [rbind]. rewrite Hgl. cbn [rbind]. rewrite Hqc.
  destruct (get_lf_inv _ _ _ Hgl) as [He2 _]. rewrite He in He2. injection He2 as He2. rewrite <- He2.
  destruct (Hf fnd) as (e' & d & n1 & n2 & ->). done.
Qed.
End deep.

Section byq.
Context {B : BTreeTrait} (L : Lawful B) (get_len : Cache B -> nat) (HL : LenCache L get_len).
Notation btree := (btree B).
Notation LQ := (LengthFinder get_len).
Implicit Types (t : btree) (xs X Y : list (nat * Elem B)).

Theorem t_range t xs X1 l1 e1 Y1 k1 X2 l2 e2 Y2 k2 : Tree L t xs ->
  xs = X1 ++ (l1, e1) :: Y1 -> k1 < rle_len e1 -> xs = X2 ++ (l2, e2) :: Y2 -> k2 < rle_len e2 ->
  range LQ t (tlen X1 + k1) (tlen X2 + k2) = Ok (Some (mkQR (mkCur l1 k1) true, mkQR (mkCur l2 k2) true)).
Proof.
  intros T E1 H1 E2 H2. unfold range. rewrite (t_is_empty L t xs T), bool_decide_eq_false_2; [|rewrite E1; by destruct X1]. cbn [rbind].
  rewrite (t_len_query_in L get_len t X1 l1 e1 Y1 k1 HL) by (by rewrite <- ?E1). cbn [rbind ropt].
  rewrite (t_len_query_in L get_len t X2 l2 e2 Y2 k2 HL) by (by rewrite <- ?E2). done.
Qed.
Theorem t_range_end t xs X1 l1 e1 Y1 k1 X2 l2 e2 : Tree L t xs ->
  xs = X1 ++ (l1, e1) :: Y1 -> k1 < rle_len e1 -> xs = X2 ++ [(l2, e2)] ->
  range LQ t (tlen X1 + k1) (tlen xs) = Ok (Some (mkQR (mkCur l1 k1) true, mkQR (mkCur l2 (rle_len e2)) false)).
Proof.
  intros T E1 H1 E2. unfold range. rewrite (t_is_empty L t xs T), bool_decide_eq_false_2; [|rewrite E1; by destruct X1]. cbn [rbind].
  rewrite (t_len_query_in L get_len t X1 l1 e1 Y1 k1 HL) by (by rewrite <- ?E1). cbn [rbind ropt].
  assert (tlen xs = tlen X2 + rle_len e2) as -> by (rewrite E2; apply tlen_snoc).
  rewrite (t_len_query_end L get_len t X2 l2 e2 HL) by (by rewrite <- ?E2). done.
Qed.
Lemma len_cur t xs q : Tree L t xs -> xs <> [] -> q <= tlen xs ->
  exists cur s, query_with_finder_return LQ t q = Ok (Some (mkQR cur (bool_decide (q < tlen xs))), s) /\ CurAt xs cur q.
Proof.
  intros T Hne Hq. destruct (t_len_query L get_len t xs q HL T Hne) as (X & l & e & Y & s & Ex & Hx & HY & E & _).
  exists (mkCur l (q - tlen X)), s. split; [done|]. exists X, e, Y. cbn [cu_leaf cu_offset]. split; [done|].
  rewrite Ex, tlen_app, tlen_cons in Hq. destruct (decide (tlen X + rle_len e <= q)) as [Hle|]; [|lia].
  rewrite (HY Hle), tlen_nil in Hq. lia.
Qed.
(** insertion at a position: whole content, flattened *)
Theorem t_insert_at {U : Type} (F : Flatten L U) t xs q x : Tree L t xs -> q <= tlen xs -> evalid L x ->
  exists cur' sl t' xs', BTree.insert LQ t q x = Ok (cur', sl, t') /\ Tree L t' xs' /\
    ft L F xs' = take q (ft L F xs) ++ fl F x ++ drop q (ft L F xs).
Proof.
  intros T Hq Vx. unfold BTree.insert, query. destruct (decide (length xs = 0)) as [E|E].
  - apply nil_length_inv in E as ->. rewrite (t_query_empty L LQ t q T). cbn [rbind].
    destruct (t_push L t [] x T Vx) as (cur & t' & -> & _ & _ & [(X & l & e & e' & E & _)|(n & _ & T' & _)]); [by destruct X|].
    cbn [rbind]. exists cur, [], t', [(n, x)]. split; [done|]. split; [done|].
    unfold ft. cbn. rewrite take_nil, drop_nil. done.
  - destruct (len_cur t xs q T) as (cur & s & -> & HC); [by destruct xs|done|]. cbn [rbind qr_cursor].
    destruct (fs_insert L F t xs cur q x T HC Vx) as (cur' & sl & t' & xs' & -> & T' & Ft & _). eauto 10.
Qed.
End byq.
