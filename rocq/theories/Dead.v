(** Dead.v — operations on a handle whose leaf is gone. *)
From Verif Require Export Ops2 Upd Ranges.

Section dead.
Context {B : BTreeTrait} (L : Lawful B).
Notation btree := (btree B).
Notation Tree := (Tree L).
Implicit Types (t : btree) (l off : nat).

Lemma dead_lf t l : get_elem t l = None -> get_lf t l = Panic.
Proof. unfold get_elem, get_lf. by destruct (a_get (leaf_nodes t) l). Qed.
Lemma dead_path t xs l : Tree t xs -> get_elem t l = None -> get_path t (ALeaf l) = Panic.
Proof.
  intros [d I] D. destruct (in_top _ _ _ _ I) as (r & rn & Hr & _). unfold get_path. cbn [get_path_f]. rewrite decide_False by (by rewrite Hr).
  by rewrite (dead_lf t l D).
Qed.
Lemma dead_split t l off : get_elem t l = None -> split_leaf_if_needed t (mkCur l off) = Panic.
Proof. intros D. unfold split_leaf_if_needed. cbn [split_leaf_f cu_leaf]. by rewrite (dead_lf t l D). Qed.

(** the calls that only read *)
Theorem dead_reads t xs l off : Tree t xs -> get_elem t l = None ->
  next_elem t (mkCur l off) = Panic /\ prev_elem t (mkCur l off) = Panic /\
  shift_path_by_one_offset t (mkCur l off) = Panic /\ visit_previous_caches t (mkCur l off) = Panic /\
  (forall c, (exists e, (cu_leaf c, e) ∈ xs) -> compare_pos t (mkCur l off) c = Panic /\ compare_pos t c (mkCur l off) = Panic) /\
  (forall b, iter_range t (Included (mkCur l off)) b = Panic) /\
  (forall c e, (cu_leaf c, e) ∈ xs -> iter_range t (Included c) (Included (mkCur l off)) = Panic /\ iter_range t (Included c) (Excluded (mkCur l off)) = Panic) /\
  prefer_right t (mkCur l off) = (if decide (off = 0) then Ok (Some (mkCur l off)) else Panic) /\
  prefer_left t (mkCur l off) = (if decide (off = 0) then Panic else Ok (Some (mkCur l off))).
Proof.
  intros T D. pose proof (dead_lf t l D) as Hl. pose proof (dead_path t xs l T D) as Hp.
  split_and!.
  - unfold next_elem. cbn [next_same_level_in_node cu_leaf]. by rewrite Hl.
  - unfold prev_elem. cbn [prev_same_level_in_node cu_leaf]. by rewrite Hl.
  - unfold shift_path_by_one_offset. cbn [cu_leaf]. by rewrite Hl.
  - unfold visit_previous_caches. cbn [cu_leaf]. by rewrite Hp.
  - intros c [e He]. assert (cu_leaf c <> l) as Hc.
    { intros E. destruct T as [d I]. apply (in_leaf _ _ _ _ I) in He. unfold get_elem in D. rewrite <- E in D. congruence. }
    apply (tree_in L _ _ _ _ T) in He. unfold el in He. unfold compare_pos. cbn [cu_leaf]. rewrite !decide_False by done. rewrite Hl. split; [done|].
    unfold get_lf at 1. destruct (a_get (leaf_nodes t) (cu_leaf c)); done.
  - intros b. unfold iter_range. cbn [rbind]. destruct b as [c|c|]; cbn [rbind].
    + unfold iter_range_. cbn [cu_leaf]. by rewrite Hp.
    + unfold iter_range_. cbn [cu_leaf]. by rewrite Hp.
    + rewrite (t_end L t xs T). destruct (last xs) as [y|]; [|done]. cbn [fmap option_fmap option_map rbind ropt]. unfold iter_range_. cbn [cu_leaf]. by rewrite Hp.
  - intros c e He. assert (forall inc, iter_range_ t c (mkCur l off) inc = Panic) as HI.
    { intros inc. unfold iter_range_. cbn [cu_leaf]. destruct (get_path t (ALeaf (cu_leaf c))) as [p| |] eqn:E; cbn [rbind]; [by rewrite Hp|done|].
      exfalso. destruct (Tree_OK L _ _ T) as (H & lv & O & Hc). pose proof (ok_wt _ _ _ _ O) as W. pose proof (ok_lk _ _ _ _ O) as K.
      assert (cu_leaf c ∈ leaves t) as Hll. { rewrite (tree_leaves L _ _ T). apply elem_of_list_fmap. by exists (cu_leaf c, e). }
      apply (leaves_live W) in Hll. destruct (rpath_exists W (ALeaf (cu_leaf c)) Hll) as [r Hr].
      destruct (decide (length r <= 10)); [rewrite (get_path_ok W K r _ Hr) in E by done|rewrite (get_path_panic W K r _ Hr) in E by lia]; done. }
    unfold iter_range. cbn [rbind]. by rewrite !HI.
  - unfold prefer_right. cbn [cu_offset cu_leaf]. case_decide; [done|]. by rewrite Hl.
  - unfold prefer_left. cbn [cu_offset]. case_decide; [|done]. unfold prev_elem. cbn [prev_same_level_in_node cu_leaf]. by rewrite Hl.
Qed.

(** the calls that write *)
Theorem dead_writes t l off (x : Elem B) f dd use : get_elem t l = None ->
  insert_by_path t (mkCur l off) x = Panic /\ update_leaf t l f = Panic /\ remove_leaf t (mkCur l off) = Ok (None, t) /\
  recursive_update_cache t (ALeaf l) use dd = Panic.
Proof.
  intros D. pose proof (dead_lf t l D) as Hl. split_and!.
  - unfold insert_by_path. cbn [cu_leaf]. by rewrite Hl.
  - unfold update_leaf. by rewrite Hl.
  - unfold remove_leaf. cbn [cu_leaf]. unfold get_elem in D. by destruct (a_get (leaf_nodes t) l).
  - unfold recursive_update_cache. by rewrite Hl.
Qed.
Theorem dead_insert_many t l off (data : list (Elem B)) t' : get_elem t l = None ->
  insert_many_by_cursor t (Some (mkCur l off)) data = Ok t' -> data = [] /\ t' = t.
Proof.
  intros D. assert (forall x, insert_one t (Some (mkCur l off)) x = Panic) as H1.
  { intros x. unfold insert_one. by destruct (dead_writes t l off x (fun e => (e, (false, None, None))) None false D) as [-> _]. }
  unfold insert_many_by_cursor. destruct data as [|x [|y data]]; [by intros [= ->]|by rewrite H1|].
  destruct (merge_adj _) as [d| |]; [|done|done]. cbn [rbind].
  assert (forall k, (let? emp := is_empty t in (let? (si, t) := split_leaf_if_needed t (mkCur l off) in k emp si t)) = Ok t' -> False) as HS.
  { intros k. destruct (is_empty t); cbn [rbind]; [|done|done]. by rewrite (dead_split t l off D). }
  destruct d as [|z [|w d]]; [|by rewrite H1|].
  - intros E. exfalso. eapply (HS (fun _ => _)). exact E.
  - intros E. exfalso. eapply (HS (fun _ => _)). exact E.
Qed.
(** a range with a dead end; [l] was handed out before *)
Lemma dead_after_split t xs c e l : Tree t xs -> (cu_leaf c, e) ∈ xs -> cu_offset c <= rle_len e -> get_elem t l = None -> l < anext (leaf_nodes t) ->
  exists si t', split_leaf_if_needed t c = Ok (si, t') /\ get_elem t' l = None.
Proof.
  intros T He Ho D Hl. destruct c as [k o]. cbn [cu_leaf cu_offset] in *. apply elem_of_list_split in He as (X & Y & ->).
  destruct (t_split L t X k e Y o T Ho) as (si & t' & E & _ & [(_ & -> & _)|[(_ & _ & -> & _)|(_ & n & e1 & e2 & _ & _ & _ & Hn & T' & _)]]); exists si; eexists; (split; [exact E|]); try done.
  destruct (get_elem t' l) as [e'|] eqn:E'; [|done]. exfalso.
  assert (forall u ys m x, Tree u ys -> get_elem u m = Some x -> (m, x) ∈ ys) as HG.
  { intros u ys m x [d I] Hx. by apply (in_leaf _ _ _ _ I). }
  assert (forall u ys m x, Tree u ys -> (m, x) ∈ ys -> get_elem u m = Some x) as HG'.
  { intros u ys m x [d I] Hx. by apply (in_leaf _ _ _ _ I) in Hx. }
  apply (HG _ _ _ _ T') in E'. rewrite elem_of_app, !elem_of_cons in E'.
  destruct E' as [E'|[[= -> ->]|[[= -> ->]|E']]]; [| |lia|].
  - assert (get_elem t l = Some e') by (apply (HG' _ _ _ _ T); set_solver). congruence.
  - assert (get_elem t k = Some e) by (apply (HG' _ _ _ _ T); set_solver). congruence.
  - assert (get_elem t l = Some e') by (apply (HG' _ _ _ _ T); set_solver). congruence.
Qed.
Theorem dead_ranges t xs l off c e : Tree t xs -> get_elem t l = None -> l < anext (leaf_nodes t) -> (cu_leaf c, e) ∈ xs -> cu_offset c <= rle_len e ->
  (forall S0 ord (fu : S0 -> Elem B -> S0 * Elem B * option (Diff B)) s,
    update ord t (mkCur l off) c fu s = Panic /\ update ord t c (mkCur l off) fu s = Panic) /\
  (forall fa fb k, drain_range t (Some (mkQR (mkCur l off) fa)) (Some (mkQR c fb)) k = Panic /\
    drain_range t (Some (mkQR c fa)) (Some (mkQR (mkCur l off) fb)) k = Panic).
Proof.
  intros T D Hl He Ho. destruct (dead_after_split t xs c e l T He Ho D Hl) as (si & t' & E & D'). split.
  - intros S0 ord fu s. unfold update. rewrite (dead_split t l off D), E. cbn [rbind]. split; [|done].
    destruct (sl_push_option _ _) as [sl| |] eqn:Es; cbn [rbind]; [by rewrite (dead_split t' l off D')|done|].
    exfalso. unfold sl_push_option, sl_push, vec_push in Es. destruct (si_new_leaf si); [case_decide|]; done.
  - intros fa fb k. unfold drain_range, drain_new. cbn [qr_cursor]. rewrite (dead_split t l off D), E. cbn [rbind]. split; [|done].
    by rewrite (dead_split t' l off D').
Qed.
Theorem dead_args {A} (fu : Elem B -> A -> Elem B) ord ord2 t (args : list (nat * (nat * nat * A))) l r : get_elem t l = None -> l ∈ args.*1 ->
  update_leaves_with_arg_in_ranges fu ord ord2 t args <> Ok r.
Proof.
  intros D Hl E. unfold update_leaves_with_arg_in_ranges in E.
  destruct (ranges_groups _ _ _ _ _) as [[[t1 dm] ne]| |] eqn:Eg; [|done|done]. clear E.
  assert (l ∈ (group_by_leaf (sort_by_leaf args)).*1) as Hg.
  { destruct (group_keys (sort_by_leaf args) (sort_by_leaf_sorted args)) as (_ & _ & G3 & _).
    destruct (decide (l ∈ (group_by_leaf (sort_by_leaf args)).*1)) as [|Hn]; [done|]. apply G3 in Hn. rewrite sort_by_leaf_key in Hn.
    apply elem_of_list_fmap in Hl as ([k a] & -> & Hin). cbn in Hn. exfalso. unfold of_key in Hn. apply map_eq_nil in Hn. apply (elem_of_nil (k, a)). rewrite <- Hn. by apply elem_of_list_filter. }
  revert t D Eg. generalize (∅ : gmap aidx (Diff B)) as dm0, ([] : list (cursor * list (Elem B))) as ne0.
  induction (group_by_leaf (sort_by_leaf args)) as [|[k g] gs IH]; intros dm0 ne0 t D Eg; [by apply elem_of_nil in Hg|].
  cbn [ranges_groups] in Eg. destruct (get_lf t k) as [lf| |] eqn:Ek; [|done|done]. cbn [rbind] in Eg.
  destruct (ranges_leaf _ _ _) as [[e1 new]| |]; [|done|done]. cbn [rbind] in Eg.
  assert (k <> l) as Hkl by (intros ->; rewrite (dead_lf t l D) in Ek; done).
  apply IH in Eg; [done|..].
  - cbn in Hg. apply elem_of_cons in Hg as [->|]; done.
  - change (get_elem ?u ?v) with (el u v). rewrite el_set_lf. by rewrite decide_False.
Qed.
End dead.
