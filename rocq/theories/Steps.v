(** Steps.v — how much of the tree a lookup looks at. *)
From Verif Require Export Visit FromIter Thick3.

Section steps.
Context {B : BTreeTrait} (L : Lawful B).
Notation btree := (btree B).
Notation child := (child B).
Implicit Types (t : btree) (xs : list (nat * Elem B)).

(** the finder [Q] that also writes down the number of children it is shown by each call of
    [find_node], and counts the calls of [confirm_elem] (callers' code, lib.rs:49-60) *)
Definition Watch (Q : Query B) : Query B := mkQuery B (Qst Q * (list nat * nat)) (QArg Q)
  (fun q => (q_init Q q, ([], 0)))
  (fun s q cs => let? (ix, off, fd, s') := q_find Q s.1 q cs in Ok (ix, off, fd, (s', (s.2.1 ++ [length cs], s.2.2))))
  (fun s q e => let '(off, fd, s') := q_confirm Q s.1 q e in (off, fd, (s', (s.2.1, S s.2.2)))).

Lemma watch_f (Q : Query B) (q : QArg Q) t D xs (I : Intact L t D xs) : forall d f i ys s fd ls r s',
  InOrder t (AInt i) d ys -> query_f Q f t i s q fd = Ok (r, s') ->
  exists k, length k = d /\ Forall (fun n => 1 <= n <= 11) k /\ query_f (Watch Q) f t i (s, (ls, 0)) q fd = Ok (r, (s', (ls ++ k, 1))).
Proof.
  induction d as [|d IH]; intros f i ys s fd ls r s' Hio E; [inversion Hio|].
  destruct f as [|f]; [done|]. cbn [query_f] in E |- *. inversion Hio as [|? n d' ? Hn Hios]; subst.
  destruct (ios_split _ _ _ _ Hios) as (ss & F & _).
  unfold get_in in E |- *. rewrite Hn in E |- *. cbn [ropt rbind] in E |- *.
  cbn [Watch q_find fst snd]. destruct (q_find Q s q (n_children n)) as [[[[ix o] g] s1]| |] eqn:Eq; cbn [rbind] in E |- *; try done.
  destruct (negb (n_is_empty n)) eqn:En; cbn [rassert rbind] in E |- *; [|done].
  destruct (vec_get (n_children n) ix) as [c| |] eqn:Ec; cbn [rbind] in E |- *; try done.
  assert (1 <= length (n_children n) <= 11) as Hlen.
  { split; [|by apply (in_fan _ _ _ _ I i)]. unfold n_is_empty in En. destruct (n_children n); cbn in *; [done|lia]. }
  assert (exists zs, InOrder t (c_arena c) d zs) as [zs Hc].
  { unfold vec_get in Ec. destruct (n_children n !! ix) as [c0|] eqn:El; [|done]. cbn in Ec. injection Ec as ->.
    assert (map c_arena (n_children n) !! ix = Some (c_arena c)) as El' by (change (map c_arena (n_children n)) with (c_arena <$> n_children n); by rewrite list_lookup_fmap, El).
    destruct (Forall2_lookup_l _ _ _ _ _ F El') as (z & _ & Hz). by exists z. }
  destruct (c_arena c) as [l|m].
  - inversion Hc as [? lf Hlf|]; subst. unfold get_lf in E |- *. rewrite Hlf in E |- *. cbn [ropt rbind] in E |- *.
    cbn [Watch q_confirm fst snd]. destruct (q_confirm Q s1 q (l_elem lf)) as [[o1 g1] s2] eqn:Ecf. injection E as <- <-.
    exists [length (n_children n)]. split_and!; [done|by constructor|done].
  - destruct (IH f m zs s1 (fd && g) (ls ++ [length (n_children n)]) r s' Hc E) as (k & Hk & Fk & Ek).
    exists (length (n_children n) :: k). split_and!; [cbn; lia|by constructor|].
    rewrite Ek. do 4 f_equal. by rewrite <- app_assoc.
Qed.

(** a lookup calls find_node exactly once per level, on a node of at most 11 children, and
    confirm_elem exactly once *)
Theorem t_steps (Q : Query B) (q : QArg Q) t xs d r s : Tree L t xs -> InOrder t (root t) d xs -> xs <> [] ->
  query_with_finder_return Q t q = Ok (r, s) ->
  exists k, query_with_finder_return (Watch Q) t q = Ok (r, (s, (k, 1))) /\ length k = d /\ Forall (fun n => 1 <= n <= 11) k.
Proof.
  intros T Hd Hne. pose proof T as [D I]. unfold query_with_finder_return.
  rewrite (t_is_empty L t xs T), (bool_decide_eq_false_2 _ Hne). cbn [rbind]. intros E.
  destruct (in_top _ _ _ _ I) as (rt & rn & Hroot & _ & _). rewrite Hroot in *. cbn [raw] in *.
  destruct (watch_f Q q t D xs I d (fuel t) rt xs _ true [] r s Hd E) as (k & Hk & Fk & Ek).
  exists k. split; [exact Ek|done].
Qed.
(** an empty tree never calls the finder *)
Theorem t_steps_empty (Q : Query B) (q : QArg Q) t : Tree L t [] ->
  query_with_finder_return (Watch Q) t q = Ok (None, (q_init Q q, ([], 0))) /\ query_with_finder_return Q t q = Ok (None, q_init Q q).
Proof.
  intros T. unfold query_with_finder_return. rewrite (t_is_empty L t [] T). by cbn.
Qed.

(** visit_previous_caches calls its callback at most eleven times per level, and once for the leaf *)
Lemma vpc_len t path (Hs : forall i n, a_get (in_nodes t) i = Some n -> length (n_children n) <= 11) : forall f pi ci n r,
  length (n_children n) <= 11 -> S pi < length path -> vpc_f f t path pi ci n = Ok r -> length r <= (11 - ci) + 11 * (length path - 2 - pi).
Proof.
  induction f as [|f IH]; intros pi ci n r Hn Hp E; [done|]. cbn [vpc_f] in E.
  destruct (path !! S pi) as [nx|]; [|injection E as <-; cbn; lia].
  destruct (decide (ci = i_arr nx)).
  - destruct (decide (S (S pi) < length path)); [|injection E as <-; cbn; lia].
    destruct (get_internal t (i_arena nx)) as [m| |] eqn:Em; cbn [rbind] in E; try done.
    assert (length (n_children m) <= 11) as Hm.
    { destruct (i_arena nx) as [?|j]; [done|]. cbn in Em. unfold get_in in Em. destruct (a_get (in_nodes t) j) eqn:Ej; [|done]. injection Em as <-. by apply (Hs j). }
    pose proof (IH _ _ _ _ Hm l E). lia.
  - destruct (vec_get (n_children n) ci) as [c| |] eqn:Ec; cbn [rbind] in E; try done.
    assert (ci < length (n_children n)) as Hci.
    { unfold vec_get in Ec. destruct (n_children n !! ci) eqn:El; [|done]. by apply lookup_lt_Some in El. }
    destruct (vpc_f f t path pi (S ci) n) as [r'| |] eqn:Er; cbn [rbind] in E; try done. injection E as <-.
    pose proof (IH _ _ _ _ Hn Hp Er). cbn [length]. lia.
Qed.
Theorem t_visit_steps t xs l off d w : Tree L t xs -> InOrder t (root t) d xs -> l ∈ xs.*1 -> Shallow t 9 ->
  visit_previous_caches t (mkCur l off) = Ok w -> length w <= 11 * d + 1.
Proof.
  intros T Hd Hl Hsh E. pose proof T as [D I]. destruct (shallow_OK L t _ 9 ltac:(lia) T Hsh) as (H & lv & O & HH & Ec).
  pose proof (ok_wt _ _ _ _ O) as W. pose proof (ok_lk _ _ _ _ O) as K.
  apply elem_of_list_fmap in Hl as ([l' e] & -> & Hin). cbn [fst] in *.
  apply elem_of_list_split in Hin as (X & Y & ->).
  pose proof (tree_el L _ _ _ _ _ T) as Hel.
  destruct (rpath_exists W (ALeaf l')) as [r Hr]; [eexists; exact Hel|].
  pose proof (rpath_len W r _ Hr) as Hlen. cbn in Hlen.
  assert (d = S H) as ->.
  { pose proof (content_cont t H lv W) as Hio. apply (proj1 (io_depth t) _ _ _ Hd _ _ Hio). by destruct X. }
  unfold visit_previous_caches in E. cbn [cu_leaf] in E. rewrite (get_path_ok W K r _ Hr) in E by lia. cbn [rbind] in E.
  destruct (vec_get (rev r) 0) as [hd| |]; cbn [rbind] in E; try done.
  destruct (get_internal t (i_arena hd)) as [n| |] eqn:En; cbn [rbind] in E; try done.
  destruct (vpc_f _ t (rev r) 0 0 n) as [u| |] eqn:Eu; cbn [rbind] in E; try done.
  destruct (get_lf t l') as [lf| |]; cbn [rbind] in E; try done. injection E as <-.
  assert (length (n_children n) <= 11) as Hn.
  { destruct (i_arena hd) as [?|j]; [done|]. cbn in En. unfold get_in in En. destruct (a_get (in_nodes t) j) eqn:Ej; [|done]. injection En as <-. by apply (in_fan _ _ _ _ I j). }
  assert (1 < length (rev r)) as H1 by (rewrite rev_length; lia).
  pose proof (vpc_len t (rev r) (in_fan _ _ _ _ I) _ _ _ _ _ Hn H1 Eu) as Hb. rewrite rev_length in Hb.
  rewrite app_length. cbn [length]. lia.
Qed.
End steps.

(** a tree of depth at most [k] *)
Theorem shallow_steps {B : BTreeTrait} (L : Lawful B) (t : btree B) xs k (Q : Query B) (q : QArg Q) r s : Tree L t xs -> Shallow t k ->
  query_with_finder_return Q t q = Ok (r, s) ->
  exists w c, query_with_finder_return (Watch Q) t q = Ok (r, (s, (w, c))) /\ length w <= k /\ Forall (fun n => 1 <= n <= 11) w /\ c <= 1.
Proof.
  intros T (d & ys & Hd & Hk) E. assert (ys = xs) as -> by (eapply content_det; [by exists d|by eapply Tree_content]).
  destruct (decide (length xs = 0)) as [Hl|Hl].
  - apply nil_length_inv in Hl as ->. destruct (t_steps_empty L Q q t T) as [E1 E2]. rewrite E2 in E. injection E as <- <-.
    exists [], 0. split; [exact E1|]. split; [cbn; lia|]. split; [constructor|lia].
  - destruct (t_steps L Q q t xs d r s T Hd) as (w & Ew & Hw & Fw); [by intros ->|done|].
    exists w, 1. split; [exact Ew|]. split; [lia|]. by split.
Qed.
(** after any history without bulk construction *)
Theorem history_steps {B : BTreeTrait} (L : Lawful B) {U} (F : Flatten L U) {S0} (os : list (op2 B S0)) :
  valid_ops2 L bt_new os -> Forall (fun o => ~ collects o) os ->
  exists t xs, run_ops2 os bt_new = Ok t /\ Content t xs /\
    forall (Q : Query B) (q : QArg Q) r s k, query_with_finder_return Q t q = Ok (r, s) -> 1 <= k -> length xs <= 5 ^ k ->
    exists w c, query_with_finder_return (Watch Q) t q = Ok (r, (s, (w, c))) /\ length w <= k /\ Forall (fun n => 1 <= n <= 11) w /\ c <= 1.
Proof.
  intros Hv Hc. destruct (history_md L F os bt_new [] (Tree_new L)) as (t & xs & E & T & M); [right; apply MD_new|done|done|apply MD_new|].
  exists t, xs. split; [done|]. split; [by eapply Tree_content|]. intros Q q r s k Hq Hk Hl.
  apply (shallow_steps L t xs k Q q r s T); [|done]. by apply (thick_shallow L t xs k T M).
Qed.
(** after collecting an iterator *)
Theorem collect_steps {B : BTreeTrait} (L : Lawful B) (es : list (Elem B)) t : Forall (evalid L) es -> from_iter es = Ok t ->
  forall (Q : Query B) (q : QArg Q) r s k, query_with_finder_return Q t q = Ok (r, s) -> length es <= 10 ^ S k ->
  exists w c, query_with_finder_return (Watch Q) t q = Ok (r, (s, (w, c))) /\ length w <= S k /\ Forall (fun n => 1 <= n <= 11) w /\ c <= 1.
Proof.
  intros Fe E Q q r s k Hq Hl. destruct (t_from_iter L es Fe) as (t' & xs & E' & T & _ & Sh). rewrite E in E'. injection E' as <-.
  apply (shallow_steps L t xs (S k) Q q r s T); [|done]. by apply Sh.
Qed.
(** in a rope of [length s <= 5 ^ k] bytes *)
Theorem rope_steps CAP (r : rope CAP) s : 0 < CAP -> RopeOf CAP r s ->
  forall (Q : Query (RopeTrait CAP)) (q : QArg Q) a st k, query_with_finder_return Q (rp_tree CAP r) q = Ok (a, st) -> 1 <= k -> length s <= 5 ^ k ->
  exists w c, query_with_finder_return (Watch Q) (rp_tree CAP r) q = Ok (a, (st, (w, c))) /\ length w <= k /\ Forall (fun n => 1 <= n <= 11) w /\ c <= 1.
Proof.
  intros HC HR Q q a st k Hq Hk Hl. pose proof (rope_shallow CAP HC r s k HR Hk Hl) as Sh. destruct HR as (xs & T & _).
  exact (shallow_steps _ _ _ k Q q a st T Sh Hq).
Qed.
