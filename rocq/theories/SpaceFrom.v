(** SpaceFrom.v — how many nodes a tree built by from_iter has. *)
From Verif Require Export Space FromIter.

Section fromspace.
Context {B : BTreeTrait} (L : Lawful B).
Notation btree := (btree B).
Implicit Types (t : btree) (es : list (Elem B)) (N : list (temp_node (B := B))).

(** slots filled from left to right: ten in every node but the last *)
Definition slots N : nat := match N with [] => 0 | h :: R => 10 * length R + length (tm_children h) end.

Lemma fs_parent t N N' t' : fi_parent t N = Ok (N', t') ->
  root t' = root t /\ anext (in_nodes t') + length N = anext (in_nodes t) + length N' /\ slots N' <= slots N /\ N' <> [].
Proof.
  unfold fi_parent. destruct N as [|h R]; [done|]. case_decide as Hd; [intros [= <- <-]; done|].
  destruct (calc_cache_internal _ _) as [[c dd]| |]; [|done..]. cbn. intros [= <- <-]. cbn. split; [done|]. split; [lia|]. split; [lia|done].
Qed.
Lemma fs_push N ch N' : fi_push N ch = Ok N' -> length N' = length N /\ slots N' = S (slots N) /\ exists h R, N' = h :: R /\ 1 <= length (tm_children h).
Proof.
  unfold fi_push, vec_push. destruct N as [|h R]; [done|]. case_decide; [|done]. cbn. intros [= <-]. cbn. rewrite app_length. cbn.
  split; [done|]. split; [lia|]. eexists _, _. split; [done|]. cbn. rewrite app_length. cbn. lia.
Qed.
Lemma fs_leaves es : forall t N N' t', fi_leaves t N es = Ok (N', t') ->
  root t' = root t /\ anext (in_nodes t') + length N = anext (in_nodes t) + length N' /\ slots N' <= slots N + length es /\
  (es = [] -> N' = N) /\ (es <> [] -> exists h R, N' = h :: R /\ 1 <= length (tm_children h)).
Proof.
  induction es as [|e es IH]; intros t N N' t'; cbn [fi_leaves]; [intros [= <- <-]; cbn; repeat split; try lia; done|].
  destruct (fi_parent t N) as [[N1 t1]| |] eqn:E1; [|done..]. cbn [rbind]. destruct (fs_parent _ _ _ _ E1) as (A0 & A1 & A2 & _).
  destruct (head N1) as [p|]; [|done]. cbn [ropt rbind]. destruct (alloc_leaf_child t1 e (tm_idx p)) as [ch t2] eqn:E2.
  unfold alloc_leaf_child, ins_lf in E2. injection E2 as <- <-.
  destruct (fi_push N1 _) as [N2| |] eqn:E3; [|done..]. cbn [rbind]. destruct (fs_push _ _ _ E3) as (A3 & A4 & h & R & -> & Hh). intros H.
  destruct (IH _ _ _ _ H) as (A5' & A5 & A6 & _ & A7). cbn [in_nodes root] in *. split; [congruence|]. split; [lia|]. split; [cbn [length]; lia|]. split; [done|]. intros _.
  destruct es as [|e' es]; [|by apply A7]. cbn in H. injection H as <- <-. eauto.
Qed.
Lemma fs_level : forall A t N slot N' t', fi_level t N slot A = Ok (N', t') -> root t' = root t /\ anext (in_nodes t') + length N = anext (in_nodes t) + length N'.
Proof.
  induction A as [|a A IH]; intros t N slot N' t'; cbn [fi_level]; [by intros [= <- <-]|].
  destruct (fi_parent t N) as [[N1 t1]| |] eqn:E1; [|done..]. cbn [rbind]. destruct (fs_parent _ _ _ _ E1) as (A0 & A1 & _ & _).
  destruct (head N1) as [p|]; [|done]. cbn [ropt rbind]. destruct (calc_cache_internal _ _) as [[c dd]| |]; [|done..]. cbn [rbind].
  destruct (get_in t1 (tm_idx a)) as [x| |]; [|done..]. cbn [rbind].
  destruct (fi_push N1 _) as [N2| |] eqn:E3; [|done..]. cbn [rbind]. destruct (fs_push _ _ _ E3) as (A3 & _). intros H.
  apply IH in H as [H1 H]. cbn [in_nodes root set_in a_set anext] in *. split; [congruence|lia].
Qed.
(** the levels above [m] nodes have at most [m - 1] nodes *)
Lemma fs_up : forall f t N N' t', fi_up f t N = Ok (N', t') -> 1 <= length N -> root t' = root t /\ anext (in_nodes t') < anext (in_nodes t) + length N.
Proof.
  induction f as [|f IH]; intros t N N' t'; cbn [fi_up]; [done|]. case_decide as Hd; [|intros [= <- <-] ?; split; [done|lia]].
  destruct (fi_new t []) as [nw t1] eqn:E0. unfold fi_new, ins_in in E0. injection E0 as <- <-.
  destruct (fi_level _ _ _ _) as [[N1 t2]| |] eqn:E1; [|done..]. cbn [rbind]. unfold rassert. case_bool_decide as Hl; [|done]. cbn [rbind]. intros H _.
  apply fs_level in E1 as [E0 E1]. cbn [length in_nodes root snd a_insert anext] in E0, E1.
  assert (1 <= length N1) by (rewrite <- Hl; apply Nat.div_le_lower_bound; lia).
  apply IH in H as [H1 H]; [|done]. split; [congruence|]. assert (2 * length N1 <= length N); [|lia]. rewrite <- Hl.
  pose proof (Nat.mul_div_le (length N + 9) 10 ltac:(lia)). destruct (decide (length N <= 10)) as [Hs|Hs]; [|lia].
  assert ((length N + 9) / 10 < 2) by (apply Nat.div_lt_upper_bound; lia). lia.
Qed.

Theorem t_space_from es t xs : from_iter es = Ok t -> Tree L t xs -> xs.*2 = es -> 5 * node_len t < 6 * length es + 6.
Proof.
  intros H T Ex. unfold from_iter in H. destruct (fi_new bt_new []) as [N0 t0] eqn:E0. unfold fi_new, ins_in, bt_new, a_insert, a_new in E0. cbn in E0. injection E0 as <- <-.
  destruct (fi_leaves _ _ es) as [[N1 t1]| |] eqn:E1; [|done..]. cbn [rbind] in H. destruct (fs_leaves _ _ _ _ _ E1) as (A0 & A1 & A2 & A3 & A4). cbn in A0, A1, A2.
  assert (HN : 1 <= length N1 /\ 10 * (length N1 - 1) <= length es /\ (es <> [] -> 10 * (length N1 - 1) < length es)).
  { destruct (decide (es = [])) as [->|Hne]; [rewrite A3 by done; done|]. destruct (A4 Hne) as (h & R & -> & Hh). cbn in *. repeat split; try intros _; lia. }
  destruct HN as (HN1 & HN2 & HN3). clear A3 A4.
  destruct (fi_up _ t1 N1) as [[N2 t2]| |] eqn:E2; [|done..]. cbn [rbind] in H. destruct (fs_up _ _ _ _ _ E2 HN1) as [A5 A6].
  unfold rassert in H. case_bool_decide as Hl; [|done]. cbn [rbind] in H. destruct (head N2) as [nd|] eqn:Hh; [|done]. cbn [ropt rbind] in H.
  destruct (calc_cache_internal _ _) as [[c dd]| |]; [|done..]. cbn [rbind] in H. cbn [root set_root_cache] in H. rewrite A5, A0 in H. cbn [raw] in H.
  destruct (get_in _ (tm_idx nd)) as [rn| |] eqn:Eg; [|done..]. cbn [rbind] in H. injection H as <-.
  destruct (t_node_len L _ _ T) as (_ & ks & Nk & Hk & El). rewrite El. assert (length xs = length es) as -> by (rewrite <- Ex; by rewrite fmap_length).
  assert (Hks : length ks <= anext (in_nodes t2) - 1).
  { rewrite <- (seq_length (anext (in_nodes t2) - 1) 1). apply submseteq_length, NoDup_submseteq; [done|]. intros i Hi. apply Hk in Hi.
    destruct T as [d I]. apply (in_reach_in _ _ _ _ I) in Hi. pose proof (in_old_in _ _ _ _ I i Hi) as Ho. cbn [in_nodes set_in set_root rem_in set_root_cache a_set a_remove anext] in Ho.
    apply elem_of_seq. assert (i <> 0); [|lia]. intros ->. rewrite a_get_set_in in Hi. case_decide as Hz.
    - rewrite Hz in Eg. unfold get_in, a_get in Eg. cbn in Eg. by rewrite lookup_delete in Eg.
    - unfold a_get in Hi. cbn in Hi. rewrite lookup_delete in Hi. by destruct Hi. }
  destruct (decide (es = [])) as [->|Hne]; [cbn [length] in *; lia|]. specialize (HN3 Hne). lia.
Qed.
Theorem t_from_iter_space es : Forall (evalid L) es ->
  exists t xs, from_iter es = Ok t /\ Tree L t xs /\ xs.*2 = es /\ 5 * node_len t < 6 * length es + 6.
Proof. intros Hv. destruct (t_from_iter L es Hv) as (t & xs & E & T & Ex & _). exists t, xs. split; [done|]. split; [done|]. split; [done|]. by eapply t_space_from. Qed.
End fromspace.
