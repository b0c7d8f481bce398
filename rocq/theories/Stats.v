(** Stats.v — node statistics: internal_avg_children_num and diagnose_balance. *)
From Verif Require Export Facts Ops.

Section model.
Context {B : BTreeTrait}.
Notation btree := (btree B).
Implicit Types (t : btree).

(** internal_avg_children_num — lib.rs:2725-2731.  The average is left as the exact fraction (sum, count);
    the rounding of [sum as f64 / len as f64] is not modelled. *)
Definition internal_avg_children_num t : nat * nat :=
  (foldr (fun kn s => length (n_children (snd kn)) + s) 0 (map_to_list (amap (in_nodes t))), a_len (in_nodes t)).
(** [*size_counter.entry(k).or_default() += 1] — lib.rs:2638, 2644 *)
Definition bump (k : nat) (m : gmap nat nat) : gmap nat nat := partial_alter (fun o => Some (S (default 0 o))) k m.
(** diagnose_balance — lib.rs:2635-2647: the two maps that are printed (the printing is not modelled) *)
Definition diagnose_balance t : gmap nat nat * gmap nat nat :=
  (foldr (fun kn m => bump (length (n_children (snd kn))) m) ∅ (map_to_list (amap (in_nodes t))),
   foldr (fun kl m => bump (rle_len (l_elem (snd kl))) m) ∅ (map_to_list (amap (leaf_nodes t)))).
End model.

(** how often [k] occurs in [l] *)
Fixpoint occ (k : nat) (l : list nat) : nat := match l with [] => 0 | x :: r => (if decide (x = k) then 1 else 0) + occ k r end.
(** the entry [k] of a table of counts; absent is 0, and 0 is never stored *)
Definition Counts (m : gmap nat nat) (l : list nat) : Prop := forall k, default 0 (m !! k) = occ k l /\ m !! k <> Some 0.

Lemma occ_app k l r : occ k (l ++ r) = occ k l + occ k r.
Proof. induction l as [|x l IH]; cbn; [done|]. rewrite IH. lia. Qed.
Lemma occ_perm k l r : l ≡ₚ r -> occ k l = occ k r.
Proof. induction 1; cbn; lia. Qed.
Lemma counts_fold {A} (f : A -> nat) (l : list A) : Counts (foldr (fun x m => bump (f x) m) ∅ l) (map f l).
Proof.
  induction l as [|x l IH]; intros k; cbn [foldr map occ].
  - by rewrite lookup_empty.
  - destruct (IH k) as [E N]. revert E N. generalize (foldr (fun x m => bump (f x) m) ∅ l). intros M E N. unfold bump. case_decide as D.
    + subst. rewrite lookup_partial_alter. cbn. rewrite E. split; [done|congruence].
    + rewrite lookup_partial_alter_ne by done. by rewrite E.
Qed.
Lemma counts_perm m l r : l ≡ₚ r -> Counts m l -> Counts m r.
Proof. intros P C k. destruct (C k). by rewrite <- (occ_perm k _ _ P). Qed.

Section facts.
Context {B : BTreeTrait} (L : Lawful B).
Notation btree := (btree B).
Implicit Types (t : btree) (xs : list (nat * Elem B)).

Definition all_children t : list aidx := map_to_list (amap (in_nodes t)) ≫= (fun kn => map c_arena (n_children kn.2)).
Lemma all_children_len t : length (all_children t) = fst (internal_avg_children_num t).
Proof.
  unfold all_children, internal_avg_children_num. cbn [fst].
  induction (map_to_list _) as [|[k n] l IH]; cbn [foldr]; [done|]. rewrite bind_cons, app_length, IH, map_length. done.
Qed.
Lemma in_all_children t a : a ∈ all_children t <-> exists p k, chs t p !! k = Some a.
Proof.
  unfold all_children. rewrite elem_of_list_bind. split.
  - intros ([p n] & Ha & Hp). apply elem_of_map_to_list in Hp. cbn in Ha. apply elem_of_list_lookup in Ha as [k Hk].
    exists p, k. unfold chs, kids. unfold a_get. by rewrite Hp.
  - intros (p & k & Hk). unfold chs, kids, a_get in Hk. destruct (amap (in_nodes t) !! p) as [n|] eqn:E; [|done].
    exists (p, n). split; [by eapply elem_of_list_lookup_2|by apply elem_of_map_to_list].
Qed.
Lemma all_children_nodup t H lv : WT NoE t H lv -> NoDup (all_children t).
Proof.
  intros W. unfold all_children.
  assert (forall p n, (p, n) ∈ map_to_list (amap (in_nodes t)) -> chs t p = map c_arena (n_children n)) as Hc.
  { intros p n Hp%elem_of_map_to_list. unfold chs, kids, a_get. by rewrite Hp. }
  pose proof (NoDup_fst_map_to_list (amap (in_nodes t))) as Hn. revert Hc Hn.
  induction (map_to_list (amap (in_nodes t))) as [|[p n] l IH]; intros Hc Hn; [constructor|].
  rewrite bind_cons. cbn in Hn. apply NoDup_cons in Hn as [Hp Hn]. apply NoDup_app. split_and!.
  - cbn [snd]. rewrite <- (Hc p n) by left. apply NoDup_alt. intros i j a Hi Hj. by destruct (wt_uniq W p i p j a Hi Hj).
  - intros a Ha ([q m] & Hb & Hq)%elem_of_list_bind. cbn in Ha, Hb. rewrite <- (Hc p n) in Ha by left. rewrite <- (Hc q m) in Hb by (by right).
    apply elem_of_list_lookup in Ha as [i Ha]. apply elem_of_list_lookup in Hb as [j Hb].
    destruct (wt_uniq W p i q j a Ha Hb) as [-> _]. apply Hp. apply elem_of_list_fmap. by exists (q, m).
  - apply IH; [|done]. intros q m Hq. apply Hc. by right.
Qed.

(** the child entries of the internal nodes name every node but the root exactly once *)
Theorem t_edges t xs : Tree L t xs -> exists ks, NoDup ks /\ (forall i, i ∈ ks <-> Reach t (AInt i)) /\
  root t :: all_children t ≡ₚ (AInt <$> ks) ++ (ALeaf <$> xs.*1).
Proof.
  intros T. destruct (t_node_len L t xs T) as (Hl & ks & Nk & Hk & _). exists ks. split; [done|]. split; [done|].
  destruct (Tree_OK L _ _ T) as (H & lv & O & _). pose proof (ok_wt _ _ _ _ O) as W. destruct T as [d I].
  apply NoDup_Permutation.
  - apply NoDup_cons. split; [|by eapply all_children_nodup].
    intros (p & k & Hp)%in_all_children. destruct (wt_root W) as (r & Er & _ & El).
    destruct (wt_ch W _ _ _ Hp) as [_ Hv]. rewrite Er in Hv. cbn in Hv.
    assert (is_Some (kids t p)) as Hkp. { unfold chs in Hp. destruct (kids t p); [eauto|done]. }
    pose proof (wt_lv W p Hkp). lia.
  - apply NoDup_app. split_and!.
    + apply NoDup_fmap_2; [by intros ?? [=]|done].
    + intros a (i & -> & _)%elem_of_list_fmap (l & [=] & _)%elem_of_list_fmap.
    + apply NoDup_fmap_2; [by intros ?? [=]|]. apply (in_nodup _ _ _ _ I).
  - intros a. assert (a ∈ root t :: all_children t <-> live t a) as ->.
    { rewrite elem_of_cons, in_all_children. split.
      - intros [->|(p & k & Hp)]; [by eapply root_live|]. by destruct (wt_ch W _ _ _ Hp).
      - intros Ha. destruct (decide (a = root t)); [by left|right]. by apply (wt_up W). }
    rewrite elem_of_app, !elem_of_list_fmap. destruct a as [l|i]; cbn [live].
    + unfold el. rewrite fmap_is_Some, Hl. split; [intros Hi; right; by exists l|].
      intros [(? & [=] & _)|(l' & [= ->] & ?)]; done.
    + unfold kids. rewrite fmap_is_Some, <- (in_reach_in _ _ _ _ I), <- Hk. split; [intros Hi; left; by exists i|].
      intros [(i' & [= ->] & ?)|(? & [=] & _)]; done.
Qed.

(** the statistics in terms of the number of elements *)
Definition nsum {A} (f : A -> nat) (l : list A) : nat := foldr (fun x s => f x + s) 0 l.
Lemma nsum_perm {A} (f : A -> nat) l r : l ≡ₚ r -> nsum f l = nsum f r.
Proof. unfold nsum. induction 1; cbn; lia. Qed.
Lemma nsum_le {A} (f : A -> nat) b l : (forall x, x ∈ l -> f x <= b) -> nsum f l <= b * length l.
Proof.
  unfold nsum. induction l as [|x l IH]; intros H; cbn [foldr length]; [lia|].
  pose proof (H x ltac:(left)). specialize (IH ltac:(intros; eapply H; right; eauto)). lia.
Qed.
Lemma nsum_ge {A} (f : A -> nat) b l : (forall x, x ∈ l -> b <= f x) -> b * length l <= nsum f l.
Proof.
  unfold nsum. induction l as [|x l IH]; intros H; cbn [foldr length]; [lia|].
  pose proof (H x ltac:(left)). specialize (IH ltac:(intros; eapply H; right; eauto)). lia.
Qed.
Lemma avg_nsum t : internal_avg_children_num t =
  (nsum (fun kn => length (n_children (snd kn))) (map_to_list (amap (in_nodes t))), length (map_to_list (amap (in_nodes t)))).
Proof. done. Qed.

Theorem t_avg t xs s n : Tree L t xs -> internal_avg_children_num t = (s, n) ->
  (exists ks, NoDup ks /\ (forall i, i ∈ ks <-> Reach t (AInt i)) /\ length ks = n) /\ 1 <= n /\
  S s = n + length xs /\ s <= 11 * n /\ (xs <> [] -> n <= s).
Proof.
  intros T Ha. destruct (t_edges t xs T) as (ks & Nk & Hk & P). apply Permutation_length in P. cbn in P.
  rewrite app_length, !fmap_length, all_children_len, Ha in P. cbn in P.
  assert (length ks = n) as En.
  { injection Ha as _ <-. unfold a_len. destruct (size_keys (amap (in_nodes t))) as (ks' & Nk' & -> & Hk').
    apply Permutation_length, NoDup_Permutation; [done..|]. intros i. rewrite Hk, Hk'. destruct T as [d I]. apply (in_reach_in _ _ _ _ I). }
  assert (1 <= n) as H1.
  { rewrite <- En. destruct T as [d I]. destruct (in_top _ _ _ _ I) as (r & rn & Er & _).
    assert (r ∈ ks) as Hr by (apply Hk; rewrite <- Er; constructor). destruct ks; [by apply elem_of_nil in Hr|cbn; lia]. }
  split; [by exists ks|]. split; [done|]. split; [lia|]. split.
  - rewrite avg_nsum in Ha. injection Ha as <- <-. apply nsum_le.
    intros [k m] Hm%elem_of_map_to_list. destruct T as [d I]. by apply (in_fan _ _ _ _ I k).
  - intros Hx. destruct xs; [done|]. cbn in P. lia.
Qed.

Lemma reach_root_child t a : Reach t a -> a = root t \/ exists b, b ∈ achs t (root t).
Proof.
  induction 1 as [|i n c Hi IH Hn Hc]; [by left|]. right. destruct IH as [E|?]; [|done].
  exists (c_arena c). rewrite <- E. cbn. unfold chs, kids. rewrite Hn. cbn. apply elem_of_list_fmap. eauto.
Qed.
Theorem t_avg_md t xs s n : Tree L t xs -> MD t -> internal_avg_children_num t = (s, n) ->
  length xs <= 10 * n + 1 /\ (1 < n -> 5 * n <= length xs + 3).
Proof.
  intros T M Ha. destruct (t_avg t xs s n T Ha) as (_ & _ & Es & Hs & _). split; [lia|]. intros Hn.
  assert (6 * (n - 1) + 2 <= s); [|lia].
  destruct (Tree_OK L _ _ T) as (H & lv & O & _). pose proof (ok_wt _ _ _ _ O) as W.
  destruct T as [d I]. destruct (in_top _ _ _ _ I) as (r & rn & Er & Hr & _). rewrite avg_nsum in Ha. injection Ha as <- <-.
  unfold a_get in Hr. set (f := fun kn : nat * node B => length (n_children (snd kn))) in *.
  set (D := delete r (amap (in_nodes t))).
  assert (map_to_list (amap (in_nodes t)) ≡ₚ (r, rn) :: map_to_list D) as P.
  { rewrite <- (insert_delete _ _ _ Hr) at 1. apply map_to_list_insert. apply lookup_delete. }
  rewrite (nsum_perm f _ _ P), (Permutation_length P) in *. cbn [length nsum foldr f snd] in *. fold (nsum f (map_to_list D)).
  assert (forall p m, (p, m) ∈ map_to_list D -> p <> r /\ a_get (in_nodes t) p = Some m) as HD.
  { intros p m Hp%elem_of_map_to_list. apply lookup_delete_Some in Hp as [? Hp]. split; [by intros ->|done]. }
  assert (6 * length (map_to_list D) <= nsum f (map_to_list D)) as H6.
  { apply nsum_ge. intros [p m] [Hp Hg]%HD. unfold f. cbn [snd].
    assert (kids t p = Some (n_children m)) as Hk by (unfold kids; by rewrite Hg).
    pose proof (md_in _ _ M p ltac:(eauto)) as Hm. cbn in Hm. rewrite (chs_kids _ _ _ Hk), map_length in Hm. apply Hm. rewrite Er. by intros [= ->]. }
  assert (2 <= length (n_children rn)) as H2; [|unfold f at 1; cbn [snd]; lia].
  assert (kids t r = Some (n_children rn)) as Hkr by (unfold kids, a_get; by rewrite Hr).
  destruct (map_to_list D) as [|[p m] l]; [cbn in Hn; lia|]. destruct (HD p m) as [Hp Hg]; [left|].
  assert (is_Some (kids t p)) as Hkp by (unfold kids; rewrite Hg; eauto).
  assert (Reach t (AInt p)) as HR by (apply (in_reach_in _ _ _ _ I); eauto).
  assert (1 <= H) as HH.
  { destruct (wt_up W (AInt p)) as (q & k & Hq); [done|rewrite Er; by intros [= ->]|].
    destruct (wt_ch W _ _ _ Hq) as [_ Hv]. cbn in Hv.
    assert (is_Some (kids t q)) as Hkq by (unfold chs in Hq; destruct (kids t q); [eauto|done]). pose proof (wt_lv W q Hkq). lia. }
  destruct (reach_root_child t _ HR) as [E|[b Hb]]; [rewrite Er in E; congruence|].
  rewrite Er in Hb. cbn in Hb. pose proof Hb as [k Hk]%elem_of_list_lookup. destruct (wt_ch W _ _ _ Hk) as [_ Hv].
  destruct (wt_root W) as (r' & Er' & _ & Hl). assert (r' = r) as -> by congruence. rewrite Hl in Hv. destruct b as [y|c]; [cbn in Hv; lia|].
  pose proof (md_root _ _ M c) as Hm. rewrite Er in Hm. cbn [raw] in Hm. rewrite (chs_kids _ _ _ Hkr), map_length in Hm. apply Hm.
  by rewrite <- (chs_kids _ _ _ Hkr).
Qed.

(** the two printed tables count the fan-outs of the reachable nodes and the lengths of the elements *)
Theorem t_diagnose t xs m1 m2 : Tree L t xs -> diagnose_balance t = (m1, m2) ->
  Counts m2 (map (fun x => rle_len (snd x)) xs) /\
  (exists ns, NoDup ns.*1 /\ (forall i n, (i, n) ∈ ns <-> Reach t (AInt i) /\ a_get (in_nodes t) i = Some n) /\
    Counts m1 (map (fun x => length (n_children (snd x))) ns)) /\
  (forall k, 11 < k -> m1 !! k = None).
Proof.
  intros T E. injection E as <- <-. pose proof T as [d I]. split_and!.
  - eapply counts_perm; [|apply (counts_fold (fun kl : nat * leafn B => rle_len (l_elem (snd kl))))].
    transitivity (map (fun x : nat * Elem B => rle_len (snd x)) ((fun kl => (fst kl, l_elem (snd kl))) <$> map_to_list (amap (leaf_nodes t)))).
    + generalize (map_to_list (amap (leaf_nodes t))). intros l. induction l as [|x l IH]; [done|]. cbn. by rewrite IH.
    + apply Permutation_map. apply NoDup_Permutation.
      * apply (NoDup_fmap_1 fst). rewrite <- list_fmap_compose. apply NoDup_fst_map_to_list.
      * eapply NoDup_fmap_1, (in_nodup _ _ _ _ I).
      * intros [l e]. rewrite (in_leaf _ _ _ _ I), elem_of_list_fmap. unfold a_get. split.
        -- intros ([l' lf] & [= -> ->] & Hl%elem_of_map_to_list). cbn. by rewrite Hl.
        -- intros Hl. destruct (amap (leaf_nodes t) !! l) as [lf|] eqn:El; [|done]. injection Hl as <-. exists (l, lf). split; [done|].
           by apply elem_of_map_to_list.
  - exists (map_to_list (amap (in_nodes t))). split; [apply NoDup_fst_map_to_list|]. split.
    + intros i n. rewrite elem_of_map_to_list. split; [|by intros [_ ?]]. intros Hi. split; [|done]. apply (in_reach_in _ _ _ _ I). eauto.
    + apply (counts_fold (fun kn : nat * node B => length (n_children (snd kn)))).
  - intros k Hk. pose proof (counts_fold (fun kn : nat * node B => length (n_children (snd kn))) (map_to_list (amap (in_nodes t)))) as C.
    destruct (C k) as [E N].
    assert (occ k (map (fun kn : nat * node B => length (n_children (snd kn))) (map_to_list (amap (in_nodes t)))) = 0) as Z.
    { assert (forall x, x ∈ map_to_list (amap (in_nodes t)) -> length (n_children (snd x)) <= 11) as Hf.
      { intros [i n] Hi%elem_of_map_to_list. by apply (in_fan _ _ _ _ I i). }
      clear C E N. induction (map_to_list _) as [|x l IH]; [done|]. cbn. case_decide as D.
      - pose proof (Hf x ltac:(left)). lia.
      - apply IH. intros y Hy. apply Hf. by right. }
    rewrite Z in E. destruct (_ !! k) as [[|v]|]; cbn in E; [done|lia|done].
Qed.
End facts.
