(** Sim.v — sealing a tree never looks at the cached summaries: two trees that agree except
    for the summaries are rebalanced in the same way. *)
From Verif Require Export Drain5.

(** [y] succeeds whenever [x] does, with a related result *)
Definition Rs {X Y} (R : X -> Y -> Prop) (x : res X) (y : res Y) : Prop :=
  match x with Ok a => exists b, y = Ok b /\ R a b | _ => True end.
Lemma Rs_ok {X Y} (R : X -> Y -> Prop) a b : R a b -> Rs R (Ok a) (Ok b).
Proof. intros. by exists b. Qed.
Lemma Rs_bind {X Y X' Y'} (R : X -> Y -> Prop) (R' : X' -> Y' -> Prop) x y f g :
  Rs R x y -> (forall a b, R a b -> Rs R' (f a) (g b)) -> Rs R' (rbind x f) (rbind y g).
Proof. destruct x as [a| |]; cbn; [|done|done]. intros (b & -> & Hr) Hf. exact (Hf a b Hr). Qed.
Lemma Rs_bind_eq {X Y X' Y'} (R : X -> Y -> Prop) (R' : X' -> Y' -> Prop) x y f g :
  Rs R x y -> (forall a b, x = Ok a -> R a b -> Rs R' (f a) (g b)) -> Rs R' (rbind x f) (rbind y g).
Proof. destruct x as [a| |]; cbn; [|done|done]. intros (b & -> & Hr) Hf. exact (Hf a b eq_refl Hr). Qed.
Lemma Rs_eq {X} (x : res X) : Rs eq x x.
Proof. destruct x; cbn; eauto. Qed.
Lemma Rs_ropt {X Y} (R : X -> Y -> Prop) o o' : option_Forall2 R o o' -> Rs R (ropt o) (ropt o').
Proof. intros [a b Hr|]; cbn; eauto. Qed.

Section sim.
Context {B : BTreeTrait} (L : Lawful B).
Notation btree := (btree B).
Notation child := (child B).
Notation node := (node B).
Implicit Types (t u : btree) (i j m p q k : nat) (a b x : aidx) (c : child) (cs ds : list child) (n : node).

(** equal up to the summary; the second one valid *)
Definition cr c c' : Prop := c_arena c = c_arena c' /\ cvalid L (c_cache c').
Definition csr : list child -> list child -> Prop := Forall2 cr.
Definition nr n n' : Prop := n_parent n = n_parent n' /\ n_slot n = n_slot n' /\ csr (n_children n) (n_children n').
Record Er t u : Prop := {
  er_root : root t = root u;
  er_in : forall i, option_Forall2 nr (a_get (in_nodes t) i) (a_get (in_nodes u) i);
  er_lf : leaf_nodes t = leaf_nodes u;
  er_an : anext (in_nodes t) = anext (in_nodes u);
}.

Lemma csr_len cs ds : csr cs ds -> length cs = length ds.
Proof. apply Forall2_length. Qed.
Lemma csr_get cs ds k : csr cs ds -> option_Forall2 cr (cs !! k) (ds !! k).
Proof.
  intros F. destruct (cs !! k) as [c|] eqn:E.
  - destruct (Forall2_lookup_l _ _ _ _ _ F E) as (d & -> & Hr). by constructor.
  - assert (ds !! k = None) as ->; [|constructor]. apply lookup_ge_None. rewrite <- (csr_len _ _ F). by apply lookup_ge_None.
Qed.
Lemma csr_arenas cs ds : csr cs ds -> map c_arena cs = map c_arena ds.
Proof. induction 1 as [|c d cs ds [E _] F IH]; [done|]. cbn. by rewrite E, IH. Qed.
Lemma csr_valid cs ds : csr cs ds -> Forall (cvalid L) (map c_cache ds).
Proof. induction 1 as [|c d cs ds [_ V] F IH]; [constructor|]. by constructor. Qed.
Lemma csr_take cs ds k : csr cs ds -> csr (take k cs) (take k ds).
Proof. apply Forall2_take. Qed.
Lemma csr_drop cs ds k : csr cs ds -> csr (drop k cs) (drop k ds).
Proof. apply Forall2_drop. Qed.
Lemma csr_app cs ds cs' ds' : csr cs ds -> csr cs' ds' -> csr (cs ++ cs') (ds ++ ds').
Proof. apply Forall2_app. Qed.
Lemma csr_remove cs ds k : csr cs ds -> Rs (fun r s => cr (fst r) (fst s) /\ csr (snd r) (snd s)) (vec_remove cs k) (vec_remove ds k).
Proof.
  intros F. unfold vec_remove. destruct (csr_get _ _ k F) as [c d Hc|]; [|done]. apply Rs_ok. split; [done|].
  apply csr_app; [by apply csr_take|by apply csr_drop].
Qed.
Lemma csr_delete cs ds i j : csr cs ds -> Rs csr (delete_range cs i j) (delete_range ds i j).
Proof.
  intros F. unfold delete_range. rewrite (csr_len _ _ F). repeat case_decide; try done; [by apply Rs_ok| |].
  - eapply Rs_bind; [by apply csr_remove|]. intros [? ?] [? ?] [_ Hr]. by apply Rs_ok.
  - apply Rs_ok. apply csr_app; [by apply csr_take|by apply csr_drop].
Qed.
Lemma csr_set cs ds k v w : csr cs ds -> cvalid L w -> Rs csr (set_child_cache cs k v) (set_child_cache ds k w).
Proof.
  intros F V. unfold set_child_cache, vec_get. destruct (csr_get _ _ k F) as [c d [Hc _]|]; [|done]. cbn [ropt rbind]. apply Rs_ok.
  apply Forall2_insert; [done|]. by split.
Qed.

(** access *)
Lemma er_get t u i : Er t u -> Rs nr (get_in t i) (get_in u i).
Proof. intros E. apply Rs_ropt, (er_in _ _ E). Qed.
Lemma er_getl t u l : Er t u -> get_lf t l = get_lf u l.
Proof. intros E. unfold get_lf. by rewrite (er_lf _ _ E). Qed.
Lemma er_internal t u x : Er t u -> Rs nr (get_internal t x) (get_internal u x).
Proof. intros E. unfold get_internal. eapply Rs_bind; [apply Rs_eq|]. intros i ? <-. by apply er_get. Qed.
Lemma er_fuel t u : Er t u -> fuel t = fuel u.
Proof. intros E. unfold fuel. by rewrite (er_an _ _ E). Qed.
Lemma er_set t u i n n' : Er t u -> nr n n' -> Er (set_in t i n) (set_in u i n').
Proof.
  intros [E1 E2 E3 E4] N. constructor; [done| |done|done]. intros j. cbn. unfold a_get, a_set. cbn. destruct (decide (i = j)) as [->|Hij].
  - rewrite !lookup_insert. by constructor.
  - rewrite !lookup_insert_ne by done. apply E2.
Qed.
Lemma er_setl t u i lf : Er t u -> Er (set_lf t i lf) (set_lf u i lf).
Proof. intros [E1 E2 E3 E4]. constructor; [done|done|cbn; by rewrite E3|done]. Qed.
Lemma er_rem t u i : Er t u -> Er (rem_in t i) (rem_in u i).
Proof.
  intros [E1 E2 E3 E4]. constructor; [done| |done|done]. intros j. cbn. unfold a_get, a_remove. cbn. destruct (decide (i = j)) as [->|Hij].
  - rewrite !lookup_delete. by constructor.
  - rewrite !lookup_delete_ne by done. apply E2.
Qed.
Lemma er_reml t u i : Er t u -> Er (rem_lf t i) (rem_lf u i).
Proof. intros [E1 E2 E3 E4]. constructor; [done|done|cbn; by rewrite E3|done]. Qed.
Lemma nr_children n n' cs ds : nr n n' -> csr cs ds -> nr (with_children n cs) (with_children n' ds).
Proof. intros (E1 & E2 & _) F. by repeat split. Qed.
Lemma nr_lack n n' : nr n n' -> is_lack n = is_lack n'.
Proof. intros (_ & _ & F). unfold is_lack. by rewrite (csr_len _ _ F). Qed.
Lemma nr_leafc n n' : nr n n' -> is_child_leaf n = is_child_leaf n'.
Proof. intros (_ & _ & F). unfold is_child_leaf. destruct F as [|c d cs ds [E _] F]; [done|]. by rewrite E. Qed.
Lemma er_keys t u : Er t u -> a_len (in_nodes t) = a_len (in_nodes u).
Proof.
  intros E. unfold a_len. rewrite <- !size_dom. f_equal. apply set_eq. intros i. rewrite !elem_of_dom.
  pose proof (er_in _ _ E i) as F. unfold a_get in F. destruct F as [n n' _|]; split; intros [? ?]; eauto; done.
Qed.
Lemma er_total t u : Er t u -> total_children t = total_children u.
Proof.
  intros E. unfold total_children.
  assert ((fun n : node => length (n_children n)) <$> amap (in_nodes t) = (fun n : node => length (n_children n)) <$> amap (in_nodes u)) as G.
  { apply map_eq. intros i. rewrite !lookup_fmap. pose proof (er_in _ _ E i) as F. unfold a_get in F. destruct F as [n n' (_ & _ & F)|]; [|done].
    cbn. by rewrite (csr_len _ _ F). }
  assert (Hf : forall v : gmap nat node, map_fold (fun _ (n : node) acc => length (n_children n) + acc) 0 v = sum_list (snd <$> map_to_list ((fun n : node => length (n_children n)) <$> v))).
  { intros v. induction v as [|i n v Hi IH] using map_ind; [by rewrite fmap_empty, map_to_list_empty|].
    rewrite map_fold_insert_L; [|intros; lia|done]. rewrite fmap_insert.
    assert (snd <$> map_to_list (<[i:=length (n_children n)]> ((fun n : node => length (n_children n)) <$> v)) ≡ₚ
      length (n_children n) :: (snd <$> map_to_list ((fun n : node => length (n_children n)) <$> v))) as P.
    { rewrite map_to_list_insert; [done|]. by rewrite lookup_fmap, Hi. }
    rewrite P. cbn. by rewrite IH. }
  rewrite !Hf. by rewrite G.
Qed.

(** the operations *)
Lemma er_slots t u cs ds i : Er t u -> csr cs ds -> Rs Er (set_slots t cs i) (set_slots u ds i).
Proof.
  intros E F. revert t u i E. induction F as [|c d cs ds [Ha _] F IH]; intros t u i E; cbn [set_slots]; [by apply Rs_ok|].
  rewrite Ha. eapply Rs_bind; [apply Rs_eq|]. intros m ? <-. eapply Rs_bind; [by apply er_get|]. intros n n' N. apply IH.
  apply er_set; [done|]. destruct N as (? & ? & ?). by repeat split.
Qed.
Lemma er_slot_from t u x i : Er t u -> Rs Er (update_children_parent_slot_from t x i) (update_children_parent_slot_from u x i).
Proof.
  intros E. unfold update_children_parent_slot_from. eapply Rs_bind; [by apply er_internal|]. intros n n' N.
  pose proof N as (_ & _ & F). rewrite (csr_len _ _ F), (nr_leafc _ _ N). destruct (_ || _); [by apply Rs_ok|]. apply er_slots; [done|by apply csr_drop].
Qed.
Lemma er_purge f : forall t u st, Er t u -> Rs Er (purge_f f t st) (purge_f f u st).
Proof.
  induction f as [|f IH]; intros t u [|x st] E; cbn [purge_f]; try (by apply Rs_ok); [done|].
  destruct x as [l|i]; [by apply IH, er_reml|]. destruct (er_in _ _ E i) as [n n' (_ & _ & F)|]; [|by apply IH].
  rewrite (csr_arenas _ _ F). by apply IH, er_rem.
Qed.
Lemma er_reset t u cs ds p : Er t u -> csr cs ds -> Rs Er (reset_pp t cs p) (reset_pp u ds p).
Proof.
  intros E F. revert t u E. induction F as [|c d cs ds [Ha _] F IH]; intros t u E; cbn [reset_pp]; [by apply Rs_ok|].
  rewrite Ha. destruct (c_arena d) as [l|m].
  - rewrite (er_getl _ _ l E). eapply Rs_bind; [apply Rs_eq|]. intros lf ? <-. by apply IH, er_setl.
  - eapply Rs_bind; [by apply er_get|]. intros n n' (? & ? & ?). apply IH, er_set; [done|]. by repeat split.
Qed.
Lemma er_reduce_f f : forall t u r, Er t u -> Rs (fun v w => fst v = fst w /\ Er (snd v) (snd w)) (reduce_f f t r) (reduce_f f u r).
Proof.
  induction f as [|f IH]; intros t u r E; cbn [reduce_f]; [done|]. rewrite (er_root _ _ E). eapply Rs_bind; [apply Rs_eq|]. intros i ? <-.
  eapply Rs_bind; [by apply er_get|]. intros n n' (_ & _ & F). destruct F as [|c d cs ds [Ha Hv] F]; [by apply Rs_ok|].
  destruct F as [|? ? ? ? ? F]; [|by apply Rs_ok]. rewrite Ha. destruct (c_arena d) as [l|m]; [by apply Rs_ok|].
  eapply Rs_bind; [by apply er_get|]. intros cn cn' N. eapply Rs_bind; [by apply er_get, er_rem|]. intros _ _ _.
  apply IH. apply er_set; [by apply er_rem|done].
Qed.
Lemma er_reduce t u : Er t u -> Rs Er (try_reduce_levels t) (try_reduce_levels u).
Proof.
  intros E. unfold try_reduce_levels. rewrite (er_fuel _ _ E). eapply Rs_bind; [by apply er_reduce_f|]. intros [r1 t1] [r2 u1] [Hr E1]. cbn in Hr, E1. subst r2.
  destruct r1; [|by apply Rs_ok]. rewrite (er_root _ _ E1). eapply Rs_bind; [apply Rs_eq|]. intros i ? <-.
  eapply Rs_bind; [by apply er_get|]. intros n n' N. pose proof N as (_ & _ & F).
  unfold reset_children_parent_pointer. cbn [root set_in]. rewrite (er_root _ _ E1). eapply Rs_bind; [apply Rs_eq|]. intros j ? <-.
  assert (E2 : Er (set_in t1 i (mkNode None U8_MAX (n_children n))) (set_in u1 i (mkNode None U8_MAX (n_children n')))) by (by apply er_set).
  eapply Rs_bind; [apply er_get; exact E2|]. intros m m' (_ & _ & F2). by apply er_reset.
Qed.
Lemma er_pair t u x : Er t u -> Rs eq (pair_neighbor t x) (pair_neighbor u x).
Proof.
  intros E. unfold pair_neighbor. eapply Rs_bind; [by apply er_internal|]. intros n n' (Ep & Es & _). rewrite Ep, Es. eapply Rs_bind; [apply Rs_eq|]. intros p ? <-.
  eapply Rs_bind; [by apply er_internal|]. intros pn pn' (_ & _ & F). destruct (n_slot n') as [|s]; apply Rs_ok.
  - destruct (csr_get _ _ 1 F) as [c d [Ha _]|]; cbn; [by rewrite Ha|done].
  - destruct (csr_get _ _ s F) as [c d [Ha _]|]; cbn; [by rewrite Ha|done].
Qed.
Lemma er_apply (m : list (aidx * nat * nat)) : forall t u, Er t u -> Rs Er (apply_re_parent t m) (apply_re_parent u m).
Proof.
  induction m as [|[[[l|i] p] s] m IH]; intros t u E; cbn [apply_re_parent]; [by apply Rs_ok| |].
  - rewrite (er_getl _ _ l E). eapply Rs_bind; [apply Rs_eq|]. intros lf ? <-. by apply IH, er_setl.
  - eapply Rs_bind; [by apply er_get|]. intros n n' (? & ? & ?). apply IH, er_set; [done|]. by repeat split.
Qed.
Lemma csr_re cs ds p k : csr cs ds -> re_entries cs p k = re_entries ds p k.
Proof.
  intros F. unfold re_entries. revert k. induction F as [|c d cs ds [Ha _] F IH]; intros k; [done|]. rewrite !imap_cons. f_equal; [by rewrite Ha|].
  etransitivity; [|etransitivity; [apply (IH (S k))|]]; apply imap_ext; intros i y _; cbn; f_equal; lia.
Qed.
Lemma er_calc n n' v w : csr (n_children n) (n_children n') -> n_children n <> [] ->
  Rs (fun _ y => cvalid L (fst y)) (calc_cache n v None) (calc_cache n' w None).
Proof.
  intros F Hne. unfold calc_cache. pose proof (csr_valid _ _ F) as V.
  assert (Hn : map c_cache (n_children n') <> []).
  { intros E%map_eq_nil. apply Hne. apply nil_length_inv. by rewrite (csr_len _ _ F), E. }
  destruct (lw_calc _ L w (map c_cache (n_children n')) V) as (d & E & _); [by left|].
  rewrite E. destruct (calc_cache_internal v _) as [[c0 d0]| |]; [|done|done]. apply Rs_ok. cbn. apply lw_summ; [done|by left].
Qed.
Lemma nil_len {X} (l : list X) : 0 < length l -> l <> [].
Proof. by destruct l; [cbn; lia|]. Qed.

Lemma pair_x t x ia ib : pair_neighbor t x = Ok (Some (ia, ib)) -> i_arena ia = x \/ i_arena ib = x.
Proof.
  unfold pair_neighbor. destruct (get_internal t x) as [n| |]; [|done|done]. cbn [rbind]. destruct (ropt (n_parent n)) as [p| |]; [|done|done]. cbn [rbind].
  destruct (get_internal t p) as [pn| |]; [|done|done]. cbn [rbind]. destruct (n_slot n) as [|s].
  - destruct (n_children pn !! 1); [|done]. cbn. intros [= <- <-]. by left.
  - destruct (n_children pn !! s); [|done]. cbn. intros [= <- <-]. by right.
Qed.
Lemma er_single t u x : Er t u -> Rs (fun r s => fst r = fst s /\ Er (snd r) (snd s)) (handle_lack_single_layer t x) (handle_lack_single_layer u x).
Proof.
  intros E. unfold handle_lack_single_layer. rewrite (er_root _ _ E). case_decide.
  { eapply Rs_bind; [by apply er_reduce|]. intros t1 u1 E1. by apply Rs_ok. }
  eapply Rs_bind_eq; [apply Rs_eq|]. intros xi ? Hxi <-. eapply Rs_bind_eq; [by apply er_get|]. intros n n' Hn (Np & Ns & Nc). rewrite Np, Ns.
  eapply Rs_bind; [apply Rs_eq|]. intros p ? <-. eapply Rs_bind; [apply Rs_eq|]. intros pi ? <-.
  eapply Rs_bind; [by apply er_get|]. intros pn pn' PN. pose proof PN as (Pp & Ps & Pc).
  eapply Rs_bind; [by apply Rs_ropt, csr_get|]. intros c0 d0 [C0 _]. rewrite C0. eapply Rs_bind; [apply Rs_eq|]. intros _ _ _.
  remember (n_children n) as CN eqn:HCN.
  destruct Nc as [|c d cs ds Hc Nc].
  { eapply Rs_bind; [by apply csr_remove|]. intros [? cs] [? ds] [_ Hr]. cbn in Hr.
    eapply Rs_bind; [apply er_slot_from, er_rem, er_set; [done|by apply nr_children]|]. intros t1 u1 E1. by apply Rs_ok. }
  eapply Rs_bind_eq; [by apply er_pair|]. intros [[ia ib]|] ? Hpr <-; [|by apply Rs_ok]. apply pair_x in Hpr.
  eapply Rs_bind; [by apply Rs_ropt, csr_get|]. intros ca ca' [Hca _].
  eapply Rs_bind; [by apply Rs_ropt, csr_get|]. intros cb cb' [Hcb _].
  eapply Rs_bind_eq; [apply Rs_eq|]. intros ai ? Hai <-. eapply Rs_bind_eq; [apply Rs_eq|]. intros bi ? Hbi <-. eapply Rs_bind; [apply Rs_eq|]. intros _ _ _.
  eapply Rs_bind_eq; [by apply er_get|]. intros na na' Hna NA. pose proof NA as (_ & _ & FA).
  eapply Rs_bind_eq; [by apply er_get|]. intros nb nb' Hnb NB. pose proof NB as (_ & _ & FB).
  cbv zeta. pose proof (csr_len _ _ FA) as LA. pose proof (csr_len _ _ FB) as LB. rewrite <- LA, <- LB.
  case_decide as Hlen.
  - eapply (Rs_bind (fun r s => csr (fst (fst r)) (fst (fst s)) /\ csr (snd (fst r)) (snd (fst s)) /\ snd r = snd s /\ 0 < length (fst (fst r)) /\ 0 < length (snd (fst r)))).
    { case_decide as Hlt.
      - set (ml := (length (n_children nb) - length (n_children na)) / 2).
        assert (Hml : ml <= length (n_children nb) /\ ml < length (n_children nb) /\ 0 < length (n_children na) + ml).
        { assert (2 * ml <= length (n_children nb) - length (n_children na)) by (apply Nat.mul_div_le; lia).
          assert (length (n_children nb) - length (n_children na) < 2 * S ml) by (apply Nat.mul_succ_div_gt; lia). lia. }
        clearbody ml.
        assert (FA' : csr (n_children na ++ take ml (n_children nb)) (n_children na' ++ take ml (n_children nb'))) by (apply csr_app; [done|by apply csr_take]).
        rewrite (csr_len _ _ FA'). eapply Rs_bind; [apply Rs_eq|]. intros _ _ _.
        assert (Hd : forall B', delete_range (n_children nb) 0 ml = Ok B' -> 0 < length B').
        { intros B'. unfold delete_range. repeat case_decide; try done; [intros [= <-]; lia| |].
          - unfold vec_remove. destruct (n_children nb !! 0); [|done]. cbn. intros [= <-]. cbn. rewrite drop_length. lia.
          - intros [= <-]. cbn. rewrite drop_length. lia. }
        pose proof (csr_delete _ _ 0 ml FB) as FD. destruct (delete_range (n_children nb) 0 ml) as [B'| |]; [|done|done].
        destruct FD as (B'' & -> & FD). cbn [rbind]. apply Rs_ok. cbn [fst snd]. split; [done|]. split; [done|]. split.
        + rewrite (csr_re _ _ ai _ (csr_take _ _ ml FB)), (csr_re _ _ bi _ FD). done.
        + split; [rewrite app_length, take_length; lia|by apply Hd].
      - set (ml := (length (n_children na) - length (n_children nb)) / 2).
        assert (Hml : ml <= length (n_children na) /\ ml < length (n_children na) /\ 0 < length (n_children nb) + ml).
        { assert (2 * ml <= length (n_children na) - length (n_children nb)) by (apply Nat.mul_div_le; lia).
          assert (length (n_children na) - length (n_children nb) < 2 * S ml) by (apply Nat.mul_succ_div_gt; lia). lia. }
        clearbody ml.
        assert (FB' : csr (drop (length (n_children na) - ml) (n_children na) ++ n_children nb) (drop (length (n_children na) - ml) (n_children na') ++ n_children nb')) by (apply csr_app; [by apply csr_drop|done]).
        rewrite (csr_len _ _ FB'). eapply Rs_bind; [apply Rs_eq|]. intros _ _ _.
        assert (Hd : forall B', delete_range (n_children na) (length (n_children na) - ml) (length (n_children na)) = Ok B' -> 0 < length B').
        { intros B'. unfold delete_range. repeat case_decide; try done; [intros [= <-]; lia| |].
          - unfold vec_remove. destruct (n_children na !! _); [|done]. cbn. intros [= <-]. rewrite app_length, take_length, drop_length. lia.
          - intros [= <-]. rewrite app_length, take_length, drop_length. lia. }
        pose proof (csr_delete _ _ (length (n_children na) - ml) (length (n_children na)) FA) as FD.
        destruct (delete_range (n_children na) _ _) as [B'| |]; [|done|done].
        destruct FD as (B'' & -> & FD). cbn [rbind]. apply Rs_ok. cbn [fst snd]. split; [done|]. split; [done|]. split.
        + rewrite (csr_re _ _ bi _ FB), (csr_re _ _ bi _ FB'). done.
        + split; [by apply Hd|rewrite app_length, drop_length; lia]. }
    intros [[A1 B1] re] [[A2 B2] re'] (FA1 & FB1 & Hre & HA & HB). cbn in FA1, FB1, Hre, HA, HB. subst re'.
    eapply Rs_bind; [apply er_calc; [done|by apply nil_len]|]. intros [ac ?] [ac' ?] Vac. cbn in Vac.
    eapply Rs_bind; [apply er_calc; [done|by apply nil_len]|]. intros [bc ?] [bc' ?] Vbc. cbn in Vbc.
    assert (E1 : Er (set_in (set_in t ai (with_children na A1)) bi (with_children nb B1)) (set_in (set_in u ai (with_children na' A2)) bi (with_children nb' B2))).
    { apply er_set; [apply er_set; [done|by apply nr_children]|by apply nr_children]. }
    eapply Rs_bind; [by apply er_get|]. intros qn qn' QN. pose proof QN as (_ & _ & FQ).
    eapply Rs_bind; [by apply csr_set|]. intros cs1 ds1 F1. eapply Rs_bind; [by apply csr_set|]. intros cs2 ds2 F2.
    assert (QN2 : nr (with_children qn cs2) (with_children qn' ds2)) by (by apply nr_children).
    eapply Rs_bind; [apply er_apply, er_set; [exact E1|exact QN2]|]. intros t2 u2 E2. apply Rs_ok. cbn. by rewrite (nr_lack _ _ QN2).
  - assert (FAB : csr (n_children na ++ n_children nb) (n_children na' ++ n_children nb')) by (by apply csr_app).
    rewrite (csr_len _ _ FAB). eapply Rs_bind; [apply Rs_eq|]. intros _ _ _.
    eapply (Rs_bind (fun r s => fst r = fst s /\ Er (snd r) (snd s))).
    2:{ intros [[lk re] t1] [[lk' re'] u1] [[= <- <-] E1]. cbn in E1. eapply Rs_bind; [by apply er_apply|]. intros t2 u2 E2. by apply Rs_ok. }
    destruct (decide (n_children na ++ n_children nb = [])) as [Hnil|Hnil].
    { exfalso. apply app_nil in Hnil as [Hna0 Hnb0]. destruct Hpr as [Hpr|Hpr].
      - rewrite Hpr, Hxi in Hai. injection Hai as <-. rewrite Hn in Hna. injection Hna as <-. by rewrite Hna0 in HCN.
      - rewrite Hpr, Hxi in Hbi. injection Hbi as <-. rewrite Hn in Hnb. injection Hnb as <-. by rewrite Hnb0 in HCN. }
    case_decide as Hx.
    + eapply Rs_bind; [by apply er_calc|]. intros [ac ?] [ac' ?] Vac. cbn in Vac.
      assert (E1 : Er (set_in (set_in t ai (with_children na (n_children na ++ n_children nb))) bi (with_children nb [])) (set_in (set_in u ai (with_children na' (n_children na' ++ n_children nb'))) bi (with_children nb' []))).
      { apply er_set; [apply er_set; [done|by apply nr_children]|apply nr_children; [done|constructor]]. }
      eapply Rs_bind; [by apply er_get|]. intros qn qn' QN. pose proof QN as (_ & _ & FQ).
      eapply Rs_bind; [by apply csr_set|]. intros cs1 ds1 F1. eapply Rs_bind; [by apply csr_remove|]. intros [? cs2] [? ds2] [_ F2]. cbn in F2.
      assert (QN2 : nr (with_children qn cs2) (with_children qn' ds2)) by (by apply nr_children).
      pose proof (er_set _ _ pi _ _ E1 QN2) as E2.
      unfold purge. rewrite (er_total _ _ E2). eapply Rs_bind; [by apply er_purge|]. intros t3 u3 E3.
      eapply Rs_bind; [by apply er_slot_from|]. intros t4 u4 E4. apply Rs_ok. cbn [fst snd]. split; [|done].
      by rewrite (nr_lack _ _ QN2), (csr_re _ _ _ _ FB).
    + eapply Rs_bind; [by apply er_calc|]. intros [ac ?] [ac' ?] Vac. cbn in Vac.
      assert (E1 : Er (set_in (set_in t ai (with_children na [])) bi (with_children nb (n_children na ++ n_children nb))) (set_in (set_in u ai (with_children na' [])) bi (with_children nb' (n_children na' ++ n_children nb')))).
      { apply er_set; [apply er_set; [done|apply nr_children; [done|constructor]]|by apply nr_children]. }
      eapply Rs_bind; [by apply er_get|]. intros qn qn' QN. pose proof QN as (_ & _ & FQ).
      eapply Rs_bind; [by apply csr_set|]. intros cs1 ds1 F1. eapply Rs_bind; [by apply csr_remove|]. intros [? cs2] [? ds2] [_ F2]. cbn in F2.
      assert (QN2 : nr (with_children qn cs2) (with_children qn' ds2)) by (by apply nr_children).
      pose proof (er_set _ _ pi _ _ E1 QN2) as E2.
      unfold purge. rewrite (er_total _ _ E2). eapply Rs_bind; [by apply er_purge|]. intros t3 u3 E3.
      eapply Rs_bind; [by apply er_slot_from|]. intros t4 u4 E4. apply Rs_ok. cbn [fst snd]. split; [|done].
      by rewrite (nr_lack _ _ QN2), (csr_re _ _ _ _ FA), (csr_re _ _ _ _ FB).
Qed.

Lemma er_leaf_slot l n n' : nr n n' -> get_leaf_slot l n = get_leaf_slot l n'.
Proof.
  intros (_ & _ & F). unfold get_leaf_slot. generalize 0. induction F as [|c d cs ds [Ha _] F IH]; intros k; [done|]. cbn [leaf_slot_from]. rewrite Ha.
  destruct (unwrap_leaf _) as [y| |]; [|done|done]. cbn [rbind]. case_decide; [done|]. apply IH.
Qed.
Lemma er_path_f f : forall t u x acc, Er t u -> Rs eq (get_path_f f t x acc) (get_path_f f u x acc).
Proof.
  induction f as [|f IH]; intros t u x acc E; cbn [get_path_f]; [done|]. rewrite (er_root _ _ E). case_decide; [apply Rs_eq|]. destruct x as [l|i].
  - rewrite (er_getl _ _ l E). eapply Rs_bind; [apply Rs_eq|]. intros lf ? <-. eapply Rs_bind; [by apply er_get|]. intros n n' N. rewrite (er_leaf_slot _ _ _ N).
    eapply Rs_bind; [apply Rs_eq|]. intros s ? <-. eapply Rs_bind; [apply Rs_eq|]. intros acc' ? <-. by apply IH.
  - eapply Rs_bind; [by apply er_get|]. intros n n' (Ep & Es & _). rewrite Es, Ep. eapply Rs_bind; [apply Rs_eq|]. intros acc' ? <-.
    eapply Rs_bind; [apply Rs_eq|]. intros p ? <-. by apply IH.
Qed.
Lemma er_path t u x : Er t u -> Rs eq (get_path t x) (get_path u x).
Proof. intros E. unfold get_path. rewrite (er_fuel _ _ E). eapply Rs_bind; [by apply er_path_f|]. intros p ? <-. by apply Rs_ok. Qed.
Lemma er_next_f f : forall t u i, Er t u -> Rs eq (next_int_f f t i) (next_int_f f u i).
Proof.
  induction f as [|f IH]; intros t u i E; cbn [next_int_f]; [done|]. eapply Rs_bind; [by apply er_get|]. intros n n' (Ep & Es & _). rewrite Ep, Es.
  destruct (n_parent n') as [p|]; [|by apply Rs_ok]. eapply Rs_bind; [apply Rs_eq|]. intros pi ? <-. eapply Rs_bind; [by apply er_get|]. intros pn pn' (_ & _ & F).
  destruct (csr_get _ _ (S (n_slot n')) F) as [c d [Ha _]|]; [rewrite Ha; by apply Rs_ok|]. eapply Rs_bind; [by apply IH|]. intros [q|] ? <-; [|by apply Rs_ok].
  eapply Rs_bind; [by apply er_internal|]. intros qn qn' (_ & _ & FQ). apply Rs_ok. destruct FQ as [|c d cs ds [Ha _] FQ]; cbn; [done|by rewrite Ha].
Qed.
Lemma er_next t u x : Er t u -> Rs eq (next_same_level_in_node t x) (next_same_level_in_node u x).
Proof.
  intros E. unfold next_same_level_in_node. rewrite (er_fuel _ _ E). destruct x as [l|i]; [|by apply er_next_f].
  rewrite (er_getl _ _ l E). eapply Rs_bind; [apply Rs_eq|]. intros lf ? <-. eapply Rs_bind; [by apply er_get|]. intros n n' N. rewrite (er_leaf_slot _ _ _ N).
  eapply Rs_bind; [apply Rs_eq|]. intros s ? <-. pose proof N as (_ & _ & F).
  destruct (csr_get _ _ (S s) F) as [c d [Ha _]|]; [rewrite Ha; by apply Rs_ok|]. eapply Rs_bind; [by apply er_next_f|]. intros [q|] ? <-; [|by apply Rs_ok].
  eapply Rs_bind; [by apply er_internal|]. intros qn qn' (_ & _ & FQ). destruct FQ as [|c d cs ds [Ha _] FQ]; [done|]. cbn. rewrite Ha. by apply Rs_ok.
Qed.
Lemma er_pass xs : forall t u k, Er t u -> Rs (fun v w => fst v = fst w /\ Er (snd v) (snd w)) (lack_pass t xs k) (lack_pass u xs k).
Proof.
  induction xs as [|x xs IH]; intros t u k E; cbn [lack_pass]; [by apply Rs_ok|]. eapply Rs_bind; [apply Rs_eq|]. intros i ? <-.
  eapply Rs_bind; [by apply er_get|]. intros n n' N. rewrite (nr_lack _ _ N). destruct (is_lack n'); [|by apply IH].
  eapply Rs_bind; [by apply er_single|]. intros [o t1] [o' u1] [Ho E1]. cbn in Ho, E1. subst o'. by apply IH.
Qed.
Lemma er_lack_f f : forall t u x k, Er t u -> Rs Er (lack_path_f f t x k) (lack_path_f f u x k).
Proof.
  induction f as [|f IH]; intros t u x k E; cbn [lack_path_f]; [done|]. eapply Rs_bind; [by apply er_path|]. intros p ? <-.
  eapply Rs_bind; [by apply er_pass|]. intros [k1 t1] [k2 u1] [Hk E1]. cbn in Hk, E1. subst k2. destruct (_ || _); [by apply Rs_ok|by apply IH].
Qed.
Theorem er_seal t u x : Er t u -> Rs Er (seal t x) (seal u x).
Proof.
  intros E. unfold seal, handle_lack_on_path_to_leaf. rewrite (er_keys _ _ E). eapply Rs_bind; [by apply er_lack_f|]. intros t1 u1 E1.
  eapply Rs_bind; [by apply er_next|]. intros [s|] ? <-.
  - rewrite (er_keys _ _ E1). eapply Rs_bind; [by apply er_lack_f|]. intros t2 u2 E2. by apply er_reduce.
  - cbn [rbind]. by apply er_reduce.
Qed.
End sim.
