(** Touch.v — how many arena entries one edit writes. *)
From Verif Require Export Frame.
Ltac rs E := repeat (match type of E with rbind ?m _ = Ok _ => let y := fresh "y" in let Ey := fresh "Ey" in destruct m as [y| |] eqn:Ey; cbn [rbind] in E; [|discriminate E|discriminate E] end).

Section touch.
Context {B : BTreeTrait}.
Notation btree := (btree B).
Notation node := (node B).
Notation child := (child B).
Implicit Types (t : btree) (i m p k : nat) (a b : aidx) (cs : list child).

(** the entry of a handle *)
Definition same t t' a : Prop :=
  match a with AInt i => a_get (in_nodes t') i = a_get (in_nodes t) i | ALeaf l => a_get (leaf_nodes t') l = a_get (leaf_nodes t) l end.
(** at most [k] entries of the two arenas differ: all others are as before, and those that did not exist do not exist *)
Definition Touched (k : nat) t t' : Prop := exists ns, length ns <= k /\ forall a, a ∉ ns -> same t t' a.

Lemma to_refl0 t : Touched 0 t t.
Proof. exists []. split; [done|]. by intros []. Qed.
Lemma to_same t t' : in_nodes t' = in_nodes t -> leaf_nodes t' = leaf_nodes t -> Touched 0 t t'.
Proof. intros E1 E2. exists []. split; [done|]. intros [] _; cbn; by rewrite ?E1, ?E2. Qed.
Lemma to_le k k' t t' : Touched k t t' -> k <= k' -> Touched k' t t'.
Proof. intros (ns & Hl & H) Hk. exists ns. split; [lia|done]. Qed.
Lemma to_trans k1 k2 t t1 t2 : Touched k1 t t1 -> Touched k2 t1 t2 -> Touched (k1 + k2) t t2.
Proof.
  intros (n1 & L1 & H1) (n2 & L2 & H2). exists (n1 ++ n2). rewrite app_length. split; [lia|]. intros a Ha.
  rewrite elem_of_app in Ha. specialize (H1 a ltac:(tauto)). specialize (H2 a ltac:(tauto)). destruct a; cbn in *; congruence.
Qed.
Lemma to_set_in t i n : Touched 1 t (set_in t i n).
Proof. exists [AInt i]. split; [done|]. intros a Ha. rewrite elem_of_list_singleton in Ha. destruct a as [l|j]; cbn; [done|]. unfold a_get, a_set. cbn. apply lookup_insert_ne. congruence. Qed.
Lemma to_set_lf t l n : Touched 1 t (set_lf t l n).
Proof. exists [ALeaf l]. split; [done|]. intros a Ha. rewrite elem_of_list_singleton in Ha. destruct a as [j|j]; cbn; [|done]. unfold a_get, a_set. cbn. apply lookup_insert_ne. congruence. Qed.
Lemma to_ins_in t n : Touched 1 t (snd (ins_in t n)).
Proof. exists [AInt (anext (in_nodes t))]. split; [done|]. intros a Ha. rewrite elem_of_list_singleton in Ha. destruct a as [l|j]; cbn; [done|]. unfold a_get, a_insert. cbn. apply lookup_insert_ne. congruence. Qed.
Lemma to_ins_lf t n : Touched 1 t (snd (ins_lf t n)).
Proof. exists [ALeaf (anext (leaf_nodes t))]. split; [done|]. intros a Ha. rewrite elem_of_list_singleton in Ha. destruct a as [j|j]; cbn; [|done]. unfold a_get, a_insert. cbn. apply lookup_insert_ne. congruence. Qed.
Lemma to_rem_in t i : Touched 1 t (rem_in t i).
Proof. exists [AInt i]. split; [done|]. intros a Ha. rewrite elem_of_list_singleton in Ha. destruct a as [l|j]; cbn; [done|]. unfold a_get, a_remove. cbn. apply lookup_delete_ne. congruence. Qed.
Lemma to_rem_lf t l : Touched 1 t (rem_lf t l).
Proof. exists [ALeaf l]. split; [done|]. intros a Ha. rewrite elem_of_list_singleton in Ha. destruct a as [j|j]; cbn; [|done]. unfold a_get, a_remove. cbn. apply lookup_delete_ne. congruence. Qed.

(** ** levels: parents are one level higher, so that a walk to the root takes at most [H] steps *)
Definition LN (N H : nat) (lv : nat -> nat) i (n : node) : Prop :=
  i < N /\ lv i <= H /\ length (n_children n) <= 12 /\
  (forall p, n_parent n = Some (AInt p) -> p < N /\ lv p = S (lv i)) /\
  (forall c m, c ∈ n_children n -> c_arena c = AInt m -> m < N /\ lv i = S (lv m)).
Definition Lev t H lv : Prop := forall i n, a_get (in_nodes t) i = Some n -> LN (anext (in_nodes t)) H lv i n.

Lemma get_in_some t i n : get_in t i = Ok n -> a_get (in_nodes t) i = Some n.
Proof. unfold get_in. destruct (a_get (in_nodes t) i); cbn; congruence. Qed.
Lemma lev_get t H lv i n : Lev t H lv -> get_in t i = Ok n -> LN (anext (in_nodes t)) H lv i n.
Proof. intros HL G. by apply HL, get_in_some. Qed.
Lemma lev_set t H lv i n : Lev t H lv -> LN (anext (in_nodes t)) H lv i n -> Lev (set_in t i n) H lv.
Proof.
  intros HL Hn j m. unfold set_in, a_get, a_set. cbn. destruct (decide (i = j)) as [->|D].
  - rewrite lookup_insert. by intros [= <-].
  - rewrite lookup_insert_ne by done. apply HL.
Qed.
Lemma lev_rem t H lv i : Lev t H lv -> Lev (rem_in t i) H lv.
Proof. intros HL j m. unfold rem_in, a_get, a_remove. cbn. rewrite lookup_delete_Some. intros [_ G]. by apply HL. Qed.
Lemma lev_same t t' H lv : in_nodes t' = in_nodes t -> Lev t H lv -> Lev t' H lv.
Proof. intros E HL i n. rewrite E. apply HL. Qed.
(** a node with other children, parent or slot *)
Lemma ln_with N H lv i n n' : LN N H lv i n -> length (n_children n') <= 12 ->
  (forall p, n_parent n' = Some (AInt p) -> n_parent n = Some (AInt p) \/ p < N /\ lv p = S (lv i)) ->
  (forall c m, c ∈ n_children n' -> c_arena c = AInt m -> (exists c', c' ∈ n_children n /\ c_arena c' = AInt m) \/ m < N /\ lv i = S (lv m)) -> LN N H lv i n'.
Proof.
  intros (A1 & A2 & A3 & A4 & A5) B1 B2 B3. split_and!; try done.
  - intros p Hp. destruct (B2 p Hp) as [?|?]; eauto.
  - intros c m Hc Ha. destruct (B3 c m Hc Ha) as [(c' & Hc' & Ha')|?]; eauto.
Qed.
(** child lists with the same arenas *)
Lemma ar_insert (cs : list child) s ch c : cs !! s = Some ch -> map c_arena (<[s := mkChild (c_arena ch) c]> cs) = map c_arena cs.
Proof.
  intros Hs. rewrite list_fmap_insert. apply list_insert_id. rewrite list_lookup_fmap, Hs. done.
Qed.
Lemma ar_in (cs cs' : list child) c m : map c_arena cs' = map c_arena cs -> c ∈ cs' -> c_arena c = AInt m -> exists c', c' ∈ cs /\ c_arena c' = AInt m.
Proof.
  intros E Hc Ha. assert (AInt m ∈ map c_arena cs') as Hin by (apply elem_of_list_fmap; eauto).
  rewrite E in Hin. apply elem_of_list_fmap in Hin as (c' & E' & Hc'). eauto.
Qed.
Lemma ln_arenas N H lv i n cs : LN N H lv i n -> map c_arena cs = map c_arena (n_children n) -> LN N H lv i (with_children n cs).
Proof.
  intros Hn E. apply (ln_with _ _ _ _ n); [done| | |].
  - cbn. apply (f_equal length) in E. rewrite !map_length in E. destruct Hn as (_ & _ & Hl & _). lia.
  - intros p Hp. by left.
  - intros c m Hc Ha. left. by eapply ar_in.
Qed.
Lemma vec_get_ok {A} (l : list A) i x : vec_get l i = Ok x -> l !! i = Some x.
Proof. unfold vec_get. destruct (l !! i); cbn; congruence. Qed.
Lemma set_cache_ar (cs cs' : list child) s c : set_child_cache cs s c = Ok cs' -> map c_arena cs' = map c_arena cs.
Proof. unfold set_child_cache. destruct (vec_get cs s) as [ch| |] eqn:E; cbn; [|done..]. intros [= <-]. by apply ar_insert, vec_get_ok. Qed.
Lemma apply_cache_ar (cs cs' : list child) s d : apply_child_cache cs s d = Ok cs' -> map c_arena cs' = map c_arena cs.
Proof.
  unfold apply_child_cache. destruct (vec_get cs s) as [ch| |] eqn:E; cbn; [|done..]. destruct (apply_cache_diff _ _); cbn; [|done..].
  intros [= <-]. by apply ar_insert, vec_get_ok.
Qed.

(** ** walks *)
Lemma unwrap_int a i : unwrap_internal a = Ok i -> a = AInt i.
Proof. destruct a; cbn; congruence. Qed.
Lemma set_slots_st H lv cs : forall t j t', set_slots t cs j = Ok t' -> Lev t H lv ->
  Touched (length cs) t t' /\ Lev t' H lv /\ anext (in_nodes t') = anext (in_nodes t).
Proof.
  induction cs as [|c cs IH]; intros t j t'; cbn [set_slots length]; [intros [= <-] HL; split_and!; try done; apply to_refl0|].
  intros E HL. rs E. destruct (IH _ _ _ E) as (I1 & I2 & I3); [|split_and!; try done].
  - apply lev_set; [done|]. pose proof (lev_get _ _ _ _ _ HL Ey0) as Hn. apply (ln_with _ _ _ _ _ _ Hn); [apply Hn|by left|by eauto].
  - apply (to_trans 1 _ _ _ _ (to_set_in _ _ _) I1).
Qed.
Lemma get_internal_ok t a n : get_internal t a = Ok n -> exists i, a = AInt i /\ get_in t i = Ok n.
Proof. unfold get_internal. destruct a; cbn; [done|eauto]. Qed.
Lemma uc_slots_st H lv t (pa : aidx) j t' : update_children_parent_slot_from t pa j = Ok t' -> Lev t H lv ->
  Touched 12 t t' /\ Lev t' H lv /\ anext (in_nodes t') = anext (in_nodes t).
Proof.
  unfold update_children_parent_slot_from. intros E HL. rs E. destruct (_ || _).
  - injection E as <-. split_and!; try done. apply (to_le 0); [apply to_refl0|lia].
  - destruct (set_slots_st H lv _ _ _ _ E HL) as (I1 & I2). split; [|done]. apply (to_le _ _ _ _ I1). rewrite drop_length.
    apply get_internal_ok in Ey as (i & -> & G). apply (lev_get _ _ _ _ _ HL) in G as (_ & _ & ? & _). lia.
Qed.
(** re-parenting: a loop over (child, parent, slot) *)
Lemma re_parent_all_st H lv cs p : forall t j t', re_parent_all t cs p j = Ok t' -> Lev t H lv -> p < anext (in_nodes t) ->
  (forall c m, c ∈ cs -> c_arena c = AInt m -> lv p = S (lv m)) ->
  Touched (length cs) t t' /\ Lev t' H lv /\ anext (in_nodes t') = anext (in_nodes t).
Proof.
  induction cs as [|c cs IH]; intros t j t'; cbn [re_parent_all length]; [intros [= <-] HL _ _; split_and!; try done; apply to_refl0|].
  intros E HL Hp Hc. destruct (c_arena c) as [l|m] eqn:Ea; rs E.
  - destruct (IH _ _ _ E) as (I1 & I2 & I3); [done|done|intros; eapply Hc; [by right|done]|split_and!; try done].
    apply (to_trans 1 _ _ _ _ (to_set_lf _ _ _) I1).
  - destruct (IH _ _ _ E) as (I1 & I2 & I3); [|done|intros; eapply Hc; [by right|done]|split_and!; try done].
    + apply lev_set; [done|]. pose proof (lev_get _ _ _ _ _ HL Ey) as Hn. apply (ln_with _ _ _ _ _ _ Hn); [apply Hn| |by eauto].
      cbn. intros p' [= <-]. right. split; [done|]. apply (Hc c m); [left|done].
    + apply (to_trans 1 _ _ _ _ (to_set_in _ _ _) I1).
Qed.
Lemma in_take {A} (l : list A) n x : x ∈ take n l -> x ∈ l.
Proof. intros Hx. rewrite <- (take_drop n l), elem_of_app. by left. Qed.
Lemma in_drop {A} (l : list A) n x : x ∈ drop n l -> x ∈ l.
Proof. intros Hx. rewrite <- (take_drop n l), elem_of_app. by right. Qed.
Lemma delete_range_in {A} (l l' : list A) (st en : nat) : delete_range l st en = Ok l' -> length l' <= length l /\ forall x, x ∈ l' -> x ∈ l.
Proof.
  pose proof (in_take l) as HT. pose proof (in_drop l) as HD.
  unfold delete_range. repeat case_decide; try done; try (intros [= <-]; done).
  - unfold vec_remove. destruct (l !! st) eqn:E; cbn; [|done]. intros [= <-]. split.
    + rewrite app_length, take_length, drop_length. apply lookup_lt_Some in E. lia.
    + intros x. rewrite elem_of_app. intros [?|?]; eauto.
  - intros [= <-]. split; [rewrite app_length, take_length, drop_length; lia|]. intros x. rewrite elem_of_app. intros [Hx|Hx]; eauto.
Qed.
Lemma vec_insert_in {A} c (l l' : list A) i x : vec_insert c l i x = Ok l' -> length l' <= c /\ forall y, y ∈ l' -> y = x \/ y ∈ l.
Proof.
  unfold vec_insert. case_decide as D; [|done]. intros [= <-]. split; [rewrite app_length, take_length; cbn; rewrite drop_length; lia|].
  intros y. rewrite elem_of_app, elem_of_cons. intros [Hy|[->|Hy]]; [|by left|]; right.
  - by eapply in_take.
  - by eapply in_drop.
Qed.
Lemma vec_remove_in {A} (l l' : list A) i x : vec_remove l i = Ok (x, l') -> length l' <= length l /\ l !! i = Some x /\ forall y, y ∈ l' -> y ∈ l.
Proof.
  unfold vec_remove. destruct (l !! i) eqn:E; [|done]. intros [= -> <-]. split_and!; [rewrite app_length, take_length, drop_length; apply lookup_lt_Some in E; lia|done|].
  intros y. rewrite elem_of_app. intros [Hy|Hy]; [by eapply in_take|by eapply in_drop].
Qed.

(** levels with one new node *)
Definition lv_new (lv : nat -> nat) (N v : nat) : nat -> nat := fun j => if decide (j = N) then v else lv j.
Lemma lev_ins t H lv n v : Lev t H lv -> LN (S (anext (in_nodes t))) H (lv_new lv (anext (in_nodes t)) v) (anext (in_nodes t)) n ->
  Lev (snd (ins_in t n)) H (lv_new lv (anext (in_nodes t)) v).
Proof.
  intros HL Hn j m. unfold ins_in, a_get, a_insert. cbn. destruct (decide (anext (in_nodes t) = j)) as [<-|D].
  - rewrite lookup_insert. by intros [= <-].
  - rewrite lookup_insert_ne by done. intros G. destruct (HL j m G) as (A1 & A2 & A3 & A4 & A5). unfold LN, lv_new. rewrite (decide_False (P := j = _)) by lia.
    split_and!; try done; [lia| |].
    + intros p Hp. destruct (A4 p Hp). rewrite decide_False by lia. lia.
    + intros c k Hc Ha. destruct (A5 c k Hc Ha). rewrite decide_False by lia. lia.
Qed.

Lemma split_node_st H lv t i np s v rc t' : split_node t (AInt i) = Ok (np, s, v, rc, t') -> Lev t H lv ->
  exists lv', Touched 15 t t' /\ Lev t' H lv' /\ (forall j, j < anext (in_nodes t) -> lv' j = lv j) /\ anext (in_nodes t') = S (anext (in_nodes t)) /\
    i < anext (in_nodes t) /\ (forall p, np = Some (AInt p) -> p < anext (in_nodes t) /\ lv p = S (lv i)) /\
    (forall m, c_arena rc = AInt m -> m < anext (in_nodes t') /\ lv' m = lv i).
Proof.
  unfold split_node. cbn [unwrap_internal rbind]. intros E HL.
  destruct (get_in t i) as [n| |] eqn:G; cbn [rbind] in E; [|done..]. pose proof (lev_get _ _ _ _ _ HL G) as Hn. pose proof Hn as (N1 & N2 & N3 & N4 & N5).
  destruct (delete_range _ _ _) as [lc| |] eqn:Ed; cbn [rbind] in E; [|done..]. apply delete_range_in in Ed as [Dl Di].
  set (R := drop (length (n_children n) / 2) (n_children n)) in *.
  assert (HRl : length R <= 12) by (unfold R; rewrite drop_length; lia).
  assert (HR : forall c, c ∈ R -> c ∈ n_children n) by (intros c Hc; by eapply in_drop).
  set (t1 := set_in t i (with_children n lc)) in *.
  assert (HL1 : Lev t1 H lv).
  { apply lev_set; [done|]. apply (ln_with _ _ _ _ _ _ Hn); [cbn; lia|by left|]. intros c m Hc Ha. left. exists c. split; [by apply Di|done]. }
  rewrite (surjective_pairing (ins_in t1 _)) in E. cbv beta iota zeta in E.
  set (ri := fst (ins_in t1 (mkNode (n_parent n) U8_MAX []))) in *. set (t2 := snd (ins_in t1 (mkNode (n_parent n) U8_MAX []))) in *.
  assert (Eri : ri = anext (in_nodes t)) by done. set (lv' := lv_new lv ri (lv i)).
  assert (HL2 : Lev t2 H lv').
  { apply (lev_ins t1 H lv _ (lv i) HL1). unfold LN, lv_new. cbn [n_children n_parent]. rewrite decide_True by done.
    split_and!; [lia|done|cbn; lia| |by intros c m Hc; apply elem_of_nil in Hc].
    intros p Hp. destruct (N4 p Hp). change (anext (in_nodes t1)) with (anext (in_nodes t)). rewrite decide_False by lia. lia. }
  assert (An2 : anext (in_nodes t2) = S (anext (in_nodes t))) by done.
  assert (Hlv' : forall j, j < anext (in_nodes t) -> lv' j = lv j) by (intros j Hj; unfold lv', lv_new; rewrite decide_False by lia; done).
  assert (Hri : lv' ri = lv i) by (unfold lv', lv_new; by rewrite decide_True).
  rs E. destruct y0 as [c0 d0]. cbn [rbind] in E. rs E. destruct y2 as [c1 d1]. injection E as <- <- <- <- <-.
  destruct (re_parent_all_st H lv' _ _ _ _ _ Ey1 HL2) as (I1 & I2 & I3); [lia| |].
  { intros c m Hc Ha. destruct (N5 c m (HR c Hc) Ha). rewrite Hri, Hlv' by done. lia. }
  pose proof (lev_get _ _ _ _ _ I2 Ey2) as Hr.
  exists lv'. split_and!; try done.
  - apply (to_le (1 + 1 + length R + 1)); [|lia]. eapply to_trans; [|apply to_set_in]. eapply to_trans; [|exact I1].
    eapply to_trans; [apply to_set_in|apply to_ins_in].
  - apply lev_set; [done|]. apply (ln_with _ _ _ _ _ _ Hr); [exact HRl|by left|]. cbn [with_children n_children]. intros c m Hc Ha. right.
    destruct (N5 c m (HR c Hc) Ha). rewrite I3, An2, Hri, Hlv' by done. lia.
  - cbn [c_arena]. intros m [= <-]. split; [change (ri < anext (in_nodes y0)); lia|done].
Qed.
Lemma re_parent_all_to cs p : forall t j t', re_parent_all t cs p j = Ok t' -> Touched (length cs) t t'.
Proof.
  induction cs as [|c cs IH]; intros t j t'; cbn [re_parent_all length]; [intros [= <-]; apply to_refl0|].
  intros E. destruct (c_arena c) as [l|m]; rs E; apply IH in E; [apply (to_trans 1 _ _ _ _ (to_set_lf _ _ _) E)|apply (to_trans 1 _ _ _ _ (to_set_in _ _ _) E)].
Qed.
Lemma split_root_to H lv t v rc t' : split_root t v rc = Ok t' -> Lev t H lv -> Touched 16 t t'.
Proof.
  unfold split_root. intros E HL.
  destruct (c_arena rc) as [l|ri] eqn:Ea; cbn [unwrap_internal rbind] in E; [done|].
  destruct (get_in t ri) as [n| |] eqn:G1; cbn [rbind] in E; [|done..].
  destruct (root t) as [l|r] eqn:Er; cbn [unwrap_internal rbind] in E; [done|].
  destruct (get_in (set_in _ _ _) r) as [n1| |] eqn:G2; cbn [rbind] in E; [|done..].
  assert (Hl : length (n_children n1) <= 12).
  { unfold get_in, set_in, a_get, a_set in G2. cbn in G2. destruct (decide (ri = r)) as [->|D].
    - rewrite lookup_insert in G2. cbn in G2. injection G2 as <-. cbn. by apply (lev_get _ _ _ _ _ HL) in G1 as (_ & _ & ? & _).
    - rewrite lookup_insert_ne in G2 by done. by apply (lev_get _ _ _ _ _ HL) in G2 as (_ & _ & ? & _). }
  rewrite (surjective_pairing (ins_in _ _)) in E. cbv beta iota zeta in E. rs E. destruct y2 as [c d]. cbn [rbind] in E. rs E. injection E as <-.
  apply re_parent_all_to in Ey3. apply (to_le (1 + 1 + 1 + 1 + length (n_children n1) + 0)); [|lia].
  eapply to_trans; [|by apply to_same]. eapply to_trans; [|exact Ey3]. eapply to_trans; [|apply to_set_in].
  eapply to_trans; [|apply to_ins_in]. eapply to_trans; apply to_set_in.
Qed.
Lemma split_f_to H f : forall t lv i t', split_f f t (AInt i) = Ok t' -> Lev t H lv -> lv i <= H -> Touched (28 * (H - lv i) + 31) t t'.
Proof.
  induction f as [|f IH]; intros t lv i t'; [done|]. cbn [split_f]. intros E HL Hi.
  destruct (split_node t (AInt i)) as [[[[[np s] v] rc] t1]| |] eqn:E1; cbn [rbind] in E; [|done..].
  destruct (split_node_st H lv _ _ _ _ _ _ _ E1 HL) as (lv' & T1 & L1 & Hlv & An & Hi0 & Hp & Hrc).
  destruct np as [[l|p]|]; cbn [unwrap_internal rbind] in E; [done| |].
  - destruct (Hp p eq_refl) as [Hp1 Hp2]. destruct (get_in t1 p) as [pn| |] eqn:Gp; cbn [rbind] in E; [|done..].
    pose proof (lev_get _ _ _ _ _ L1 Gp) as Np. rs E. rename y into cs1, y0 into cs2. set (pn' := with_children pn cs2) in *.
    apply vec_insert_in in Ey0 as [V1 V2]. apply set_cache_ar in Ey.
    assert (L2 : Lev (set_in t1 p pn') H lv').
    { apply lev_set; [done|]. apply (ln_with _ _ _ _ _ _ Np); [done|by left|]. intros c m Hc Ha. cbn in Hc. destruct (V2 c Hc) as [->|Hc'].
      - right. destruct (Hrc m Ha). split; [lia|]. rewrite Hlv by lia. lia.
      - left. by eapply ar_in. }
    destruct (uc_slots_st H lv' _ _ _ _ Ey1 L2) as (T3 & L3 & An3).
    assert (T13 : Touched (15 + 1 + 12) t y1) by (eapply to_trans; [|exact T3]; eapply to_trans; [exact T1|apply to_set_in]).
    destruct Np as (_ & Np & _). rewrite Hlv in Np by lia. destruct (is_full pn').
    + apply IH with (lv := lv') in E; [|done|rewrite Hlv by lia; lia]. rewrite Hlv in E by lia. eapply to_le; [eapply to_trans; [exact T13|exact E]|]. lia.
    + injection E as <-. eapply to_le; [exact T13|lia].
  - apply (split_root_to _ _ _ _ _ _ E) in L1. eapply to_le; [eapply to_trans; [exact T1|exact L1]|lia].
Qed.
(** the refresh of the summaries up to the root *)
Lemma ruc_diff_st H lv d f : forall t i t', ruc_diff_f f t (AInt i) d = Ok t' -> Lev t H lv -> Touched (H - lv i) t t' /\ Lev t' H lv /\ anext (in_nodes t') = anext (in_nodes t).
Proof.
  induction f as [|f IH]; intros t i t'; [done|]. cbn [ruc_diff_f]. unfold get_internal. cbn [unwrap_internal rbind]. intros E HL.
  destruct (get_in t i) as [n| |] eqn:G; cbn [rbind] in E; [|done..]. pose proof (lev_get _ _ _ _ _ HL G) as (N1 & N2 & N3 & N4 & N5).
  destruct (n_parent n) as [[l|p]|] eqn:Ep; cbn [unwrap_internal rbind] in E; [done| |].
  - destruct (N4 p eq_refl) as [Hp1 Hp2]. rs E. pose proof (lev_get _ _ _ _ _ HL Ey) as Np. apply apply_cache_ar in Ey0.
    destruct (IH _ _ _ E) as (T & L2 & An); [apply lev_set; [done|by apply ln_arenas]|]. split; [|done].
    destruct Np as (_ & Np & _). eapply to_le; [eapply (to_trans 1); [apply to_set_in|exact T]|]. lia.
  - rs E. injection E as <-. split; [|done]. eapply to_le; [by apply to_same|lia].
Qed.
Lemma calc_into_st H lv t p i n d d' t' : calc_into_parent t p i n d = Ok (d', t') -> Lev t H lv -> Touched 1 t t' /\ Lev t' H lv /\ anext (in_nodes t') = anext (in_nodes t) /\ lv p <= H.
Proof.
  unfold calc_into_parent. intros E HL. rs E. destruct y2 as [c dd]. injection E as <- <-. pose proof (lev_get _ _ _ _ _ HL Ey0) as Np.
  split; [apply to_set_in|]. split; [|by destruct Np as (_ & ? & _)]. apply lev_set; [done|]. apply ln_arenas; [done|]. by apply ar_insert, vec_get_ok.
Qed.
Lemma ruc_loop_st H lv f : forall t i t', ruc_loop_f f t i = Ok t' -> Lev t H lv -> Touched (H - lv i) t t' /\ Lev t' H lv /\ anext (in_nodes t') = anext (in_nodes t).
Proof.
  induction f as [|f IH]; intros t i t'; [done|]. cbn [ruc_loop_f]. intros E HL.
  destruct (get_in t i) as [n| |] eqn:G; cbn [rbind] in E; [|done..]. pose proof (lev_get _ _ _ _ _ HL G) as (N1 & N2 & N3 & N4 & N5).
  destruct (n_parent n) as [[l|p]|] eqn:Ep; cbn [unwrap_internal rbind] in E; [done| |].
  - destruct (N4 p eq_refl) as [Hp1 Hp2]. destruct (calc_into_parent _ _ _ _ _) as [[d t1]| |] eqn:E1; cbn [rbind] in E; [|done..].
    destruct (calc_into_st H lv _ _ _ _ _ _ _ E1 HL) as (T1 & L1 & A1 & Hp3). destruct (IH _ _ _ E L1) as (T & L2 & An). split; [|split; [done|congruence]].
    eapply to_le; [eapply to_trans; [exact T1|exact T]|]. lia.
  - injection E as <-. split; [|done]. eapply to_le; [apply to_refl0|lia].
Qed.
Lemma calc_root_st H lv t d t' : calc_root t d = Ok t' -> Lev t H lv -> Touched 0 t t' /\ Lev t' H lv /\ anext (in_nodes t') = anext (in_nodes t).
Proof. unfold calc_root. intros E HL. rs E. destruct y0 as [c dd]. injection E as <-. split; [by apply to_same|done]. Qed.
Lemma ruc_st H lv t x u d t' : recursive_update_cache t x u d = Ok t' -> Lev t H lv -> Touched (H + 2) t t' /\ Lev t' H lv /\ anext (in_nodes t') = anext (in_nodes t).
Proof.
  unfold recursive_update_cache. intros E HL.
  match type of E with rbind ?m _ = _ => destruct m as [[i t1]| |] eqn:E1; cbn [rbind] in E; [|done..] end.
  assert (Touched 1 t t1 /\ Lev t1 H lv /\ anext (in_nodes t1) = anext (in_nodes t)) as (T1 & L1 & A1).
  { destruct x as [l|j]; [|injection E1 as <- <-; split; [eapply to_le; [apply to_refl0|lia]|done]]. rs E1. injection E1 as <- <-.
    split; [apply to_set_in|]. split; [|done]. apply lev_set; [done|]. apply ln_arenas; [by eapply lev_get|]. unfold set_leaf_cache in Ey1. rs Ey1. by eapply set_cache_ar. }
  assert (forall k t2 t', Touched k t1 t2 -> k <= S H -> Touched k t1 t2 /\ Lev t' H lv /\ anext (in_nodes t') = anext (in_nodes t1) -> t2 = t' -> Touched (H + 2) t t' /\ Lev t' H lv /\ anext (in_nodes t') = anext (in_nodes t)) as Fin.
  { intros k t2 t3 Tk Hk (_ & Lk & Ak) ->. split; [|split; [done|congruence]]. eapply to_le; [eapply to_trans; [exact T1|exact Tk]|]. lia. }
  destruct u; [destruct d as [d|]|].
  - unfold recursive_update_cache_with_diff in E. destruct (ruc_diff_st H lv _ _ _ _ _ E L1) as (T2 & L2). eapply Fin; [exact T2|lia|done|done].
  - destruct (get_in t1 i) as [n| |] eqn:G; cbn [rbind] in E; [|done..]. destruct (n_parent n) as [[l|p]|] eqn:Ep; cbn [unwrap_internal rbind] in E; [done| |].
    + destruct (calc_into_parent _ _ _ _ _) as [[d t2]| |] eqn:E2; cbn [rbind] in E; [|done..].
      destruct (calc_into_st H lv _ _ _ _ _ _ _ E2 L1) as (T2 & L2 & A2 & Hp3). destruct (ruc_diff_st H lv _ _ _ _ _ E L2) as (T3 & L3 & A3).
      eapply Fin; [eapply to_trans; [exact T2|exact T3]|lia| |done]. split; [eapply to_trans; [exact T2|exact T3]|]. split; [done|congruence].
    + destruct (calc_root_st H lv _ _ _ E L1) as (T2 & L2). eapply Fin; [exact T2|lia|done|done].
  - destruct (ruc_loop_f _ _ _) as [t2| |] eqn:E2; cbn [rbind] in E; [|done..].
    destruct (ruc_loop_st H lv _ _ _ _ E2 L1) as (T2 & L2 & A2). destruct (calc_root_st H lv _ _ _ E L2) as (T3 & L3 & A3).
    eapply Fin; [eapply to_trans; [exact T2|exact T3]|lia| |done]. split; [eapply to_trans; [exact T2|exact T3]|]. split; [done|congruence].
Qed.
End touch.
