(** FromIter.v — FromIterator::from_iter (C27). *)
From Verif Require Export Ops.

Section sub.
Context {B : BTreeTrait} (L : Lawful B).
Notation btree := (btree B).
Notation child := (child B).
Notation Elem := (Elem B).
Implicit Types (t : btree) (i p k d l : nat) (xs ys : list (nat * Elem)) (is js : list nat) (cs : list child) (c : child).

(** [Sub t p k c d xs is]: the child entry [c] in slot [k] of the node [p] is the root of a
    completed subtree of depth [d] with content [xs] and internal nodes [is] *)
Inductive Sub t : nat -> nat -> child -> nat -> list (nat * Elem) -> list nat -> Prop :=
| sub_leaf p k l e : a_get (leaf_nodes t) l = Some (mkLeaf e p) -> evalid L e ->
    Sub t p k (mkChild (ALeaf l) (get_elem_cache e)) 0 [(l, e)] []
| sub_node p k i cs d xs is : a_get (in_nodes t) i = Some (mkNode (Some (AInt p)) k cs) -> cs <> [] -> length cs <= 11 ->
    Subs t i 0 cs d xs is -> Sub t p k (mkChild (AInt i) (summ L (map c_cache cs))) (S d) xs (i :: is)
with Subs t : nat -> nat -> list child -> nat -> list (nat * Elem) -> list nat -> Prop :=
| subs_nil p k d : Subs t p k [] d [] []
| subs_cons p k c cs d xs ys is js : Sub t p k c d xs is -> Subs t p (S k) cs d ys js ->
    Subs t p k (c :: cs) d (xs ++ ys) (is ++ js).
End sub.
Scheme Sub_ind2 := Induction for Sub Sort Prop
  with Subs_ind2 := Induction for Subs Sort Prop.
Combined Scheme Sub_mut from Sub_ind2, Subs_ind2.

Section fi.
Context {B : BTreeTrait} (L : Lawful B).
Notation btree := (btree B).
Notation child := (child B).
Notation Elem := (Elem B).
Notation Sub := (Sub L).
Notation Subs := (Subs L).
Notation ec := (@ec B).
Implicit Types (t : btree) (i p k d l : nat) (xs ys : list (nat * Elem)) (is js : list nat) (cs : list child) (c : child).

Definition same_on t t' is xs : Prop :=
  (forall i, i ∈ is -> a_get (in_nodes t') i = a_get (in_nodes t) i) /\ (forall l, l ∈ xs.*1 -> a_get (leaf_nodes t') l = a_get (leaf_nodes t) l).
Lemma sub_frame t t' :
  (forall p k c d xs is, Sub t p k c d xs is -> same_on t t' is xs -> Sub t' p k c d xs is) /\
  (forall p k cs d xs is, Subs t p k cs d xs is -> same_on t t' is xs -> Subs t' p k cs d xs is).
Proof.
  apply Sub_mut.
  - intros p k l e Hg He [_ H2]. constructor; [|done]. rewrite H2; [done|]. cbn. set_solver.
  - intros p k i cs d xs is Hg Hne Hl _ IH [H1 H2]. constructor; [|done|done|].
    + rewrite H1; [done|set_solver].
    + apply IH. split; [|done]. intros j Hj. apply H1. set_solver.
  - intros. constructor.
  - intros p k c cs d xs ys is js _ IH1 _ IH2 [H1 H2]. rewrite fmap_app in H2. constructor; [apply IH1|apply IH2]; split; intros; (apply H1 || apply H2); set_solver.
Qed.
Lemma subs_app t p : forall cs k d xs is cs' ys js, Subs t p k cs d xs is -> Subs t p (k + length cs) cs' d ys js ->
  Subs t p k (cs ++ cs') d (xs ++ ys) (is ++ js).
Proof.
  induction cs as [|c cs IH]; intros k d xs is cs' ys js H H'.
  - inversion H; subst. cbn in H'. by rewrite Nat.add_0_r in H'.
  - inversion H; subst. cbn [app]. rewrite <- !app_assoc. constructor; [done|]. apply IH; [done|]. cbn in H'. by replace (S k + length cs) with (k + S (length cs)) by lia.
Qed.

(** what follows from [Sub] *)
Lemma sub_order t :
  (forall p k c d xs is, Sub t p k c d xs is -> InOrder t (c_arena c) d xs) /\
  (forall p k cs d xs is, Subs t p k cs d xs is -> InOrders t (map c_arena cs) d xs).
Proof.
  apply Sub_mut.
  - intros p k l e Hg He. cbn. change [(l, e)] with [(l, l_elem (mkLeaf e p))]. by constructor.
  - intros p k i cs d xs is Hg Hne Hl _ IH. cbn. by econstructor.
  - intros. constructor.
  - intros. cbn. by constructor.
Qed.
Lemma sub_cache t :
  (forall p k c d xs is, Sub t p k c d xs is -> cvalid L (c_cache c) /\ Forall (cvalid L) (ec xs) /\
     (forall l e, (l, e) ∈ xs -> evalid L e) /\ xs <> [] /\
     forall A Z, Forall (cvalid L) A -> Forall (cvalid L) Z -> summ L (A ++ c_cache c :: Z) = summ L (A ++ ec xs ++ Z)) /\
  (forall p k cs d xs is, Subs t p k cs d xs is -> Forall (cvalid L) (map c_cache cs) /\ Forall (cvalid L) (ec xs) /\
     (forall l e, (l, e) ∈ xs -> evalid L e) /\ (cs <> [] -> xs <> []) /\
     forall A Z, Forall (cvalid L) A -> Forall (cvalid L) Z -> summ L (A ++ map c_cache cs ++ Z) = summ L (A ++ ec xs ++ Z)).
Proof.
  apply Sub_mut.
  - intros p k l e Hg He. cbn. pose proof (lw_get _ L e He). split_and!; try done. { by constructor. }
    intros l' e' [= -> ->]%elem_of_list_singleton. done.
  - intros p k i cs d xs is Hg Hne Hl _ (V1 & V2 & V3 & V4 & IH). cbn [c_cache].
    assert (Hm : map c_cache cs <> []). { intros E. apply map_eq_nil in E. done. }
    split_and!; auto.
    + apply lw_summ; auto.
    + intros A Z HA HZ. rewrite lw_flat; [apply IH; done| |by left]. rewrite !Forall_app. done.
  - intros. split_and!; cbn; try done. intros l e H. by apply elem_of_nil in H.
  - intros p k c cs d xs ys is js _ (V1 & V2 & V3 & V4 & I1) _ (W1 & W2 & W3 & W4 & I2). cbn [map]. split_and!.
    + by constructor.
    + rewrite ec_app. by apply Forall_app.
    + intros l e [?|?]%elem_of_app; eauto.
    + intros _. by destruct xs.
    + intros A Z HA HZ. rewrite ec_app. cbn [app]. rewrite I1; [|done|by apply Forall_app]. rewrite (app_assoc A), I2; [|by apply Forall_app|done]. by rewrite <- !app_assoc.
Qed.
Lemma sub_agg t p k c d xs is : Sub t p k c d xs is -> c_cache c = agg L xs.
Proof.
  intros H. destruct (proj1 (sub_cache t) _ _ _ _ _ _ H) as (V & _ & _ & _ & E). specialize (E [] [] (Forall_nil_2 _) (Forall_nil_2 _)).
  cbn [app] in E. rewrite lw_one in E by done. rewrite E, app_nil_r. done.
Qed.
Lemma subs_agg t p k cs d xs is : Subs t p k cs d xs is -> summ L (map c_cache cs) = agg L xs.
Proof.
  intros H. destruct (proj2 (sub_cache t) _ _ _ _ _ _ H) as (_ & _ & _ & _ & E). specialize (E [] [] (Forall_nil_2 _) (Forall_nil_2 _)).
  cbn [app] in E. rewrite !app_nil_r in E. exact E.
Qed.

(** every child of [i] is a completed subtree *)
Definition good t i cs : Prop := forall k c, cs !! k = Some c -> exists d xs is, Sub t i k c d xs is.
Lemma subs_good t i cs : forall k d xs is, Subs t i k cs d xs is -> forall j c, cs !! j = Some c -> exists d xs is, Sub t i (k + j) c d xs is.
Proof.
  induction cs as [|c0 cs IH]; intros k d xs is H j c Hj; [done|]. inversion H; subst. destruct j as [|j].
  - injection Hj as <-. rewrite Nat.add_0_r. eauto.
  - replace (k + S j) with (S k + j) by lia. eapply IH; eauto.
Qed.
Lemma sub_nodes t :
  (forall p k c d xs is, Sub t p k c d xs is -> forall i, i ∈ is -> exists n, a_get (in_nodes t) i = Some n /\ n_children n <> [] /\ length (n_children n) <= 11 /\ good t i (n_children n)) /\
  (forall p k cs d xs is, Subs t p k cs d xs is -> forall i, i ∈ is -> exists n, a_get (in_nodes t) i = Some n /\ n_children n <> [] /\ length (n_children n) <= 11 /\ good t i (n_children n)).
Proof.
  apply Sub_mut.
  - intros p k l e Hg He i H. by apply elem_of_nil in H.
  - intros p k i cs d xs is Hg Hne Hl HS IH j [->|Hj]%elem_of_cons; [|by apply IH].
    eexists. split; [exact Hg|]. cbn [n_children]. split_and!; [done|done|]. intros k' c' Hc. exact (subs_good t i cs 0 d xs is HS k' c' Hc).
  - intros ? ? ? i H. by apply elem_of_nil in H.
  - intros p k c cs d xs ys is js _ IH1 _ IH2 i [?|?]%elem_of_app; eauto.
Qed.
Lemma sub_leaves t :
  (forall p k c d xs is, Sub t p k c d xs is -> forall l e, (l, e) ∈ xs -> el t l = Some e) /\
  (forall p k cs d xs is, Subs t p k cs d xs is -> forall l e, (l, e) ∈ xs -> el t l = Some e).
Proof.
  apply Sub_mut.
  - intros p k l e Hg He l' e' [= -> ->]%elem_of_list_singleton. unfold el. by rewrite Hg.
  - eauto.
  - intros ? ? ? l e H. by apply elem_of_nil in H.
  - intros p k c cs d xs ys is js _ IH1 _ IH2 l e [?|?]%elem_of_app; eauto.
Qed.
Lemma sub_reach t :
  (forall p k c d xs is, Sub t p k c d xs is -> Reach t (c_arena c) -> (forall i, i ∈ is -> Reach t (AInt i)) /\ (forall l, l ∈ xs.*1 -> Reach t (ALeaf l))) /\
  (forall p k cs d xs is, Subs t p k cs d xs is -> (forall c, c ∈ cs -> Reach t (c_arena c)) -> (forall i, i ∈ is -> Reach t (AInt i)) /\ (forall l, l ∈ xs.*1 -> Reach t (ALeaf l))).
Proof.
  apply Sub_mut.
  - intros p k l e Hg He Hr. split; [intros i H; by apply elem_of_nil in H|]. intros l' H. cbn in H. apply elem_of_list_singleton in H as ->. exact Hr.
  - intros p k i cs d xs is Hg Hne Hl HS IH Hr. cbn [c_arena] in Hr.
    destruct IH as [I1 I2]. { intros c Hc. by eapply rc_child. }
    split; [|done]. intros j [->|Hj]%elem_of_cons; auto.
  - intros ? ? ? _. split; intros ? H; cbn in H; by apply elem_of_nil in H.
  - intros p k c cs d xs ys is js _ IH1 _ IH2 Hr. destruct (IH1 (Hr c ltac:(set_solver))) as [A1 A2]. destruct IH2 as [A3 A4]. { intros c' Hc'. apply Hr. set_solver. }
    rewrite fmap_app. split; intros ? [?|?]%elem_of_app; eauto.
Qed.

(** a completed state *)
Lemma subs_intact t r s cs d xs is :
  root t = AInt r -> a_get (in_nodes t) r = Some (mkNode None s cs) -> length cs <= 11 -> Subs t r 0 cs d xs is -> r ∉ is -> NoDup xs.*1 ->
  (forall i, is_Some (a_get (in_nodes t) i) -> i = r \/ i ∈ is) -> (forall l, is_Some (a_get (leaf_nodes t) l) -> l ∈ xs.*1) ->
  (forall i, is_Some (a_get (in_nodes t) i) -> i < anext (in_nodes t)) -> (forall l, is_Some (a_get (leaf_nodes t) l) -> l < anext (leaf_nodes t)) ->
  (xs <> [] \/ mono L = true -> root_cache t = summ L (map c_cache cs)) -> Intact L t (S d) xs.
Proof.
  intros Hr Hg Hl HS Hri Hnd Hin Hlf Hoi Hol Hrc.
  assert (Hgood : forall i n, a_get (in_nodes t) i = Some n -> good t i (n_children n)).
  { intros i n Hi. destruct (Hin i) as [->|Hi']; [by rewrite Hi| |].
    - rewrite Hg in Hi. injection Hi as <-. cbn [n_children]. intros k c Hc. exact (subs_good t r cs 0 d xs is HS k c Hc).
    - destruct (proj2 (sub_nodes t) _ _ _ _ _ _ HS i Hi') as (n' & E & _ & _ & G). rewrite Hi in E. injection E as <-. exact G. }
  destruct (proj2 (sub_reach t) _ _ _ _ _ _ HS) as [R1 R2].
  { intros c Hc. eapply rc_child; [rewrite <- Hr; constructor|exact Hg|done]. }
  assert (Hlive : forall a, Reach t a -> match a with AInt i => is_Some (a_get (in_nodes t) i) | ALeaf l => is_Some (a_get (leaf_nodes t) l) end).
  { intros a Ha. destruct Ha as [|i n c Hi En Hc]; [rewrite Hr; by rewrite Hg|]. apply elem_of_list_lookup in Hc as [k Hk].
    destruct (Hgood i n En k c Hk) as (d' & xs' & is' & HSub). inversion HSub; subst; cbn [c_arena]; eauto. }
  constructor.
  - rewrite Hr. eapply io_node; [exact Hg|]. cbn [n_children]. by eapply (proj2 (sub_order t)).
  - done.
  - intros i n Hi. destruct (Hin i) as [->|Hi']; [by rewrite Hi| |].
    + rewrite Hg in Hi. injection Hi as <-. done.
    + destruct (proj2 (sub_nodes t) _ _ _ _ _ _ HS i Hi') as (n' & E & _ & G & _). rewrite Hi in E. by injection E as <-.
  - intros i n Hi Hne. destruct (Hin i) as [->|Hi']; [by rewrite Hi|congruence|].
    destruct (proj2 (sub_nodes t) _ _ _ _ _ _ HS i Hi') as (n' & E & G & _). rewrite Hi in E. by injection E as <-.
  - intros i n k c m cn Hi Hk Hc Hm. destruct (Hgood i n Hi k c Hk) as (d' & xs' & is' & HSub). inversion HSub; subst; cbn [c_arena] in Hc; [done|].
    injection Hc as ->. rewrite Hm in H. injection H as ->. done.
  - intros i n k c l lf Hi Hk Hc Hm. destruct (Hgood i n Hi k c Hk) as (d' & xs' & is' & HSub). inversion HSub; subst; cbn [c_arena] in Hc; [|done].
    injection Hc as ->. rewrite Hm in H. injection H as ->. done.
  - eauto.
  - intros i. split; [apply Hlive|]. intros Hi. destruct (Hin i Hi) as [->|Hi']; [rewrite <- Hr; constructor|auto].
  - intros l. split; [apply Hlive|]. auto.
  - done.
  - done.
  - intros l e. split; [apply (proj2 (sub_leaves t) _ _ _ _ _ _ HS)|]. intros He.
    assert (Hs : is_Some (a_get (leaf_nodes t) l)). { destruct (a_get (leaf_nodes t) l); [eauto|done]. }
    apply Hlf, elem_of_list_fmap in Hs as ([l' e'] & -> & Hx). cbn [fst] in *. pose proof (proj2 (sub_leaves t) _ _ _ _ _ _ HS l' e' Hx) as E.
    unfold el in E. rewrite He in E. injection E as ->. done.
  - intros i n c d' ys Hi Hc HI. apply elem_of_list_lookup in Hc as [k Hk]. destruct (Hgood i n Hi k c Hk) as (d2 & xs' & is' & HSub).
    rewrite (sub_agg _ _ _ _ _ _ _ HSub). f_equal. apply (proj1 (sub_order t)) in HSub.
    by eapply (proj1 (io_det t)).
  - intros H. rewrite (Hrc H). by eapply subs_agg.
  - apply (proj2 (sub_cache t) _ _ _ _ _ _ HS).
Qed.

(** ** The construction *)
Notation tn := (temp_node (B := B)).
Implicit Types (N A T : list tn) (h : tn).
(** [Pend t d A xs is]: temporary nodes, first to last, whose children are completed subtrees *)
Inductive Pend t d : list tn -> list (nat * Elem) -> list nat -> Prop :=
| pe_nil : Pend t d [] [] []
| pe_cons h A xs ys is js : a_get (in_nodes t) (tm_idx h) = Some node_new -> Subs t (tm_idx h) 0 (tm_children h) d xs is ->
    Pend t d A ys js -> Pend t d (h :: A) (xs ++ ys) (tm_idx h :: is ++ js).
Lemma pend_frame t t' d A xs is : Pend t d A xs is -> same_on t t' is xs -> Pend t' d A xs is.
Proof.
  induction 1 as [|h A xs ys is js Hg HS _ IH]; intros [H1 H2]; [constructor|]. rewrite fmap_app in H2. constructor.
  - rewrite H1; [done|set_solver].
  - eapply (proj2 (sub_frame t t')); [exact HS|]. split; intros; (apply H1 || apply H2); set_solver.
  - apply IH. split; intros; (apply H1 || apply H2); set_solver.
Qed.
Lemma pend_app t d A A' xs is ys js : Pend t d A xs is -> Pend t d A' ys js -> Pend t d (A ++ A') (xs ++ ys) (is ++ js).
Proof.
  induction 1 as [|h A xs xs' is is' Hg HS _ IH]; intros H; [done|]. cbn [app]. rewrite <- !app_assoc. constructor; auto.
Qed.
Lemma pend_app_inv t d A A' zs ks : Pend t d (A ++ A') zs ks -> exists xs ys is js, zs = xs ++ ys /\ ks = is ++ js /\ Pend t d A xs is /\ Pend t d A' ys js.
Proof.
  revert zs ks. induction A as [|h A IH]; intros zs ks H.
  - exists [], zs, [], ks. split_and!; [done|done|constructor|done].
  - cbn in H. inversion H as [|? ? xs ys is js Hg HS HP]; subst. destruct (IH _ _ HP) as (xs' & ys' & is' & js' & -> & -> & P1 & P2).
    exists (xs ++ xs'), ys', (tm_idx h :: is ++ is'), js'. rewrite <- !app_assoc. split_and!; [done|cbn; by rewrite <- app_assoc|by constructor|done].
Qed.
Lemma pend_last t d N h zs ks : Pend t d (rev (h :: N)) zs ks -> exists xs ys is js, zs = xs ++ ys /\ ks = is ++ tm_idx h :: js /\ Pend t d (rev N) xs is /\
  a_get (in_nodes t) (tm_idx h) = Some node_new /\ Subs t (tm_idx h) 0 (tm_children h) d ys js.
Proof.
  cbn [rev]. intros H. apply pend_app_inv in H as (xs & ys & is & js & -> & -> & P1 & P2). inversion P2 as [|? ? xs0 ys0 is0 js0 Hg HS HP]; subst. inversion HP; subst.
  exists xs, xs0, is, is0. rewrite !app_nil_r. done.
Qed.
Lemma pend_snoc t d N h xs is ys js : Pend t d (rev N) xs is -> a_get (in_nodes t) (tm_idx h) = Some node_new -> Subs t (tm_idx h) 0 (tm_children h) d ys js ->
  Pend t d (rev (h :: N)) (xs ++ ys) (is ++ tm_idx h :: js).
Proof.
  intros P Hg HS. cbn [rev]. apply pend_app; [done|]. rewrite <- (app_nil_r ys), <- (app_nil_r js). constructor; [done|done|constructor].
Qed.

(** full nodes, the last (head of the reversed list) possibly not *)
Definition Sizes N : Prop := exists h T, N = h :: T /\ length (tm_children h) <= 10 /\ Forall (fun n => length (tm_children n) = 10) T.
Record St t r0 d N xs is d1 A ys js : Prop := {
  st_n : Pend t d (rev N) xs is;
  st_a : Pend t d1 A ys js;
  st_nd : NoDup (r0 :: is ++ js);
  st_lnd : NoDup (xs ++ ys).*1;
  st_in : forall i, is_Some (a_get (in_nodes t) i) -> i = r0 \/ i ∈ is ++ js;
  st_lf : forall l, is_Some (a_get (leaf_nodes t) l) -> l ∈ (xs ++ ys).*1;
  st_oi : forall i, i = r0 \/ i ∈ is ++ js -> i < anext (in_nodes t);
  st_ol : forall l, l ∈ (xs ++ ys).*1 -> l < anext (leaf_nodes t);
  st_rt : root t = AInt r0;
  st_sz : Sizes N;
}.
Definition hlen N : nat := match N with h :: _ => length (tm_children h) | [] => 0 end.
Definition cnt N : nat := sum_list (map (fun n => length (tm_children n)) N).

Lemma a_get_ins_in t n i : a_get (in_nodes (snd (ins_in t n))) i = if decide (anext (in_nodes t) = i) then Some n else a_get (in_nodes t) i.
Proof. unfold ins_in, a_get, a_insert; cbn. case_decide; subst; by simplify_map_eq. Qed.
Lemma a_get_ins_lf t n i : a_get (leaf_nodes (snd (ins_lf t n))) i = if decide (anext (leaf_nodes t) = i) then Some n else a_get (leaf_nodes t) i.
Proof. unfold ins_lf, a_get, a_insert; cbn. case_decide; subst; by simplify_map_eq. Qed.
Lemma a_get_set_in t k n i : a_get (in_nodes (set_in t k n)) i = if decide (k = i) then Some n else a_get (in_nodes t) i.
Proof. unfold set_in, a_get, a_set; cbn. case_decide; subst; by simplify_map_eq. Qed.
Lemma a_get_rem_in t k i : a_get (in_nodes (rem_in t k)) i = if decide (k = i) then None else a_get (in_nodes t) i.
Proof. unfold rem_in, a_get, a_remove; cbn. case_decide; subst; by simplify_map_eq. Qed.

Lemma vec_push_ok {X} n (l : list X) x : length l < n -> vec_push n l x = Ok (l ++ [x]).
Proof. intros H. unfold vec_push. case_decide; [done|lia]. Qed.
Lemma calc_ok (c0 : Cache B) t p k cs d xs is : Subs t p k cs d xs is -> cs <> [] -> exists dd, calc_cache_internal c0 (map c_cache cs) = Ok (summ L (map c_cache cs), dd).
Proof.
  intros HS Hne. destruct (proj2 (sub_cache t) _ _ _ _ _ _ HS) as (V & _). destruct (lw_calc _ L c0 (map c_cache cs) V) as (dd & E & _); [|eauto].
  left. intros E. by apply map_eq_nil in E.
Qed.
Lemma st_new t r0 d N xs is d1 A ys js (c0 : Cache B) (h : tn) T : St t r0 d N xs is d1 A ys js -> N = h :: T -> length (tm_children h) = 10 ->
  St (snd (ins_in t node_new)) r0 d (mkTmp [] cache_default (anext (in_nodes t)) :: mkTmp (tm_children h) c0 (tm_idx h) :: T) xs (is ++ [anext (in_nodes t)]) d1 A ys js.
Proof.
  intros S -> Hh. set (new := anext (in_nodes t)).
  assert (Hfr : forall is' xs', (forall i, i ∈ is' -> i ∈ is ++ js) -> same_on t (snd (ins_in t node_new)) is' xs').
  { intros is' xs' Hs. split; [|done]. intros i Hi. rewrite a_get_ins_in. case_decide as E; [|done]. pose proof (st_oi _ _ _ _ _ _ _ _ _ _ S i (or_intror (Hs i Hi))). lia. }
  constructor.
  - pose proof (st_n _ _ _ _ _ _ _ _ _ _ S) as P. apply (pend_frame t (snd (ins_in t node_new))) in P; [|apply Hfr; set_solver].
    replace xs with (xs ++ []) by apply app_nil_r. apply pend_snoc; [|cbn [tm_idx]; rewrite a_get_ins_in; by rewrite decide_True|constructor].
    apply pend_last in P as (xs1 & xs2 & is1 & is2 & -> & -> & P1 & P2 & P3). apply (pend_snoc (snd (ins_in t node_new)) d T (mkTmp (tm_children h) c0 (tm_idx h))); done.
  - apply (pend_frame t); [apply S|]. apply Hfr. set_solver.
  - pose proof (st_nd _ _ _ _ _ _ _ _ _ _ S) as Hn. eapply (NoDup_Permutation_proper _ (new :: r0 :: is ++ js)). { rewrite <- app_assoc. cbn. solve_Permutation. }
    constructor; [|done]. intros Hi. assert (new < new); [|lia]. apply (st_oi _ _ _ _ _ _ _ _ _ _ S). apply elem_of_cons in Hi. exact Hi.
  - apply S.
  - intros i. rewrite a_get_ins_in. case_decide as E. { intros _. right. set_solver. } intros Hi. destruct (st_in _ _ _ _ _ _ _ _ _ _ S i Hi) as [?|?]; [by left|right; set_solver].
  - intros l Hl. apply (st_lf _ _ _ _ _ _ _ _ _ _ S l Hl).
  - intros i Hi. assert (i = new \/ (i = r0 \/ i ∈ is ++ js)) as [->|H] by set_solver. { cbn. subst new. lia. } apply (st_oi _ _ _ _ _ _ _ _ _ _ S) in H. cbn. lia.
  - intros l Hl. apply (st_ol _ _ _ _ _ _ _ _ _ _ S l Hl).
  - apply S.
  - destruct (st_sz _ _ _ _ _ _ _ _ _ _ S) as (h' & T' & [= <- <-] & _ & HF). eexists _, _. split; [reflexivity|]. cbn. split; [lia|]. by constructor.
Qed.
Lemma st_parent t r0 d N xs is d1 A ys js : St t r0 d N xs is d1 A ys js -> exists N' t' is',
  fi_parent t N = Ok (N', t') /\ St t' r0 d N' xs is' d1 A ys js /\ hlen N' < 10 /\ hlen N' = hlen N mod 10 /\ cnt N' = cnt N /\
  (exists h' T', N' = h' :: T' /\ Forall (fun n => tm_children n <> []) T') /\
  (forall x, x ∈ is -> x ∈ is') /\ leaf_nodes t' = leaf_nodes t.
Proof.
  intros S. destruct (st_sz _ _ _ _ _ _ _ _ _ _ S) as (h & T & -> & Hh & HF).
  assert (HT : Forall (fun n => tm_children n <> []) T). { eapply Forall_impl; [exact HF|]. intros x Hx E. cbn beta in Hx. rewrite E in Hx. done. }
  unfold fi_parent. case_decide as E.
  - exists (h :: T), t, is. split_and!; try done. { cbn [hlen]. rewrite Nat.mod_small; [done|lia]. } eauto.
  - assert (E10 : length (tm_children h) = 10) by lia.
    pose proof (st_n _ _ _ _ _ _ _ _ _ _ S) as P. apply pend_last in P as (xs1 & xs2 & is1 & is2 & Ex & Ei & P1 & P2 & P3).
    destruct (calc_ok (tm_cache h) _ _ _ _ _ _ _ P3) as (dd & ->). { intros E0. by rewrite E0 in E10. } cbn [rbind]. unfold fi_new.
    change (ins_in t node_new) with (anext (in_nodes t), snd (ins_in t node_new)). cbn [fst snd].
    eexists _, _, (is ++ [anext (in_nodes t)]). split; [reflexivity|]. split; [by eapply st_new|]. split_and!.
    + cbn. lia.
    + cbn [hlen tm_children length]. by rewrite E10.
    + reflexivity.
    + eexists _, _. split; [reflexivity|]. constructor; [|done]. cbn. intros E0. by rewrite E0 in E10.
    + set_solver.
    + done.
Qed.

Lemma cnt_cons h T : cnt (h :: T) = length (tm_children h) + cnt T.
Proof. reflexivity. Qed.
(** one more child below the last node *)
Lemma fi_leaves_ok es : forall t r0 N xs is, Forall (evalid L) es -> St t r0 0 N xs is 0 [] [] [] ->
  exists N' t' xs' is', fi_leaves t N es = Ok (N', t') /\ St t' r0 0 N' xs' is' 0 [] [] [] /\ xs'.*2 = xs.*2 ++ es /\ cnt N' = cnt N + length es /\
    (es = [] /\ N' = N \/ Forall (fun n => tm_children n <> []) N').
Proof.
  induction es as [|e es IH]; intros t r0 N xs is HV S.
  { exists N, t, xs, is. rewrite app_nil_r. split_and!; auto; cbn; lia. }
  apply Forall_cons in HV as [He HV]. cbn [fi_leaves].
  destruct (st_parent _ _ _ _ _ _ _ _ _ _ S) as (N1 & t1 & is1 & -> & S1 & Hl & _ & Hcn & (h & T & -> & HT) & _). cbn [rbind head ropt].
  unfold alloc_leaf_child. change (ins_lf t1 (mkLeaf e (tm_idx h))) with (anext (leaf_nodes t1), snd (ins_lf t1 (mkLeaf e (tm_idx h)))).
  set (t2 := snd (ins_lf t1 (mkLeaf e (tm_idx h)))). set (l := anext (leaf_nodes t1)). cbn [hlen] in Hl. cbn [fi_push].
  rewrite vec_push_ok by lia. cbn [rbind].
  assert (Hfr : forall is' xs', (forall x, x ∈ xs' -> x ∈ xs) -> same_on t1 t2 is' xs').
  { intros is' xs' Hs. split; [done|]. intros l' Hl'. unfold t2. rewrite a_get_ins_lf. case_decide as E; [|done].
    assert (l' < anext (leaf_nodes t1)); [|lia]. apply (st_ol _ _ _ _ _ _ _ _ _ _ S1). rewrite app_nil_r. apply elem_of_list_fmap in Hl' as (x & -> & Hx). apply elem_of_list_fmap. eauto. }
  pose proof (st_n _ _ _ _ _ _ _ _ _ _ S1) as P. apply (pend_frame t1 t2) in P; [|apply Hfr; done].
  apply pend_last in P as (xs1 & xs2 & i1 & i2 & Ex & Ei & P1 & P2 & P3).
  destruct (IH t2 r0 (mkTmp (tm_children h ++ [mkChild (ALeaf l) (get_elem_cache e)]) (tm_cache h) (tm_idx h) :: T) (xs ++ [(l, e)]) is1 HV) as (N' & t' & xs' & is' & E & S' & Hx & Hcn' & HN); [|exists N', t', xs', is'; split_and!; [exact E|exact S'| | |right]].
  - constructor.
    + rewrite Ex, Ei, <- app_assoc. apply (pend_snoc t2 0 T (mkTmp (tm_children h ++ [mkChild (ALeaf l) (get_elem_cache e)]) (tm_cache h) (tm_idx h))); [done|done|].
      cbn [tm_children tm_idx]. rewrite <- (app_nil_r i2). apply subs_app; [done|]. change [(l, e)] with ([(l, e)] ++ @nil (nat * Elem)). change (@nil nat) with (@nil nat ++ []). constructor; [|constructor].
      constructor; [|done]. unfold t2. rewrite a_get_ins_lf. by rewrite decide_True.
    + constructor.
    + apply S1.
    + rewrite app_nil_r, fmap_app. apply NoDup_app. split; [|split; [|apply NoDup_singleton]].
      * pose proof (st_lnd _ _ _ _ _ _ _ _ _ _ S1) as Hn. by rewrite app_nil_r in Hn.
      * intros x Hx Hx'. cbn in Hx'. apply elem_of_list_singleton in Hx' as ->. assert (l < l); [|lia]. apply (st_ol _ _ _ _ _ _ _ _ _ _ S1). by rewrite app_nil_r.
    + apply S1.
    + intros l' Hl'. rewrite app_nil_r, fmap_app. unfold t2 in Hl'. rewrite a_get_ins_lf in Hl'. case_decide as E; [set_solver|]. apply (st_lf _ _ _ _ _ _ _ _ _ _ S1) in Hl'. rewrite app_nil_r in Hl'. set_solver.
    + apply S1.
    + intros l' Hl'. rewrite app_nil_r, fmap_app in Hl'. change (l' < Datatypes.S (anext (leaf_nodes t1))). apply elem_of_app in Hl' as [Hl'|Hl'].
      * apply Nat.lt_lt_succ_r, (st_ol _ _ _ _ _ _ _ _ _ _ S1). by rewrite app_nil_r.
      * cbn in Hl'. apply elem_of_list_singleton in Hl' as ->. subst l. lia.
    + apply S1.
    + destruct (st_sz _ _ _ _ _ _ _ _ _ _ S1) as (h' & T' & [= <- <-] & _ & HF). eexists _, _. split; [reflexivity|]. cbn. rewrite app_length. cbn. split; [lia|done].
  - rewrite Hx, fmap_app, <- app_assoc. done.
  - rewrite Hcn', <- Hcn, !cnt_cons. cbn [tm_children]. rewrite app_length. cbn. lia.
  - destruct HN as [[_ ->]|HN]; [|done]. constructor; [|done]. cbn. by destruct (tm_children h).
Qed.
Lemma fi_level_ok : forall A t r0 d N xs is ys js slot, Forall (fun n => tm_children n <> [] /\ length (tm_children n) <= 10) A -> slot = hlen N mod 10 ->
  St t r0 (S d) N xs is d A ys js ->
  exists N' t' is', fi_level t N slot A = Ok (N', t') /\ St t' r0 (S d) N' (xs ++ ys) is' d [] [] [] /\ cnt N' = cnt N + length A /\
    (A = [] /\ N' = N \/ Forall (fun n => tm_children n <> []) N').
Proof.
  induction A as [|ch A IH]; intros t r0 d N xs is ys js slot HV Hs S.
  { exists N, t, is. pose proof (st_a _ _ _ _ _ _ _ _ _ _ S) as P. inversion P; subst ys js. rewrite app_nil_r. split_and!; auto; cbn; lia. }
  apply Forall_cons in HV as [[Hch Hch'] HV]. cbn [fi_level].
  destruct (st_parent _ _ _ _ _ _ _ _ _ _ S) as (N1 & t1 & is1 & -> & S1 & Hl & Hm & Hc & (h & T & -> & HT) & _). cbn [rbind head ropt].
  cbn [hlen] in Hl, Hm. rewrite <- Hm in Hs.
  pose proof (st_a _ _ _ _ _ _ _ _ _ _ S1) as PA. inversion PA as [|? ? ys1 ys2 j1 j2 Hg HS PA']; subst. clear PA.
  destruct (calc_ok (tm_cache ch) _ _ _ _ _ _ _ HS Hch) as (dd & ->). cbn [rbind]. unfold get_in at 1. rewrite Hg. cbn [ropt rbind].
  cbn [fi_push]. rewrite vec_push_ok by lia. cbn [rbind].
  set (t2 := set_in t1 _ _).
  assert (Hnd := st_nd _ _ _ _ _ _ _ _ _ _ S1).
  assert (Hfr : forall is' xs', tm_idx ch ∉ is' -> same_on t1 t2 is' xs').
  { intros is' xs' Hn. split; [|done]. intros i Hi. unfold t2. rewrite a_get_set_in. case_decide; [|done]. subst i. done. }
  apply NoDup_cons in Hnd as [Hnr Hnd]. apply NoDup_app in Hnd as (Hnd1 & Hnd2 & Hnd3). apply NoDup_cons in Hnd3 as [Hnd3 Hnd4].
  assert (Hni : tm_idx ch ∉ is1). { intros H. apply (Hnd2 _ H). set_solver. }
  pose proof (st_n _ _ _ _ _ _ _ _ _ _ S1) as P. apply (pend_frame t1 t2) in P; [|by apply Hfr].
  apply pend_last in P as (xs1 & xs2 & i1 & i2 & Ex & Ei & P1 & P2 & P3).
  destruct (IH t2 r0 d (mkTmp (tm_children h ++ [mkChild (AInt (tm_idx ch)) (summ L (map c_cache (tm_children ch)))]) (tm_cache h) (tm_idx h) :: T) (xs ++ ys1) (is1 ++ tm_idx ch :: j1) ys2 j2 ((length (tm_children h) + 1) mod 10) HV) as (N' & t' & is' & E & S' & Hx & HN);
    [| |exists N', t', is'; split_and!; [exact E| | |right]].
  - cbn [hlen tm_children]. rewrite app_length. reflexivity.
  - constructor.
    + rewrite Ex, Ei, <- !app_assoc. cbn [app]. apply (pend_snoc t2 (Datatypes.S d) T (mkTmp (tm_children h ++ [mkChild (AInt (tm_idx ch)) (summ L (map c_cache (tm_children ch)))]) (tm_cache h) (tm_idx h))); [done|done|].
      cbn [tm_children tm_idx]. apply subs_app; [done|]. rewrite <- (app_nil_r ys1), <- (app_nil_r (tm_idx ch :: j1)). constructor; [|constructor].
      constructor.
      * unfold t2. rewrite a_get_set_in, decide_True by done. done.
      * done.
      * lia.
      * eapply (proj2 (sub_frame t1 t2)); [exact HS|]. apply Hfr. set_solver.
    + eapply pend_frame; [exact PA'|]. apply Hfr. set_solver.
    + pose proof (st_nd _ _ _ _ _ _ _ _ _ _ S1) as Hn. rewrite <- app_assoc. exact Hn.
    + rewrite <- app_assoc. apply S1.
    + intros i Hi. rewrite <- app_assoc. apply (st_in _ _ _ _ _ _ _ _ _ _ S1). unfold t2 in Hi. rewrite a_get_set_in in Hi. case_decide; [|done]. subst i. by rewrite Hg.
    + rewrite <- app_assoc. apply S1.
    + rewrite <- app_assoc. apply S1.
    + rewrite <- app_assoc. apply S1.
    + apply S1.
    + destruct (st_sz _ _ _ _ _ _ _ _ _ _ S1) as (h' & T' & [= <- <-] & _ & HF). eexists _, _. split; [reflexivity|]. cbn. rewrite app_length. cbn. split; [lia|done].
  - rewrite <- app_assoc in S'. exact S'.
  - rewrite Hx, cnt_cons. cbn [tm_children]. rewrite app_length. rewrite cnt_cons in Hc. cbn. lia.
  - destruct HN as [[_ ->]|HN]; [|done]. constructor; [|done]. cbn. by destruct (tm_children h).
Qed.
Lemma sizes_cnt N : Sizes N -> Forall (fun n => tm_children n <> []) N -> 10 * length N < cnt N + 10.
Proof.
  intros (h & T & -> & _ & HF) HN. apply Forall_cons in HN as [Hh _]. rewrite cnt_cons. cbn [length].
  assert (cnt T = 10 * length T). { induction HF as [|x T Hx _ IH]; [done|]. rewrite cnt_cons. cbn [length]. lia. }
  destruct (tm_children h); [done|]. cbn [length]. lia.
Qed.
Lemma sizes_ceil N : Sizes N -> Forall (fun n => tm_children n <> []) N -> (cnt N + 9) / 10 = length N.
Proof.
  intros HS HN. pose proof (sizes_cnt N HS HN) as H1. assert (cnt N <= 10 * length N) as H2.
  { destruct HS as (h & T & -> & Hh & HF). rewrite cnt_cons. cbn [length]. assert (cnt T = 10 * length T); [|lia]. clear -HF. induction HF as [|x T Hx _ IH]; [done|]. rewrite cnt_cons. cbn [length]. lia. }
  symmetry. apply (Nat.div_unique _ 10 (length N) (cnt N + 9 - 10 * length N)); lia.
Qed.
Lemma fi_up_ok : forall f t r0 d N xs is, length N < f -> (length N <> 1 -> Forall (fun n => tm_children n <> []) N) ->
  St t r0 d N xs is d [] [] [] -> exists h t' d' is', fi_up f t N = Ok ([h], t') /\ St t' r0 d' [h] xs is' d' [] [] [] /\
    (forall j, length N <= 10 ^ j -> d' <= d + j).
Proof.
  induction f as [|f IH]; intros t r0 d N xs is Hf HN S; [lia|]. cbn [fi_up]. case_decide as E.
  - specialize (HN ltac:(lia)). unfold fi_new. change (ins_in t node_new) with (anext (in_nodes t), snd (ins_in t node_new)).
    set (t1 := snd (ins_in t node_new)). set (nw := mkTmp (B := B) [] cache_default (anext (in_nodes t))). cbv beta iota. fold nw.
    destruct (fi_level_ok (rev N) t1 r0 d [nw] [] [tm_idx nw] xs is 0) as (N' & t2 & is' & -> & S' & Hc & HN').
    + apply Forall_rev. destruct (st_sz _ _ _ _ _ _ _ _ _ _ S) as (h & T & -> & Hh & HF). apply Forall_cons in HN as [Hn HN]. constructor; [done|].
      apply Forall_forall. intros x Hx. rewrite Forall_forall in HN, HF. split; [by apply HN|]. rewrite (HF x Hx). lia.
    + done.
    + assert (Hnew : forall i, i = r0 \/ i ∈ is -> i < anext (in_nodes t)). { intros i Hi. apply (st_oi _ _ _ _ _ _ _ _ _ _ S). by rewrite app_nil_r. }
      constructor.
      * cbn [rev app]. change (@nil (nat * Elem)) with (@nil (nat * Elem) ++ []). change [tm_idx nw] with (tm_idx nw :: [] ++ []). constructor; [|constructor|constructor].
        unfold t1. cbn [tm_idx nw]. rewrite a_get_ins_in. by rewrite decide_True.
      * eapply pend_frame; [apply S|]. split; [|done]. intros i Hi. unfold t1. rewrite a_get_ins_in. case_decide as E1; [|done]. pose proof (Hnew i (or_intror Hi)). lia.
      * pose proof (st_nd _ _ _ _ _ _ _ _ _ _ S) as Hn. rewrite app_nil_r in Hn. cbn [app]. eapply (NoDup_Permutation_proper _ (tm_idx nw :: r0 :: is)); [solve_Permutation|].
        constructor; [|done]. intros Hi%elem_of_cons. apply Hnew in Hi. cbn in Hi. lia.
      * pose proof (st_lnd _ _ _ _ _ _ _ _ _ _ S) as Hn. by rewrite app_nil_r in Hn.
      * intros i Hi. unfold t1 in Hi. rewrite a_get_ins_in in Hi. case_decide as E1; [right; set_solver|]. apply (st_in _ _ _ _ _ _ _ _ _ _ S) in Hi. rewrite app_nil_r in Hi. set_solver.
      * intros l Hl. apply (st_lf _ _ _ _ _ _ _ _ _ _ S) in Hl. by rewrite app_nil_r in Hl.
      * intros i Hi. change (i < Datatypes.S (anext (in_nodes t))). assert (i = anext (in_nodes t) \/ (i = r0 \/ i ∈ is)) as [->|H] by set_solver; [lia|]. apply Hnew in H. lia.
      * intros l Hl. apply (st_ol _ _ _ _ _ _ _ _ _ _ S). by rewrite app_nil_r.
      * apply S.
      * exists nw, []. split_and!; [done|cbn; lia|constructor].
    + cbn [rbind]. destruct HN' as [[HN' _]|HN']. { apply (f_equal length) in HN'. rewrite rev_length in HN'. cbn in HN'. lia. }
      assert (Hlen : length N' < f).
      { pose proof (sizes_cnt N' (st_sz _ _ _ _ _ _ _ _ _ _ S') HN'). rewrite Hc, rev_length in H. change (cnt [nw]) with 0 in H. lia. }
      cbn [app] in S'.
      pose proof (sizes_ceil N' (st_sz _ _ _ _ _ _ _ _ _ _ S') HN') as Hceil. rewrite Hc, rev_length in Hceil. change (cnt [nw]) with 0 in Hceil. cbn [Nat.add] in Hceil.
      rewrite bool_decide_true by exact Hceil. cbn [rassert rbind].
      assert (S2 : St t2 r0 (Datatypes.S d) N' xs is' (Datatypes.S d) [] [] []).
      { destruct S'. constructor; try done. constructor. }
      destruct (IH t2 r0 (Datatypes.S d) N' xs is' Hlen (fun _ => HN') S2) as (h & t' & d' & is2 & E2 & S3 & HD). exists h, t', d', is2. split_and!; [done|done|].
      intros [|j] Hj; [change (10 ^ 0) with 1 in Hj; lia|]. rewrite Nat.pow_succ_r' in Hj.
      pose proof (sizes_cnt N' (st_sz _ _ _ _ _ _ _ _ _ _ S') HN') as Hq. rewrite Hc, rev_length in Hq. change (cnt [nw]) with 0 in Hq.
      specialize (HD j). lia.
  - destruct (st_sz _ _ _ _ _ _ _ _ _ _ S) as (h & T & -> & _). destruct T; [|cbn in E; lia]. exists h, t, d, is. split_and!; [done|done|]. intros; lia.
Qed.
Lemma t_from_iter es : Forall (evalid L) es -> exists t xs, from_iter es = Ok t /\ Tree L t xs /\ xs.*2 = es /\ (forall k, length es <= 10 ^ S k -> Shallow t (S k)).
Proof.
  intros HV. unfold from_iter. unfold fi_new. change (ins_in bt_new node_new) with (1, snd (ins_in (@bt_new B) node_new)).
  set (t0 := snd (ins_in (@bt_new B) node_new)). set (n0 := mkTmp (B := B) [] cache_default 1). cbv beta iota. fold n0.
  assert (Hdom : forall i, is_Some (a_get (in_nodes t0) i) -> i = 0 \/ i ∈ [1]).
  { intros i. unfold t0. rewrite a_get_ins_in. case_decide as E; [subst; right; cbn; set_solver|]. unfold bt_new, a_get, a_insert; cbn. destruct (decide (i = 0)) as [->|Hi]; [by left|].
    rewrite lookup_insert_ne by done. rewrite lookup_empty. intros [? ?]; done. }
  destruct (fi_leaves_ok es t0 0 [n0] [] [1] HV) as (N & t1 & xs & is & -> & S1 & Hx & Hcn & HN).
  { constructor.
    - cbn [rev app]. change (@nil (nat * Elem)) with (@nil (nat * Elem) ++ []). change [1] with (tm_idx n0 :: [] ++ []). constructor; [|constructor|constructor].
      cbn [tm_idx n0]. reflexivity.
    - constructor.
    - cbn. repeat constructor; set_solver.
    - constructor.
    - exact Hdom.
    - intros l. unfold t0. cbn. unfold a_get. cbn. rewrite lookup_empty. intros [? ?]; done.
    - cbn. set_solver by lia.
    - cbn. set_solver.
    - done.
    - exists n0, []. split_and!; [done|cbn; lia|constructor]. }
  cbn [rbind].
  destruct (fi_up_ok (S (length N)) t1 0 0 N xs is) as (h & t2 & d & is2 & -> & S2 & HD); [lia| |done|].
  { intros Hne. destruct HN as [[_ ->]|HN]; [done|done]. }
  cbn [rbind length]. rewrite bool_decide_true by done. cbn [rassert rbind head ropt]. pose proof (st_n _ _ _ _ _ _ _ _ _ _ S2) as P. apply (pend_last t2 d []) in P as (x1 & x2 & i1 & i2 & Ex & Ei & P1 & P2 & P3).
  inversion P1; subst x1 i1. cbn [app] in Ex, Ei. subst x2.
  assert (exists (c : Cache B) dd, calc_cache_internal (root_cache t2) (map c_cache (tm_children h)) = Ok (c, dd) /\ (xs <> [] \/ mono L = true -> c = summ L (map c_cache (tm_children h)))) as (c & dd & -> & Hc).
  { destruct (proj2 (sub_cache t2) _ _ _ _ _ _ P3) as (V & _). destruct (decide (xs <> [] \/ mono L = true)) as [Hd|Hd].
    - destruct (lw_calc _ L (root_cache t2) (map c_cache (tm_children h)) V) as (dd & E & _); [|eauto]. destruct Hd as [Hd|Hd]; [left|by right].
      intros E0. apply map_eq_nil in E0. rewrite E0 in P3. inversion P3; subst. done.
    - destruct (tm_children h) as [|c0 cs0] eqn:Ec. { destruct (lw_calc_nil _ L (root_cache t2)) as (c & dd & E). exists c, dd. split; [exact E|]. intros ?; contradiction. }
      destruct (lw_calc _ L (root_cache t2) (map c_cache (c0 :: cs0)) V) as (dd & E & _); [by left|]. eauto. }
  cbn [rbind]. pose proof (st_rt _ _ _ _ _ _ _ _ _ _ S2) as Hr.
  assert (Hraw : raw (root (set_root_cache t2 c)) = 0). { cbn. by rewrite Hr. } rewrite Hraw. clear Hraw.
  pose proof (st_nd _ _ _ _ _ _ _ _ _ _ S2) as Hnd. rewrite app_nil_r, Ei in Hnd. apply NoDup_cons in Hnd as [Hn0 Hnd]. apply NoDup_cons in Hnd as [Hn1 Hnd].
  unfold get_in. change (a_get (in_nodes (set_root (rem_in (set_root_cache t2 c) 0) (AInt (tm_idx h)))) (tm_idx h)) with (a_get (in_nodes (rem_in t2 0)) (tm_idx h)).
  rewrite a_get_rem_in, decide_False by set_solver. rewrite P2. cbn [ropt rbind].
  eexists _, xs. split; [reflexivity|].
  set (t3 := set_in _ _ _). enough (HI : Intact L t3 (S d) xs).
  { split; [by exists (S d)|]. split; [exact Hx|]. intros k Hk. exists (S d), xs. split; [apply HI|]. apply le_n_S, HD. change (cnt [n0]) with 0 in Hcn.
    destruct HN as [[_ ->]|HN]; [cbn; apply Nat.le_succ_l, Nat.neq_0_lt_0, Nat.pow_nonzero; lia|].
    pose proof (sizes_cnt N (st_sz _ _ _ _ _ _ _ _ _ _ S1) HN). rewrite Nat.pow_succ_r' in Hk. lia. }
  assert (Hg : forall i, a_get (in_nodes t3) i = if decide (tm_idx h = i) then Some (mkNode None U8_MAX (tm_children h)) else if decide (0 = i) then None else a_get (in_nodes t2) i).
  { intros i. unfold t3. rewrite a_get_set_in. case_decide; [done|]. exact (a_get_rem_in t2 0 i). }
  eapply (subs_intact t3 (tm_idx h) U8_MAX (tm_children h) d xs i2).
  - done.
  - rewrite Hg, decide_True by done. done.
  - destruct (st_sz _ _ _ _ _ _ _ _ _ _ S2) as (h' & T' & [= <- <-] & Hl & _). lia.
  - eapply (proj2 (sub_frame t2 t3)); [exact P3|]. split; [|done]. intros i Hi. rewrite Hg. rewrite !decide_False; [done|set_solver|set_solver].
  - done.
  - pose proof (st_lnd _ _ _ _ _ _ _ _ _ _ S2) as H. by rewrite app_nil_r in H.
  - intros i. rewrite Hg. case_decide; [auto|]. case_decide as E0. { intros [? ?]; done. } intros Hi. apply (st_in _ _ _ _ _ _ _ _ _ _ S2) in Hi. rewrite app_nil_r, Ei in Hi. set_solver.
  - intros l Hl. apply (st_lf _ _ _ _ _ _ _ _ _ _ S2) in Hl. by rewrite app_nil_r in Hl.
  - intros i. change (anext (in_nodes t3)) with (anext (in_nodes t2)). rewrite Hg. intros Hi. apply (st_oi _ _ _ _ _ _ _ _ _ _ S2). rewrite app_nil_r, Ei.
    case_decide; [set_solver|]. case_decide as E0; [destruct Hi; done|]. apply (st_in _ _ _ _ _ _ _ _ _ _ S2) in Hi. by rewrite app_nil_r, Ei in Hi.
  - intros l Hl. apply (st_ol _ _ _ _ _ _ _ _ _ _ S2), (st_lf _ _ _ _ _ _ _ _ _ _ S2). exact Hl.
  - exact Hc.
Qed.
Lemma from_iter_nil : exists t : btree, from_iter [] = Ok t /\ check t = Ok tt.
Proof using L.
  destruct (lw_calc_nil _ L cache_default) as (c & dd & E).
  set (nd := node_new : node B).
  set (t := mkTree (mkArena {[1 := nd]} 2) a_new (AInt 1) c : btree).
  assert (Hm : delete 0 (<[1:=nd]> (<[0:=nd]> (∅ : gmap nat (node B)))) = {[1 := nd]}).
  { rewrite delete_insert_ne by done. rewrite delete_insert by apply lookup_empty. done. }
  exists t. split_and!.
  - unfold from_iter, fi_new. cbn [fi_leaves rbind ins_in snd fst]. cbn [fi_up length]. rewrite decide_False by lia. cbn -[delete]. rewrite E. cbn -[delete]. unfold get_in, rem_in, set_root, a_get, a_remove. cbn -[delete]. fold nd. rewrite Hm.
    rewrite lookup_singleton. cbn. unfold set_in, a_set, t. cbn. rewrite insert_singleton. done.
  - unfold check. cbn -[map_to_list]. rewrite map_to_list_singleton, map_to_list_empty. cbn. unfold get_in, a_get. cbn. rewrite lookup_singleton. cbn.
    rewrite E. cbn. rewrite (lw_eqb _ L). done.
Qed.
Lemma t_from_iter_check es : Forall (evalid L) es -> length es <= 10 ^ 9 ->
  exists t, from_iter es = Ok t /\ check t = Ok tt /\ BTree.iter t = Ok es.
Proof.
  intros HV Hl. destruct (t_from_iter es HV) as (t & xs & E & T & Hx & HS). specialize (HS 8 Hl). exists t. split; [exact E|]. split.
  - destruct es as [|e es]. { destruct from_iter_nil as (t' & E' & Hc). rewrite E in E'. injection E' as <-. exact Hc. }
    eapply t_check; [exact T|exact HS|]. left. intros ->. done.
  - rewrite (t_iter L t xs T HS). f_equal. exact Hx.
Qed.
End fi.
