(** Law.v — the laws a user's trait implementation is expected to satisfy (the contract
    documented at /repo/src/lib.rs:30-47 and /repo/src/rle.rs), the cache invariants and
    the transfer of all invariants between states of equal shape. *)
From Verif Require Export Links.

(** [summ]: the aggregate of a list of child caches; [drel c d c']: the diff [d] leads from
    [c] to [c']; [mono]: the aggregate has a unit and the cache of an empty node is
    computed (false for the ordered map, whose [calc_cache_internal] leaves the cache
    of an empty node alone). *)
Record Lawful (B : BTreeTrait) : Type := mkLaw {
  evalid : Elem B -> Prop;
  cvalid : Cache B -> Prop;
  summ : list (Cache B) -> Cache B;
  drel : Cache B -> Diff B -> Cache B -> Prop;
  mono : bool;
  lw_diff_mono : @USE_DIFF B = true -> mono = true;
  lw_default : mono = true -> @cache_default B = summ [];
  lw_get : forall e, evalid e -> cvalid (get_elem_cache e);
  lw_summ : forall cs, Forall cvalid cs -> cs <> [] \/ mono = true -> cvalid (summ cs);
  lw_flat : forall l m r, Forall cvalid (l ++ m ++ r) -> m <> [] \/ mono = true ->
    summ (l ++ summ m :: r) = summ (l ++ m ++ r);
  lw_one : forall c, cvalid c -> summ [c] = c;
  lw_calc : forall c0 cs, Forall cvalid cs -> cs <> [] \/ mono = true ->
    exists d, calc_cache_internal c0 cs = Ok (summ cs, d) /\
      (@USE_DIFF B = true -> drel c0 d (summ cs));
  lw_calc_nil : forall c0 : Cache B, exists c d, calc_cache_internal c0 [] = Ok (c, d);
  lw_apply : forall x d y, drel x d y -> apply_cache_diff x d = Ok y;
  lw_cong : forall l r x d y, drel x d y -> drel (summ (l ++ x :: r)) d (summ (l ++ y :: r));
  lw_new : forall l r c, @USE_DIFF B = true ->
    drel (summ (l ++ r)) (new_cache_to_diff c) (summ (l ++ c :: r));
  lw_merge : forall a d1 b d2 c, drel a d1 b -> drel b d2 c -> drel a (merge_cache_diff d1 d2) c;
  lw_sub : forall a b : Cache B, @USE_DIFF B = true -> drel b (sub_cache a b) a;
  lw_split : forall e off, evalid e -> 0 < off < rle_len e ->
    exists e1 e2, e_split e off = Ok (e1, e2) /\ evalid e1 /\ evalid e2 /\
      rle_len e1 = off /\ rle_len e2 = rle_len e - off /\
      summ [get_elem_cache e1; get_elem_cache e2] = get_elem_cache e;
  lw_try : forall e off x, evalid e -> evalid x -> off <= rle_len e ->
    (exists e', try_insert e off x = Ok (inl e') /\ evalid e' /\
       rle_len e' = rle_len e + rle_len x /\
       (@USE_DIFF B = true -> drel (get_elem_cache e) (new_cache_to_diff (get_elem_cache x)) (get_elem_cache e')))
    \/ try_insert e off x = Ok (inr x);
  lw_mr : forall a b, evalid a -> evalid b -> can_merge a b = true ->
    exists c, merge_right a b = Ok c /\ evalid c /\ rle_len c = rle_len a + rle_len b /\
      summ [get_elem_cache a; get_elem_cache b] = get_elem_cache c /\
      (@USE_DIFF B = true -> drel (get_elem_cache a) (new_cache_to_diff (get_elem_cache b)) (get_elem_cache c));
  lw_ml : forall a b, evalid a -> evalid b -> can_merge a b = true ->
    exists c, merge_left b a = Ok c /\ evalid c /\ rle_len c = rle_len a + rle_len b /\
      summ [get_elem_cache a; get_elem_cache b] = get_elem_cache c /\
      (@USE_DIFF B = true -> drel (get_elem_cache b) (new_cache_to_diff (get_elem_cache a)) (get_elem_cache c));
  lw_rm : forall e, evalid e -> can_remove e = true -> mono = true /\ get_elem_cache e = summ [];
  lw_eqb : forall c : Cache B, cache_eqb c c = true;
}.
Arguments evalid {B} _ _.
Arguments cvalid {B} _ _.
Arguments summ {B} _ _.
Arguments drel {B} _ _ _ _.
Arguments mono {B} _.

Section law.
Context {B : BTreeTrait} (L : Lawful B).
Notation btree := (btree B).
Notation child := (child B).
Implicit Types (t : btree) (i j m p q k s : nat) (a b : aidx) (c : child) (cs : list child).

(** the value the cache entry of [a] ought to have *)
Definition act t a : Cache B :=
  match a with
  | AInt m => summ L (map c_cache (default [] (kids t m)))
  | ALeaf l => match el t l with Some e => get_elem_cache e | None => cache_default end
  end.
(** every cache entry is right, except possibly those of nodes in [D] *)
Definition CO t (D : aidx -> Prop) : Prop :=
  forall p cs c, kids t p = Some cs -> c ∈ cs -> ~ D (c_arena c) ->
    c_cache c = act t (c_arena c).
Definition RC t : Prop :=
  chs t (raw (root t)) <> [] \/ mono L = true -> root_cache t = act t (root t).
Record VA t : Prop := {
  va_el : forall l e, el t l = Some e -> evalid L e;
  va_ch : forall p cs c, kids t p = Some cs -> c ∈ cs -> cvalid L (c_cache c);
}.

Lemma VA_kids t p cs : VA t -> kids t p = Some cs -> Forall (cvalid L) (map c_cache cs).
Proof.
  intros V Hk. apply Forall_forall. intros x (c & -> & Hc)%elem_of_list_fmap.
  by eapply va_ch.
Qed.
Lemma act_int t m cs : kids t m = Some cs -> act t (AInt m) = summ L (map c_cache cs).
Proof. cbn. by intros ->. Qed.
Lemma act_leaf t l e : el t l = Some e -> act t (ALeaf l) = get_elem_cache e.
Proof. cbn. by intros ->. Qed.
Lemma CO_mono t (D D' : aidx -> Prop) : (forall a, D a -> D' a) -> CO t D -> CO t D'.
Proof. intros HD C p cs c Hk Hc Hn. eapply C; [done|done|]. intros Hd. by apply Hn, HD. Qed.

(** states of equal shape: only cache entries, the root cache and elements may differ *)
Record SH t t' : Prop := {
  sh_root : root t' = root t;
  sh_chs : forall i, chs t' i = chs t i;
  sh_lnk : forall i, lnk t' i = lnk t i;
  sh_llnk : forall l, llnk t' l = llnk t l;
  sh_an : anext (in_nodes t') = anext (in_nodes t);
  sh_al : anext (leaf_nodes t') = anext (leaf_nodes t);
}.
Global Arguments sh_root {t t'} _.
Global Arguments sh_chs {t t'} _ _.
Global Arguments sh_lnk {t t'} _ _.
Global Arguments sh_llnk {t t'} _ _.
Global Arguments sh_an {t t'} _.
Global Arguments sh_al {t t'} _.
Lemma SH_refl t : SH t t.
Proof. by constructor. Qed.
Lemma SH_trans t1 t2 t3 : SH t1 t2 -> SH t2 t3 -> SH t1 t3.
Proof. intros [] []. constructor; try intros ?; congruence. Qed.
Lemma SH_kids t t' : SH t t' -> forall i, is_Some (kids t' i) <-> is_Some (kids t i).
Proof. intros S i. rewrite !kids_lnk. by rewrite (sh_lnk S). Qed.
Lemma SH_el t t' : SH t t' -> forall l, is_Some (el t' l) <-> is_Some (el t l).
Proof. intros S i. rewrite !el_llnk. by rewrite (sh_llnk S). Qed.
Lemma SH_live t t' : SH t t' -> forall a, live t' a <-> live t a.
Proof. intros S [l|i]; cbn; [by apply SH_el|by apply SH_kids]. Qed.
Lemma SH_linked t t' : SH t t' -> forall a p k, linked t' a p k <-> linked t a p k.
Proof. intros S [l|i] p k; cbn; [by rewrite (sh_llnk S)|by rewrite (sh_lnk S)]. Qed.
Lemma SH_fuel t t' : SH t t' -> fuel t' = fuel t.
Proof. intros S. unfold fuel. by rewrite (sh_an S). Qed.
Lemma SH_WT E t t' H lv : SH t t' -> WT E t H lv -> WT E t' H lv.
Proof.
  intros C W. pose proof (sh_chs C) as Hc. pose proof (SH_live _ _ C) as Hl.
  pose proof (SH_kids _ _ C) as Hk.
  constructor.
  - rewrite (sh_root C). destruct (wt_root W) as (r & ? & ? & ?). exists r. by rewrite Hk.
  - intros p k a. rewrite Hc, Hl. apply (wt_ch W).
  - intros p k p' k' a. rewrite !Hc. apply (wt_uniq W).
  - intros a. rewrite Hl, (sh_root C). intros Ha Hr. destruct (wt_up W a Ha Hr) as (p & k & Hp).
    exists p, k. by rewrite Hc.
  - intros m. rewrite Hk. apply (wt_lv W).
  - intros m. rewrite Hk, (sh_root C), Hc. apply (wt_ne W).
  - intros m. rewrite Hk, (sh_an C). apply (wt_fresh W).
  - intros l. rewrite (SH_el _ _ C), (sh_al C). apply (wt_lfresh W).
Qed.
Lemma SH_LK t t' : SH t t' -> LK t -> LK t'.
Proof.
  intros C K. constructor.
  - intros p k a. rewrite (sh_chs C), (SH_linked _ _ C). apply (lk_ch K).
  - intros r. rewrite (sh_root C), (sh_lnk C). apply (lk_root K).
Qed.
Lemma SH_gen t t' : SH t t' -> forall n a, gen t' n a = gen t n a.
Proof.
  intros C n. induction n as [|n IH]; intros a; [done|]. cbn.
  assert (achs t' a = achs t a) as -> by (destruct a; [done|apply (sh_chs C)]).
  apply list_bind_ext; [apply IH|done].
Qed.
Lemma SH_SZ t t' n : SH t t' -> SZ t n -> SZ t' n.
Proof. intros S Z i. rewrite (sh_chs S). apply Z. Qed.

Lemma NoDup_map_lookup {A C} (f : A -> C) (l : list A) i j x y :
  NoDup (map f l) -> l !! i = Some x -> l !! j = Some y -> f x = f y -> i = j /\ x = y.
Proof.
  intros Hnd Hi Hj E.
  assert (i = j) as ->.
  { refine (NoDup_lookup _ _ _ (f x) Hnd _ _); [|rewrite E]; by rewrite list_lookup_fmap, ?Hi, ?Hj. }
  split; [done|congruence].
Qed.

(** rewriting the cache entries of one node *)
Section setcs.
  Context (t : btree) (p : nat) (n : node B) (cs' : list child).
  Context (Hn : get_in t p = Ok n) (Hcs : map c_arena cs' = map c_arena (n_children n)).
  Let t1 := set_in t p (mkNode (n_parent n) (n_slot n) cs').
  Lemma setcs_SH : SH t t1.
  Proof.
    apply get_in_inv in Hn as [Hk Hl]. constructor; try done.
    - intros i. unfold t1. rewrite chs_set_in. case_decide; [subst|done]. cbn. rewrite Hcs.
      symmetry. by apply chs_kids.
    - intros i. unfold t1. rewrite lnk_set_in. case_decide; [by subst|done].
  Qed.
  Lemma setcs_kids j : kids t1 j = if decide (p = j) then Some cs' else kids t j.
  Proof. unfold t1. by rewrite kids_set_in. Qed.
  Lemma setcs_el l : el t1 l = el t l.
  Proof. done. Qed.
  Lemma setcs_act a : a <> AInt p -> act t1 a = act t a.
  Proof.
    intros Ha. destruct a as [l|m]; [done|]. cbn. rewrite setcs_kids.
    rewrite decide_False; [done|]. by intros ->.
  Qed.
End setcs.

(** updating the entry of [i] in its parent [p] *)
Section entry.
  Context {E : nat -> Prop} {t : btree} {H : nat} {lv : nat -> nat}.
  Context (W : WT E t H lv) (K : LK t).

  (** the parent of a live non-root node *)
  Lemma parent_of i : is_Some (kids t i) -> AInt i <> root t ->
    exists p s cs c n, lnk t i = Some (Some (AInt p), s) /\ get_in t p = Ok n /\ kids t p = Some cs /\
      n_children n = cs /\ cs !! s = Some c /\ c_arena c = AInt i /\ lv p = S (lv i) /\ p <> i.
  Proof.
    intros Hi Hr. destruct (wt_up W (AInt i) Hi Hr) as (p & s & Hs).
    pose proof (lk_ch K _ _ _ Hs) as Hlk. cbn in Hlk.
    destruct (wt_ch W _ _ _ Hs) as [_ Hlv]. cbn in Hlv.
    destruct (chs_lookup _ _ _ _ Hs) as (cs & c & Hk & Hc & Ha).
    destruct (get_in_kids t p cs Hk) as (po & s' & Hg & _).
    exists p, s, cs, c, (mkNode po s' cs). repeat split; try done. intros ->. lia.
  Qed.
  Lemma wt_nodup_cs p cs : kids t p = Some cs -> NoDup (map c_arena cs).
  Proof. intros Hk. rewrite <- (chs_kids _ _ _ Hk). apply (wt_nodup W). Qed.

  Lemma entry_CO p cs s c (i : aidx) n v (D : aidx -> Prop) :
    get_in t p = Ok n -> kids t p = Some cs -> cs !! s = Some c -> c_arena c = i -> AInt p <> i ->
    CO t D -> v = act t i ->
    CO (set_in t p (mkNode (n_parent n) (n_slot n) (<[s := mkChild (c_arena c) v]> cs)))
       (fun a => (D a /\ a <> i) \/ a = AInt p).
  Proof.
    intros Hn Hk Hc Ha Hpi C Hv q cs1 c1 Hk1 Hc1 Hd.
    rewrite setcs_kids in Hk1.
    assert (c_arena c1 <> AInt p) as Hcp.
    { intros Ep. apply Hd. by right. }
    rewrite setcs_act by done.
    case_decide as Hpq; [subst q; injection Hk1 as <-|].
    - apply elem_of_list_lookup in Hc1 as [k Hk1].
      destruct (decide (k = s)) as [->|Hks].
      + rewrite list_lookup_insert in Hk1 by (by eapply lookup_lt_Some).
        injection Hk1 as <-. cbn. by rewrite Ha.
      + rewrite list_lookup_insert_ne in Hk1 by done.
        apply (C p cs c1 Hk); [by eapply elem_of_list_lookup_2|].
        intros Hdm. apply Hd. left. split; [done|]. intros Em.
        destruct (NoDup_map_lookup c_arena cs k s c1 c) as [? _]; try done.
        { by apply (wt_nodup_cs p). } congruence.
    - apply (C q cs1 c1 Hk1 Hc1). intros Hdm. apply Hd. left. split; [done|].
      intros Em. apply Hpq.
      apply elem_of_list_lookup in Hc1 as [k Hc1].
      assert (chs t q !! k = Some i) as H1.
      { rewrite (chs_kids _ _ _ Hk1), list_lookup_fmap, Hc1. cbn. by rewrite Em. }
      assert (chs t p !! s = Some i) as H2.
      { rewrite (chs_kids _ _ _ Hk), list_lookup_fmap, Hc. cbn. by rewrite Ha. }
      by destruct (wt_uniq W _ _ _ _ _ H1 H2).
  Qed.
  Lemma entry_VA p cs s c n v :
    get_in t p = Ok n -> kids t p = Some cs -> cs !! s = Some c -> VA t -> cvalid L v ->
    VA (set_in t p (mkNode (n_parent n) (n_slot n) (<[s := mkChild (c_arena c) v]> cs))).
  Proof.
    intros Hn Hk Hc [Ve Vc] Hv. constructor; [done|].
    intros q cs1 c1 Hk1 Hc1. rewrite setcs_kids in Hk1. case_decide as Hpq; [|by eapply Vc].
    injection Hk1 as <-. apply elem_of_list_lookup in Hc1 as [k Hk1].
    destruct (decide (k = s)) as [->|Hks].
    + rewrite list_lookup_insert in Hk1 by (by eapply lookup_lt_Some). by injection Hk1 as <-.
    + rewrite list_lookup_insert_ne in Hk1 by done.
      apply (Vc p cs c1 Hk). by eapply elem_of_list_lookup_2.
  Qed.
  Lemma entry_arena cs s c v : cs !! s = Some c ->
    map c_arena (<[s := mkChild (c_arena c) v]> cs) = map (@c_arena B) cs.
  Proof.
    intros Hc. rewrite list_fmap_insert. cbn. apply list_insert_id.
    by rewrite list_lookup_fmap, Hc.
  Qed.
  Lemma insert_split {A} (l : list A) s x y : l !! s = Some x ->
    exists l1 l2, l = l1 ++ x :: l2 /\ <[s := y]> l = l1 ++ y :: l2 /\ length l1 = s.
  Proof.
    intros Hs. pose proof (lookup_lt_Some _ _ _ Hs) as Hlt.
    exists (take s l), (drop (S s) l).
    split; [symmetry; by apply take_drop_middle|]. split.
    - by apply insert_take_drop.
    - rewrite take_length. lia.
  Qed.
End entry.
End law.
Global Arguments act {B} L t a : simpl never.
