(** Inv.v — projections of a tree state, the structural invariant and its basic theory. *)
From Verif Require Export BTree.

Section inv.
Context {B : BTreeTrait}.
Notation btree := (btree B).
Notation child := (child B).
Implicit Types (t : btree) (i m p k : nat) (a b : aidx).

(** ** Projections *)
Definition kids t i : option (list child) := n_children <$> a_get (in_nodes t) i.
Definition lnk t i : option (option aidx * nat) :=
  (fun n => (n_parent n, n_slot n)) <$> a_get (in_nodes t) i.
Definition el t (l : nat) : option (Elem B) := l_elem <$> a_get (leaf_nodes t) l.
Definition llnk t (l : nat) : option nat := l_parent <$> a_get (leaf_nodes t) l.
Definition chs t i : list aidx := match kids t i with Some cs => map c_arena cs | None => [] end.
Definition achs t a : list aidx := match a with AInt i => chs t i | ALeaf _ => [] end.
Definition live t a : Prop :=
  match a with ALeaf l => is_Some (el t l) | AInt i => is_Some (kids t i) end.
Definition linked t a p k : Prop :=
  match a with
  | AInt m => lnk t m = Some (Some (AInt p), k)
  | ALeaf l => llnk t l = Some p
  end.

(** ** The content of a tree: the leaves in depth-first order *)
Fixpoint sub t (d : nat) a : list nat :=
  match a with
  | ALeaf l => [l]
  | AInt i => match d with 0 => [] | S d' => chs t i ≫= sub t d' end
  end.
Definition leaves t : list nat := sub t (fuel t) (root t).
Definition elems t : list (nat * Elem B) :=
  omap (fun l => (fun e => (l, e)) <$> el t l) (leaves t).

(** nodes exactly [n] generations below [a], left to right *)
Fixpoint gen t (n : nat) a : list aidx :=
  match n with 0 => [a] | S n' => achs t a ≫= gen t n' end.

Definition alv (lv : nat -> nat) a : nat := match a with ALeaf _ => 0 | AInt i => S (lv i) end.

(** ** Structural invariant.  [E] are internal nodes that may be empty, [lv] the height of
    an internal node above the leaf parents, [H] the height of the root. *)
Record WT (E : nat -> Prop) t (H : nat) (lv : nat -> nat) : Prop := {
  wt_root : exists r, root t = AInt r /\ is_Some (kids t r) /\ lv r = H;
  wt_ch : forall p k a, chs t p !! k = Some a -> live t a /\ lv p = alv lv a;
  wt_uniq : forall p k p' k' a, chs t p !! k = Some a -> chs t p' !! k' = Some a -> p = p' /\ k = k';
  wt_up : forall a, live t a -> a <> root t -> exists p k, chs t p !! k = Some a;
  wt_lv : forall m, is_Some (kids t m) -> lv m <= H;
  wt_ne : forall m, is_Some (kids t m) -> AInt m <> root t -> ~ E m -> chs t m <> [];
  wt_fresh : forall m, is_Some (kids t m) -> m < anext (in_nodes t);
  wt_lfresh : forall l, is_Some (el t l) -> l < anext (leaf_nodes t);
}.
(** parent links and slots agree with the child lists *)
Record LK t : Prop := {
  lk_ch : forall p k a, chs t p !! k = Some a -> linked t a p k;
  lk_root : forall r, root t = AInt r -> exists s, lnk t r = Some (None, s);
}.
Definition NoE : nat -> Prop := fun _ => False.
Definition SZ t (n : nat) : Prop := forall i, length (chs t i) <= n.

End inv.
Arguments wt_root {B E t H lv} _.
Arguments wt_ch {B E t H lv} _ _ _ _ _.
Arguments wt_uniq {B E t H lv} _ _ _ _ _ _ _ _.
Arguments wt_up {B E t H lv} _ _ _ _.
Arguments wt_lv {B E t H lv} _ _ _.
Arguments wt_ne {B E t H lv} _ _ _ _ _.
Arguments wt_fresh {B E t H lv} _ _ _.
Arguments wt_lfresh {B E t H lv} _ _ _.
Arguments lk_ch {B t} _ _ _ _ _.
Arguments lk_root {B t} _ _ _.

Section inv.
Context {B : BTreeTrait}.
Notation btree := (btree B).
Notation child := (child B).
Implicit Types (t : btree) (i m p k : nat) (a b : aidx).

(** ** Access *)
Lemma kids_lnk t i : is_Some (kids t i) <-> is_Some (lnk t i).
Proof. unfold kids, lnk. by rewrite !fmap_is_Some. Qed.
Lemma el_llnk t l : is_Some (el t l) <-> is_Some (llnk t l).
Proof. unfold el, llnk. by rewrite !fmap_is_Some. Qed.
Lemma get_in_proj t i cs po s :
  kids t i = Some cs -> lnk t i = Some (po, s) -> get_in t i = Ok (mkNode po s cs).
Proof.
  unfold kids, lnk, get_in. intros Hk Hl.
  destruct (a_get (in_nodes t) i) as [[po' s' cs']|]; [|done]. cbn in *. by simplify_eq.
Qed.
Lemma get_in_inv t i n :
  get_in t i = Ok n -> kids t i = Some (n_children n) /\ lnk t i = Some (n_parent n, n_slot n).
Proof.
  unfold kids, lnk, get_in. destruct (a_get (in_nodes t) i) as [n'|]; cbn; [|done].
  intros [= ->]. done.
Qed.
Lemma get_in_kids t i cs : kids t i = Some cs ->
  exists po s, get_in t i = Ok (mkNode po s cs) /\ lnk t i = Some (po, s).
Proof.
  intros Hk. destruct (lnk t i) as [[po s]|] eqn:Hl.
  - exists po, s. split; [by apply get_in_proj|done].
  - exfalso. assert (is_Some (lnk t i)) as [? ?]; [|congruence].
    apply kids_lnk. by rewrite Hk.
Qed.
Lemma get_lf_proj t l e p : el t l = Some e -> llnk t l = Some p -> get_lf t l = Ok (mkLeaf e p).
Proof.
  unfold el, llnk, get_lf. intros Hk Hl.
  destruct (a_get (leaf_nodes t) l) as [[e' p']|]; [|done]. cbn in *. by simplify_eq.
Qed.
Lemma get_lf_inv t l lf : get_lf t l = Ok lf -> el t l = Some (l_elem lf) /\ llnk t l = Some (l_parent lf).
Proof.
  unfold el, llnk, get_lf. destruct (a_get (leaf_nodes t) l) as [n'|]; cbn; [|done].
  intros [= ->]. done.
Qed.
Lemma chs_kids t i cs : kids t i = Some cs -> chs t i = map c_arena cs.
Proof. unfold chs. by intros ->. Qed.
Lemma chs_lookup t i k a : chs t i !! k = Some a ->
  exists cs c, kids t i = Some cs /\ cs !! k = Some c /\ c_arena c = a.
Proof.
  unfold chs. destruct (kids t i) as [cs|]; [|done]. rewrite list_lookup_fmap.
  destruct (cs !! k) as [c|] eqn:E; cbn; [|done]. intros [= <-]. eauto.
Qed.
Lemma chs_live t i : chs t i <> [] -> is_Some (kids t i).
Proof. unfold chs. destruct (kids t i); [eauto|done]. Qed.
Lemma chs_lookup_live t i k a : chs t i !! k = Some a -> is_Some (kids t i).
Proof. intros E. apply chs_live. intros E'. by rewrite E' in E. Qed.

(** ** Projections of the elementary state changes *)
Section upd.
  Context (t : btree).
  Lemma kids_set_in i n j : kids (set_in t i n) j = if decide (i = j) then Some (n_children n) else kids t j.
  Proof. unfold kids, set_in, a_get, a_set; cbn. case_decide; subst; by simplify_map_eq. Qed.
  Lemma lnk_set_in i n j :
    lnk (set_in t i n) j = if decide (i = j) then Some (n_parent n, n_slot n) else lnk t j.
  Proof. unfold lnk, set_in, a_get, a_set; cbn. case_decide; subst; by simplify_map_eq. Qed.
  Lemma el_set_in i n l : el (set_in t i n) l = el t l. Proof. done. Qed.
  Lemma llnk_set_in i n l : llnk (set_in t i n) l = llnk t l. Proof. done. Qed.
  Lemma kids_set_lf i n j : kids (set_lf t i n) j = kids t j. Proof. done. Qed.
  Lemma lnk_set_lf i n j : lnk (set_lf t i n) j = lnk t j. Proof. done. Qed.
  Lemma el_set_lf i n l : el (set_lf t i n) l = if decide (i = l) then Some (l_elem n) else el t l.
  Proof. unfold el, set_lf, a_get, a_set; cbn. case_decide; subst; by simplify_map_eq. Qed.
  Lemma llnk_set_lf i n l : llnk (set_lf t i n) l = if decide (i = l) then Some (l_parent n) else llnk t l.
  Proof. unfold llnk, set_lf, a_get, a_set; cbn. case_decide; subst; by simplify_map_eq. Qed.
  Lemma kids_ins_in n j :
    kids (snd (ins_in t n)) j = if decide (anext (in_nodes t) = j) then Some (n_children n) else kids t j.
  Proof. unfold kids, ins_in, a_get, a_insert; cbn. case_decide; subst; by simplify_map_eq. Qed.
  Lemma lnk_ins_in n j :
    lnk (snd (ins_in t n)) j = if decide (anext (in_nodes t) = j) then Some (n_parent n, n_slot n) else lnk t j.
  Proof. unfold lnk, ins_in, a_get, a_insert; cbn. case_decide; subst; by simplify_map_eq. Qed.
  Lemma el_ins_lf n l :
    el (snd (ins_lf t n)) l = if decide (anext (leaf_nodes t) = l) then Some (l_elem n) else el t l.
  Proof. unfold el, ins_lf, a_get, a_insert; cbn. case_decide; subst; by simplify_map_eq. Qed.
  Lemma llnk_ins_lf n l :
    llnk (snd (ins_lf t n)) l = if decide (anext (leaf_nodes t) = l) then Some (l_parent n) else llnk t l.
  Proof. unfold llnk, ins_lf, a_get, a_insert; cbn. case_decide; subst; by simplify_map_eq. Qed.
  Lemma kids_rem_in i j : kids (rem_in t i) j = if decide (i = j) then None else kids t j.
  Proof. unfold kids, rem_in, a_get, a_remove; cbn. case_decide; subst; by simplify_map_eq. Qed.
  Lemma lnk_rem_in i j : lnk (rem_in t i) j = if decide (i = j) then None else lnk t j.
  Proof. unfold lnk, rem_in, a_get, a_remove; cbn. case_decide; subst; by simplify_map_eq. Qed.
  Lemma el_rem_lf i l : el (rem_lf t i) l = if decide (i = l) then None else el t l.
  Proof. unfold el, rem_lf, a_get, a_remove; cbn. case_decide; subst; by simplify_map_eq. Qed.
  Lemma llnk_rem_lf i l : llnk (rem_lf t i) l = if decide (i = l) then None else llnk t l.
  Proof. unfold llnk, rem_lf, a_get, a_remove; cbn. case_decide; subst; by simplify_map_eq. Qed.
End upd.
Lemma chs_set_in t i n j :
  chs (set_in t i n) j = if decide (i = j) then map c_arena (n_children n) else chs t j.
Proof. unfold chs. rewrite kids_set_in. by case_decide. Qed.
Lemma chs_ins_in t n j :
  chs (snd (ins_in t n)) j = if decide (anext (in_nodes t) = j) then map c_arena (n_children n) else chs t j.
Proof. unfold chs. rewrite kids_ins_in. by case_decide. Qed.
Lemma chs_rem_in t i j : chs (rem_in t i) j = if decide (i = j) then [] else chs t j.
Proof. unfold chs. rewrite kids_rem_in. by case_decide. Qed.

(** ** Basic consequences of the invariant *)
Section wt.
  Context {E : nat -> Prop} {t : btree} {H : nat} {lv : nat -> nat} (W : WT E t H lv).

  Lemma wt_root_id : root t = AInt (raw (root t)).
  Proof. destruct (wt_root W) as (r & -> & _). done. Qed.
  Lemma wt_root_live : is_Some (kids t (raw (root t))).
  Proof. destruct (wt_root W) as (r & -> & ? & _). done. Qed.
  Lemma wt_root_lv : lv (raw (root t)) = H.
  Proof. destruct (wt_root W) as (r & -> & ? & ?). done. Qed.
  Lemma wt_root_nochild p k : chs t p !! k = Some (root t) -> False.
  Proof.
    intros Hc. pose proof (chs_lookup_live _ _ _ _ Hc) as Hl.
    apply (wt_ch W) in Hc as [_ Hlv]. pose proof (wt_lv W _ Hl) as Hle.
    pose proof wt_root_lv. rewrite wt_root_id in Hlv. cbn in Hlv. lia.
  Qed.
  Lemma wt_nodup p : NoDup (chs t p).
  Proof.
    apply NoDup_alt. intros i j x Hi Hj. by destruct (wt_uniq W _ _ _ _ _ Hi Hj).
  Qed.
  Lemma wt_live_child p a : a ∈ chs t p -> live t a.
  Proof. intros [k Hk]%elem_of_list_lookup. by apply (wt_ch W) in Hk as [? _]. Qed.
  Lemma wt_int_child p a : a ∈ chs t p -> 0 < lv p -> exists m, a = AInt m /\ lv p = S (lv m).
  Proof.
    intros [k Hk]%elem_of_list_lookup Hp. apply (wt_ch W) in Hk as [_ Hk].
    destruct a as [l|m]; cbn in Hk; [lia|eauto].
  Qed.
  Lemma wt_leaf_child p a : a ∈ chs t p -> lv p = 0 -> exists l, a = ALeaf l.
  Proof.
    intros [k Hk]%elem_of_list_lookup Hp. apply (wt_ch W) in Hk as [_ Hk].
    destruct a as [l|m]; cbn in Hk; [eauto|lia].
  Qed.
  Lemma wt_nonroot_lv m : is_Some (kids t m) -> AInt m <> root t -> lv m < H.
  Proof.
    intros Hm Hr. destruct (wt_up W (AInt m) Hm Hr) as (p & k & Hk).
    pose proof (chs_lookup_live _ _ _ _ Hk) as Hp. apply (wt_lv W) in Hp.
    apply (wt_ch W) in Hk as [_ Hk]. cbn in Hk. lia.
  Qed.

  (** every live node has ancestors up to the root: a bound for upward walks *)
  Lemma wt_anc_list n : forall m, is_Some (kids t m) -> H - lv m = n ->
    exists ms, length ms = S n /\ NoDup ms /\ forall j, j ∈ ms -> j < anext (in_nodes t) /\ lv m <= lv j.
  Proof.
    induction n as [|n IH]; intros m Hm Hn.
    - exists [m]. split; [done|]. split; [apply NoDup_singleton|].
      intros j ->%elem_of_list_singleton. split; [by apply (wt_fresh W)|done].
    - destruct (decide (AInt m = root t)) as [Er|Er].
      { pose proof wt_root_lv as Hr. rewrite <- Er in Hr. cbn in Hr. lia. }
      destruct (wt_up W (AInt m) Hm Er) as (p & k & Hk).
      pose proof (chs_lookup_live _ _ _ _ Hk) as Hp.
      apply (wt_ch W) in Hk as [_ Hk]. cbn in Hk.
      destruct (IH p Hp) as (ms & Hlen & Hnd & Hms); [lia|].
      exists (m :: ms). split; [cbn; lia|]. split.
      + constructor; [|done]. intros Hin. apply Hms in Hin as [_ ?]. lia.
      + intros j [->|Hj]%elem_of_cons; [split; [by apply (wt_fresh W)|lia]|].
        apply Hms in Hj as [? ?]. split; [done|lia].
  Qed.
  Lemma wt_depth_bound m : is_Some (kids t m) -> H - lv m < anext (in_nodes t).
  Proof.
    intros Hm. destruct (wt_anc_list (H - lv m) m Hm eq_refl) as (ms & Hlen & Hnd & Hms).
    assert (length ms <= length (seq 0 (anext (in_nodes t)))) as Hle.
    { apply submseteq_length. apply NoDup_submseteq; [done|].
      intros j Hj. apply Hms in Hj as [? _]. apply elem_of_seq. lia. }
    rewrite seq_length in Hle. lia.
  Qed.
End wt.

(** with no empty node, the height is bounded by the number of handles *)
Lemma wt_down {t H lv} (W : WT NoE t H lv) n : forall m, is_Some (kids t m) -> lv m = n ->
  (AInt m = root t -> chs t m <> []) -> exists j, is_Some (kids t j) /\ lv j = 0.
Proof.
  induction n as [|n IH]; intros m Hm Hn Hr; [eauto|].
  assert (chs t m <> []) as Hne.
  { destruct (decide (AInt m = root t)); [auto|]. apply (wt_ne W); [done..|by intros []]. }
  destruct (chs t m) as [|a l] eqn:Ec; [done|].
  assert (a ∈ chs t m) as Ha by (rewrite Ec; left).
  destruct (wt_int_child W _ _ Ha) as (j & -> & Hlv); [lia|].
  apply (IH j); [by apply (wt_live_child W _ _ Ha)|lia|].
  intros Ej. exfalso. apply elem_of_list_lookup in Ha as [k Hk]. rewrite Ej in Hk.
  by apply (wt_root_nochild W) in Hk.
Qed.
Lemma wt_height_bound {t H lv} (W : WT NoE t H lv) :
  chs t (raw (root t)) <> [] -> H < anext (in_nodes t).
Proof.
  intros Hne. destruct (wt_down W H (raw (root t))) as (j & Hj & Hlv).
  - apply (wt_root_live W).
  - apply (wt_root_lv W).
  - done.
  - pose proof (wt_depth_bound W j Hj). lia.
Qed.

(** ** Generations *)
Lemma gen_app t n1 n2 a : gen t (n1 + n2) a = gen t n1 a ≫= gen t n2.
Proof.
  revert a. induction n1 as [|n1 IH]; intros a; cbn [gen Nat.add].
  - by rewrite bind_singleton || (cbn; by rewrite app_nil_r).
  - generalize (achs t a) as l. induction l as [|x l IHl]; [done|].
    cbn. rewrite IH, IHl. by rewrite bind_app.
Qed.
Lemma gen_S_r t n a : gen t (S n) a = gen t n a ≫= achs t.
Proof.
  replace (S n) with (n + 1) by lia. rewrite gen_app. apply list_bind_ext; [|done].
  intros x. cbn. generalize (achs t x) as l. induction l as [|y l IH]; [done|]. cbn in *. by rewrite IH.
Qed.

Lemma sub_gen {E t H lv} (W : WT E t H lv) d : forall a, alv lv a <= d -> live t a ->
  map ALeaf (sub t d a) = gen t (alv lv a) a.
Proof.
  induction d as [|d IH]; intros a Hd Hl.
  - destruct a; cbn in *; [done|lia].
  - destruct a as [l|i]; cbn [sub alv gen]; [done|].
    cbn [alv] in Hd. cbn [achs].
    assert (Hc : forall a, a ∈ chs t i -> live t a /\ lv i = alv lv a).
    { intros a [k Hk]%elem_of_list_lookup. by apply (wt_ch W) in Hk. }
    revert Hc. generalize (chs t i) as l. induction l as [|x l IHl]; intros Hc; [done|].
    cbn. rewrite fmap_app. f_equal.
    + destruct (Hc x) as [Hx Hlv]; [left|]. rewrite Hlv. apply IH; [lia|done].
    + apply IHl. intros a Ha. apply Hc. by right.
Qed.
End inv.
