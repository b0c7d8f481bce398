(** Seq.v — the depth-first sequence: no duplicates, completeness, and how it changes
    under local edits. *)
From Verif Require Export Inv.

Lemma NoDup_bind {A C} (f : A -> list C) (l : list A) :
  NoDup l -> (forall x, x ∈ l -> NoDup (f x)) ->
  (forall x y c, x ∈ l -> y ∈ l -> c ∈ f x -> c ∈ f y -> x = y) -> NoDup (l ≫= f).
Proof.
  induction l as [|x l IH]; intros Hnd Hf Hd; [constructor|].
  inversion Hnd as [|? ? Hx Hl]; subst. cbn. apply NoDup_app. split; [|split].
  - apply Hf. left.
  - intros c Hc [y [Hcy Hy]]%elem_of_list_bind.
    assert (x = y) as ->; [|done]. eapply Hd; eauto; [left|by right].
  - apply IH; [done| |].
    + intros y Hy. apply Hf. by right.
    + intros y z c Hy Hz. apply Hd; by right.
Qed.
Lemma NoDup_bind_inv {A C} (f : A -> list C) (l : list A) x y c i j k k' :
  NoDup (l ≫= f) -> l !! i = Some x -> f x !! k = Some c ->
  l !! j = Some y -> f y !! k' = Some c -> i = j /\ k = k'.
Proof.
  revert i j. induction l as [|z l IH]; intros i j Hnd Hi Hk Hj Hk'; [done|].
  cbn in Hnd. apply NoDup_app in Hnd as (H1 & H2 & H3).
  destruct i as [|i], j as [|j]; cbn in Hi, Hj; simplify_eq.
  - split; [done|]. exact (NoDup_lookup _ _ _ _ H1 Hk Hk').
  - exfalso. apply (H2 c); [by eapply elem_of_list_lookup_2|].
    apply elem_of_list_bind. exists y. split; by eapply elem_of_list_lookup_2.
  - exfalso. apply (H2 c); [by eapply elem_of_list_lookup_2|].
    apply elem_of_list_bind. exists x. split; by eapply elem_of_list_lookup_2.
  - destruct (IH i j) as [-> ->]; auto.
Qed.
Lemma bind_ext_in {A C} (f g : A -> list C) (l : list A) :
  (forall x, x ∈ l -> f x = g x) -> l ≫= f = l ≫= g.
Proof.
  induction l as [|x l IH]; intros Hf; [done|]. cbn. f_equal.
  - apply Hf. left.
  - apply IH. intros y Hy. apply Hf. by right.
Qed.
Lemma bind_bind {A C D} (f : A -> list C) (g : C -> list D) (l : list A) :
  (l ≫= f) ≫= g = l ≫= (fun x => f x ≫= g).
Proof. induction l as [|x l IH]; [done|]. cbn. by rewrite bind_app, IH. Qed.
Lemma bind_singleton_id {A} (l : list A) : l ≫= (fun x => [x]) = l.
Proof. induction l as [|x l IH]; [done|]. cbn. by rewrite <- IH at 2. Qed.
Lemma nodup_split_unique {A} (l1 l2 m1 m2 : list A) (x : A) :
  NoDup (l1 ++ x :: l2) -> l1 ++ x :: l2 = m1 ++ x :: m2 -> l1 = m1 /\ l2 = m2.
Proof.
  revert m1. induction l1 as [|y l1 IH]; intros m1 Hnd Heq.
  - destruct m1 as [|z m1]; cbn in *; [by simplify_eq|].
    simplify_eq. inversion Hnd as [|? ? Hx _]; subst. destruct Hx.
    apply elem_of_app. right. left.
  - destruct m1 as [|z m1]; cbn in *.
    + simplify_eq. inversion Hnd as [|? ? Hx _]; subst. destruct Hx.
      apply elem_of_app. right. left.
    + injection Heq as -> Heq. inversion Hnd; subst. destruct (IH m1) as [-> ->]; auto.
Qed.
Lemma raw_aleaf (l : list nat) : map raw (map ALeaf l) = l.
Proof. induction l as [|x l IH]; [done|]. cbn. by rewrite IH. Qed.

Section seq.
Context {B : BTreeTrait}.
Notation btree := (btree B).
Implicit Types (t : btree) (i m p k n : nat) (a b : aidx).

Section wt.
  Context {E : nat -> Prop} {t : btree} {H : nat} {lv : nat -> nat} (W : WT E t H lv).

  Lemma achs_wt a b : b ∈ achs t a -> live t b /\ S (alv lv b) = alv lv a.
  Proof.
    destruct a as [l|i]; cbn; [by intros ?%elem_of_nil|].
    intros [k Hk]%elem_of_list_lookup. apply (wt_ch W) in Hk as [? Hk]. cbn. by rewrite Hk.
  Qed.
  Lemma gen_live n : forall a b, live t a -> b ∈ gen t n a -> live t b /\ alv lv b + n = alv lv a.
  Proof.
    induction n as [|n IH]; intros a b Ha; cbn [gen].
    - intros ->%elem_of_list_singleton. split; [done|lia].
    - intros (c & Hb & Hc)%elem_of_list_bind. apply achs_wt in Hc as [Hc Hlv].
      destruct (IH c b Hc Hb) as [? ?]. split; [done|lia].
  Qed.
  Lemma gen_nodup n a : live t a -> NoDup (gen t n a).
  Proof.
    intros Ha. induction n as [|n IH]; [apply NoDup_singleton|].
    rewrite gen_S_r. apply NoDup_bind; [done| |].
    - intros [l|i] _; cbn; [constructor|]. apply (wt_nodup W).
    - intros [l|x] [l'|y] c Hx Hy Hcx Hcy; cbn in Hcx, Hcy; try by apply elem_of_nil in Hcx.
      { by apply elem_of_nil in Hcy. }
      apply elem_of_list_lookup in Hcx as [i Hi]. apply elem_of_list_lookup in Hcy as [j Hj].
      by destruct (wt_uniq W _ _ _ _ _ Hi Hj) as [-> _].
  Qed.
  Lemma root_live : live t (root t).
  Proof. rewrite (wt_root_id W). cbn. apply (wt_root_live W). Qed.
  Lemma alv_root : alv lv (root t) = S H.
  Proof. rewrite (wt_root_id W). cbn. by rewrite (wt_root_lv W). Qed.
  Lemma gen_complete n : forall b, live t b -> alv lv b + n = S H -> b ∈ gen t n (root t).
  Proof.
    induction n as [|n IH]; intros b Hb Hn.
    - cbn. apply elem_of_list_singleton.
      destruct (decide (b = root t)) as [|Hr]; [done|exfalso].
      destruct (wt_up W b Hb Hr) as (p & k & Hk).
      pose proof (chs_lookup_live _ _ _ _ Hk) as Hp%(wt_lv W).
      apply (wt_ch W) in Hk as [_ Hk]. lia.
    - rewrite gen_S_r. destruct (decide (b = root t)) as [->|Hr].
      + rewrite alv_root in Hn. lia.
      + destruct (wt_up W b Hb Hr) as (p & k & Hk).
        pose proof (chs_lookup_live _ _ _ _ Hk) as Hp.
        apply elem_of_list_bind. exists (AInt p). split; [by eapply elem_of_list_lookup_2|].
        apply IH; [done|]. apply (wt_ch W) in Hk as [_ Hk]. cbn. lia.
  Qed.

End wt.

(** the public sequence is the last generation *)
Lemma leaves_gen {t H lv} (W : WT NoE t H lv) : map ALeaf (leaves t) = gen t (S H) (root t).
Proof.
  unfold leaves. rewrite <- (alv_root W).
  destruct (decide (chs t (raw (root t)) = [])) as [He|He].
  - rewrite (wt_root_id W) at 1. unfold fuel. cbn [sub]. rewrite He.
    rewrite (alv_root W). rewrite (wt_root_id W). cbn [gen achs]. by rewrite He.
  - apply (sub_gen W); [|apply (root_live W)]. rewrite (alv_root W).
    pose proof (wt_height_bound W He). unfold fuel. lia.
Qed.
Lemma leaves_raw {t H lv} (W : WT NoE t H lv) : leaves t = map raw (gen t (S H) (root t)).
Proof. by rewrite <- (leaves_gen W), raw_aleaf. Qed.

Section wt0.
  Context {t : btree} {H : nat} {lv : nat -> nat} (W : WT NoE t H lv).
  Lemma leaves_nodup : NoDup (leaves t).
  Proof.
    apply (NoDup_fmap_1 ALeaf). change (NoDup (map ALeaf (leaves t))).
    rewrite (leaves_gen W). apply (gen_nodup W), (root_live W).
  Qed.
  Lemma leaves_live l : l ∈ leaves t <-> is_Some (el t l).
  Proof.
    assert (l ∈ leaves t <-> ALeaf l ∈ map ALeaf (leaves t)) as ->.
    { split; intros Hl; [by apply elem_of_list_fmap_1|].
      by apply elem_of_list_fmap in Hl as (? & [= ->] & ?). }
    rewrite (leaves_gen W). split; intros Hl.
    - by apply (gen_live W) in Hl as [? _]; [|apply (root_live W)].
    - apply (gen_complete W); [done|]. cbn. lia.
  Qed.
  Lemma elems_lookup k l : leaves t !! k = Some l -> exists e, el t l = Some e /\ elems t !! k = Some (l, e).
  Proof.
    intros Hk. assert (l ∈ leaves t) as [e He]%leaves_live by by eapply elem_of_list_lookup_2.
    exists e. split; [done|]. unfold elems.
    assert (Hall : forall l, l ∈ leaves t -> is_Some (el t l)) by (intros; by apply leaves_live).
    revert k Hk Hall. generalize (leaves t) as L. induction L as [|x L IH]; intros k Hk Hall; [done|].
    destruct (Hall x) as [ex Hex]; [left|]. cbn. rewrite Hex. cbn.
    destruct k as [|k]; cbn in *; [by simplify_eq|]. apply IH; [done|].
    intros; apply Hall; by right.
  Qed.
  Lemma elems_fst : map fst (elems t) = leaves t.
  Proof.
    unfold elems.
    assert (Hall : forall l, l ∈ leaves t -> is_Some (el t l)) by (intros; by apply leaves_live).
    revert Hall. generalize (leaves t) as L. induction L as [|x L IH]; intros Hall; [done|].
    destruct (Hall x) as [ex Hex]; [left|]. cbn. rewrite Hex. cbn. f_equal.
    apply IH. intros; apply Hall; by right.
  Qed.
End wt0.

(** ** Local changes *)

(** rows above level [k] only depend on the nodes above level [k] *)
Lemma gen_rows {E t H lv} (W : WT E t H lv) t' k :
  root t' = root t ->
  (forall j, is_Some (kids t j) -> k < lv j -> chs t' j = chs t j) ->
  forall n, n + k <= H -> gen t' n (root t') = gen t n (root t).
Proof.
  intros Hr Hc n. induction n as [|n IH]; intros Hn; [cbn; by rewrite Hr|].
  rewrite !gen_S_r, IH by lia. apply bind_ext_in. intros a Ha.
  apply (gen_live W) in Ha as [Ha Hlv]; [|apply (root_live W)].
  destruct a as [l|j]; [done|]. cbn in *. apply Hc; [done|]. rewrite (alv_root W) in Hlv. lia.
Qed.

(** rows below level [k] from equal nodes, when everything below level [k] agrees *)
Lemma gen_below {E t H lv} (W : WT E t H lv) t' k :
  (forall j, is_Some (kids t j) -> lv j < k -> chs t' j = chs t j) ->
  forall n a, live t a -> alv lv a <= k -> gen t' n a = gen t n a.
Proof.
  intros Hc n. induction n as [|n IH]; intros a Ha Hlv; [done|]. cbn.
  assert (achs t' a = achs t a) as ->.
  { destruct a as [l|j]; [done|]. cbn in *. apply Hc; [done|lia]. }
  apply bind_ext_in. intros b Hb. apply (achs_wt W) in Hb as [? ?]. apply IH; [done|lia].
Qed.

(** edit of one leaf parent [p]: the sequence changes exactly there *)
Lemma gen_edit {E t H lv} (W : WT E t H lv) t' p :
  root t' = root t -> is_Some (kids t p) -> lv p = 0 ->
  (forall j, is_Some (kids t j) -> j <> p -> chs t' j = chs t j) ->
  exists X Y, gen t (S H) (root t) = X ++ chs t p ++ Y /\
              gen t' (S H) (root t') = X ++ chs t' p ++ Y.
Proof.
  intros Hr Hp Hlv Hc. rewrite !gen_S_r.
  rewrite (gen_rows W t' 0 Hr); [|intros j Hj Hk; apply Hc; [done|intros ->; lia]|lia].
  assert (AInt p ∈ gen t H (root t)) as Hin.
  { apply (gen_complete W); [done|]. cbn. lia. }
  pose proof (gen_nodup W H (root t) (root_live W)) as Hnd.
  assert (Hlive : forall a, a ∈ gen t H (root t) -> live t a).
  { intros a Ha. by apply (gen_live W) in Ha as [? _]; [|apply (root_live W)]. }
  apply elem_of_list_split in Hin as (L1 & L2 & HL). rewrite HL in *.
  exists (L1 ≫= achs t), (L2 ≫= achs t).
  rewrite !bind_app. cbn. split; [done|]. f_equal; [|f_equal].
  - apply bind_ext_in. intros [l|j] Hj; [done|]. cbn. apply Hc.
    + apply (Hlive (AInt j)). apply elem_of_app. by left.
    + intros ->. apply NoDup_app in Hnd as (_ & Hd & _). apply (Hd _ Hj). left.
  - apply bind_ext_in. intros [l|j] Hj; [done|]. cbn. apply Hc.
    + apply (Hlive (AInt j)). apply elem_of_app. right. by right.
    + intros ->. apply NoDup_app in Hnd as (_ & _ & Hd). inversion Hd. done.
Qed.
End seq.
