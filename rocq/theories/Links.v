(** Links.v — the loops that rewrite parent links and slots. *)
From Verif Require Export Struct.

Section links.
Context {B : BTreeTrait}.
Notation btree := (btree B).
Notation child := (child B).
Implicit Types (t : btree) (i j m p q k s : nat) (a b : aidx) (c : child) (cs : list child).

(** states that differ in links only *)
Record CORE t t' : Prop := {
  co_root : root t' = root t;
  co_rc : root_cache t' = root_cache t;
  co_kids : forall i, kids t' i = kids t i;
  co_el : forall l, el t' l = el t l;
  co_an : anext (in_nodes t') = anext (in_nodes t);
  co_al : anext (leaf_nodes t') = anext (leaf_nodes t);
}.
Global Arguments co_root {t t'} _.
Global Arguments co_rc {t t'} _.
Global Arguments co_kids {t t'} _ _.
Global Arguments co_el {t t'} _ _.
Global Arguments co_an {t t'} _.
Global Arguments co_al {t t'} _.
Lemma CORE_refl t : CORE t t.
Proof. by constructor. Qed.
Lemma CORE_trans t1 t2 t3 : CORE t1 t2 -> CORE t2 t3 -> CORE t1 t3.
Proof. intros [] []. constructor; try intros ?; congruence. Qed.
Lemma CORE_chs t t' : CORE t t' -> forall i, chs t' i = chs t i.
Proof. intros C i. unfold chs. by rewrite (co_kids C). Qed.
Lemma CORE_live t t' : CORE t t' -> forall a, live t' a <-> live t a.
Proof. intros C [l|i]; cbn; [by rewrite (co_el C)|by rewrite (co_kids C)]. Qed.

Definition lnk_same t t' a : Prop :=
  match a with AInt m => lnk t' m = lnk t m | ALeaf l => llnk t' l = llnk t l end.
Lemma lnk_same_linked t t' a p k : lnk_same t t' a -> linked t a p k -> linked t' a p k.
Proof. destruct a; cbn; congruence. Qed.
Lemma lnk_same_refl t a : lnk_same t t a.
Proof. by destruct a. Qed.
Lemma lnk_same_trans t1 t2 t3 a : lnk_same t1 t2 a -> lnk_same t2 t3 a -> lnk_same t1 t3 a.
Proof. destruct a; cbn; congruence. Qed.
Lemma live_lnk t m : is_Some (kids t m) -> exists po s, lnk t m = Some (po, s).
Proof. intros [[po s] H]%kids_lnk. eauto. Qed.

(** single link writes *)
Lemma set_in_link t m n po s : get_in t m = Ok n ->
  CORE t (set_in t m (mkNode po s (n_children n)))
  /\ lnk (set_in t m (mkNode po s (n_children n))) m = Some (po, s)
  /\ forall a, a <> AInt m -> lnk_same t (set_in t m (mkNode po s (n_children n))) a.
Proof.
  intros Hg. apply get_in_inv in Hg as [Hk Hl]. split; [|split].
  - constructor; try done. intros i. rewrite kids_set_in. case_decide; [by subst|done].
  - rewrite lnk_set_in. by rewrite decide_True.
  - intros [l|j] Ha; cbn; [done|]. rewrite lnk_set_in. rewrite decide_False; [done|].
    by intros ->.
Qed.
Lemma set_lf_link t l lf p : get_lf t l = Ok lf ->
  CORE t (set_lf t l (with_lparent lf p))
  /\ llnk (set_lf t l (with_lparent lf p)) l = Some p
  /\ forall a, a <> ALeaf l -> lnk_same t (set_lf t l (with_lparent lf p)) a.
Proof.
  intros Hg. apply get_lf_inv in Hg as [Hk Hl]. split; [|split].
  - constructor; try done. intros i. rewrite el_set_lf. case_decide; [by subst|done].
  - rewrite llnk_set_lf. by rewrite decide_True.
  - intros [j|j] Ha; cbn; [|done]. rewrite llnk_set_lf. rewrite decide_False; [done|].
    by intros ->.
Qed.
Lemma live_get_in t m : is_Some (kids t m) -> exists n, get_in t m = Ok n.
Proof. intros [cs Hk]. destruct (get_in_kids t m cs Hk) as (po & s & -> & _). eauto. Qed.
Lemma live_get_lf t l : is_Some (el t l) -> exists n, get_lf t l = Ok n.
Proof. unfold el, get_lf. destruct (a_get (leaf_nodes t) l); cbn; [eauto|by intros []]. Qed.

(** update_children_parent_slot_from *)
Lemma set_slots_ok cs : forall t i,
  (forall a, a ∈ map c_arena cs -> exists m, a = AInt m /\ is_Some (kids t m)) ->
  NoDup (map c_arena cs) ->
  exists t', set_slots t cs i = Ok t' /\ CORE t t'
    /\ (forall a, a ∉ map c_arena cs -> lnk_same t t' a)
    /\ (forall k m po s, map c_arena cs !! k = Some (AInt m) -> lnk t m = Some (po, s) ->
          lnk t' m = Some (po, i + k)).
Proof.
  induction cs as [|c cs IH]; intros t i Hl Hnd; cbn [set_slots].
  - exists t. split; [done|]. split; [apply CORE_refl|]. split; [intros; apply lnk_same_refl|done].
  - cbn in Hnd. inversion Hnd as [|? ? Hc Hnd']; subst.
    destruct (Hl (c_arena c)) as (m & Em & Hm); [left|]. rewrite Em. cbn.
    destruct (live_get_in t m Hm) as [n Hn]. rewrite Hn. cbn.
    unfold with_slot. destruct (set_in_link t m n (n_parent n) i Hn) as (C & Hlm & Ho).
    set (t1 := set_in t m _) in *.
    destruct (IH t1 (S i)) as (t' & E & C' & Ho' & Hs'); [|done|].
    { intros a Ha. destruct (Hl a) as (m' & -> & Hm'); [by right|]. exists m'. split; [done|].
      by rewrite (co_kids C). }
    exists t'. split; [done|]. split; [by eapply CORE_trans|]. split.
    + intros a Ha. cbn in Ha. rewrite elem_of_cons in Ha. eapply lnk_same_trans.
      * apply Ho. rewrite <- Em. intros ->. tauto.
      * apply Ho'. tauto.
    + intros k m' po s Hk Hlk. destruct k as [|k]; cbn in Hk.
      * simplify_eq. assert (m' = m) as -> by congruence.
        assert (lnk_same t1 t' (AInt m)) as Hs by (apply Ho'; by rewrite <- Em).
        cbn in Hs. rewrite Hs, Hlm. apply get_in_inv in Hn as [_ Hn]. rewrite Hlk in Hn.
        injection Hn as -> _. f_equal. f_equal. lia.
      * rewrite (Hs' k m' po s Hk); [f_equal; f_equal; lia|].
        specialize (Ho (AInt m')). cbn in Ho. rewrite Ho; [done|].
        intros [= ->]. apply Hc. rewrite Em. by eapply elem_of_list_lookup_2.
Qed.

(** re_parent_all *)
Lemma re_parent_all_ok cs : forall t p i,
  (forall a, a ∈ map c_arena cs -> live t a) -> NoDup (map c_arena cs) ->
  exists t', re_parent_all t cs p i = Ok t' /\ CORE t t'
    /\ (forall a, a ∉ map c_arena cs -> lnk_same t t' a)
    /\ (forall k a, map c_arena cs !! k = Some a -> linked t' a p (i + k)).
Proof.
  induction cs as [|c cs IH]; intros t p i Hl Hnd; cbn [re_parent_all].
  - exists t. split; [done|]. split; [apply CORE_refl|]. split; [intros; apply lnk_same_refl|done].
  - cbn in Hnd. inversion Hnd as [|? ? Hc Hnd']; subst.
    assert (exists t1, (match c_arena c with
      | AInt m => let? n := get_in t m in
          re_parent_all (set_in t m (mkNode (Some (AInt p)) i (n_children n))) cs p (S i)
      | ALeaf l => let? lf := get_lf t l in re_parent_all (set_lf t l (with_lparent lf p)) cs p (S i)
      end) = re_parent_all t1 cs p (S i) /\ CORE t t1 /\ linked t1 (c_arena c) p i
      /\ forall a, a <> c_arena c -> lnk_same t t1 a) as (t1 & -> & C & Hlk & Ho).
    { assert (Hlc : live t (c_arena c)) by (apply Hl; left). clear Hl IH Hnd Hc.
      destruct (c_arena c) as [l|m]; cbn in Hlc.
      - destruct (live_get_lf t l) as [n Hn]; [done|]. rewrite Hn. cbn.
        eexists. split; [done|]. destruct (set_lf_link t l n p Hn) as (? & ? & ?). done.
      - destruct (live_get_in t m) as [n Hn]; [done|]. rewrite Hn. cbn.
        eexists. split; [done|]. destruct (set_in_link t m n (Some (AInt p)) i Hn) as (? & ? & ?). done. }
    destruct (IH t1 p (S i)) as (t' & E & C' & Ho' & Hs'); [|done|].
    { intros a Ha. apply (CORE_live _ _ C). apply Hl. by right. }
    exists t'. split; [done|]. split; [by eapply CORE_trans|]. split.
    + intros a Ha. cbn in Ha. rewrite elem_of_cons in Ha. eapply lnk_same_trans; [apply Ho|apply Ho']; tauto.
    + intros [|k] a Hk; cbn in Hk.
      * simplify_eq. rewrite Nat.add_0_r. eapply lnk_same_linked; [|done]. by apply Ho'.
      * replace (i + S k) with (S i + k) by lia. by apply Hs'.
Qed.

(** apply_re_parent *)
Lemma apply_re_parent_ok re : forall t,
  (forall a p s, (a, p, s) ∈ re -> live t a) ->
  (forall a p s p' s', (a, p, s) ∈ re -> (a, p', s') ∈ re -> p = p' /\ s = s') ->
  exists t', apply_re_parent t re = Ok t' /\ CORE t t'
    /\ (forall a, (forall p s, (a, p, s) ∉ re) -> lnk_same t t' a)
    /\ (forall a p s, (a, p, s) ∈ re -> linked t' a p s).
Proof.
  induction re as [|[[a0 p0] s0] re IH]; intros t Hl Hf; cbn [apply_re_parent].
  - exists t. split; [done|]. split; [apply CORE_refl|]. split; [intros; apply lnk_same_refl|].
    by intros a p s ?%elem_of_nil.
  - assert (exists t1, (match a0 with
      | AInt m => let? n := get_in t m in
          apply_re_parent (set_in t m (mkNode (Some (AInt p0)) s0 (n_children n))) re
      | ALeaf l => let? lf := get_lf t l in apply_re_parent (set_lf t l (with_lparent lf p0)) re
      end) = apply_re_parent t1 re /\ CORE t t1 /\ linked t1 a0 p0 s0
      /\ forall a, a <> a0 -> lnk_same t t1 a) as (t1 & E1 & C & Hlk & Ho).
    { assert (Hlc : live t a0) by (apply (Hl a0 p0 s0); left).
      destruct a0 as [l|m]; cbn in Hlc.
      - destruct (live_get_lf t l) as [n Hn]; [done|]. rewrite Hn. cbn.
        eexists. split; [done|]. destruct (set_lf_link t l n p0 Hn) as (? & ? & ?). done.
      - destruct (live_get_in t m) as [n Hn]; [done|]. rewrite Hn. cbn.
        eexists. split; [done|]. destruct (set_in_link t m n (Some (AInt p0)) s0 Hn) as (? & ? & ?). done. }
    destruct (IH t1) as (t' & E & C' & Ho' & Hs').
    { intros a p s Ha. apply (CORE_live _ _ C). apply (Hl a p s). by right. }
    { intros a p s p' s' Ha Ha'. apply (Hf a); by right. }
    exists t'. split.
    { destruct a0; by rewrite E1. }
    split; [by eapply CORE_trans|]. split.
    + intros a Ha. eapply lnk_same_trans; [apply Ho|apply Ho'].
      * intros ->. apply (Ha p0 s0). left.
      * intros p s Hin. apply (Ha p s). by right.
    + intros a p s [Heq|Hin]%elem_of_cons; [|by apply Hs'].
      injection Heq as -> -> ->.
      destruct (decide ((a0, p0, s0) ∈ re)) as [D|D]; [by apply Hs'|].
      eapply lnk_same_linked; [|done]. apply Ho'. intros p s Hin. apply D.
      destruct (Hf a0 p0 s0 p s) as [-> ->]; [left|by right|done].
Qed.

(** reset_pp *)
Lemma reset_pp_ok cs : forall t p,
  (forall a, a ∈ map c_arena cs -> live t a) -> NoDup (map c_arena cs) ->
  exists t', reset_pp t cs p = Ok t' /\ CORE t t'
    /\ (forall a, a ∉ map c_arena cs -> lnk_same t t' a)
    /\ (forall l, ALeaf l ∈ map c_arena cs -> llnk t' l = Some p)
    /\ (forall m po s, AInt m ∈ map c_arena cs -> lnk t m = Some (po, s) -> lnk t' m = Some (Some (AInt p), s)).
Proof.
  induction cs as [|c cs IH]; intros t p Hl Hnd; cbn [reset_pp].
  - exists t. split; [done|]. split; [apply CORE_refl|]. split; [intros; apply lnk_same_refl|].
    split; intros; by apply not_elem_of_nil in H.
  - cbn in Hnd. inversion Hnd as [|? ? Hc Hnd']; subst.
    assert (exists t1, (match c_arena c with
      | AInt m => let? n := get_in t m in reset_pp (set_in t m (with_parent n (Some (AInt p)))) cs p
      | ALeaf l => let? lf := get_lf t l in reset_pp (set_lf t l (with_lparent lf p)) cs p
      end) = reset_pp t1 cs p /\ CORE t t1
      /\ (forall l, c_arena c = ALeaf l -> llnk t1 l = Some p)
      /\ (forall m po s, c_arena c = AInt m -> lnk t m = Some (po, s) -> lnk t1 m = Some (Some (AInt p), s))
      /\ forall a, a <> c_arena c -> lnk_same t t1 a) as (t1 & -> & C & Hlk & Hlk2 & Ho).
    { assert (Hlc : live t (c_arena c)) by (apply Hl; left). clear Hl IH Hnd Hc.
      destruct (c_arena c) as [l|m]; cbn in Hlc.
      - destruct (live_get_lf t l) as [n Hn]; [done|]. rewrite Hn. cbn.
        eexists. split; [done|]. destruct (set_lf_link t l n p Hn) as (? & ? & ?).
        split; [done|]. split; [by intros ? [= ->]|]. done.
      - destruct (live_get_in t m) as [n Hn]; [done|]. rewrite Hn. cbn.
        eexists. split; [done|]. unfold with_parent.
        destruct (set_in_link t m n (Some (AInt p)) (n_slot n) Hn) as (? & Hx & ?).
        split; [done|]. split; [done|]. split; [|done].
        intros m' po s [= <-] Hm. rewrite Hx. apply get_in_inv in Hn as [_ Hn]. congruence. }
    destruct (IH t1 p) as (t' & E & C' & Ho' & Hs' & Hs2'); [|done|].
    { intros a Ha. apply (CORE_live _ _ C). apply Hl. by right. }
    exists t'. split; [done|]. split; [by eapply CORE_trans|]. split; [|split].
    + intros a Ha. cbn in Ha. rewrite elem_of_cons in Ha. eapply lnk_same_trans; [apply Ho|apply Ho']; tauto.
    + cbn [map]. intros l [Hk|Hk]%elem_of_cons; [|by apply Hs'].
      assert (lnk_same t1 t' (ALeaf l)) as Hs by (apply Ho'; by rewrite Hk).
      cbn in Hs. rewrite Hs. by apply Hlk.
    + cbn [map]. intros m po s [Hk|Hk]%elem_of_cons Hm.
      * assert (lnk_same t1 t' (AInt m)) as Hs by (apply Ho'; by rewrite Hk).
        cbn in Hs. rewrite Hs. by apply (Hlk2 m po).
      * apply (Hs2' m po s Hk). specialize (Ho (AInt m)). cbn in Ho. rewrite Ho; [done|].
        intros Heq. rewrite <- Heq in Hc. done.
Qed.

(** ** Transfer of invariants across [CORE] *)
Lemma WT_core E t t' H lv : CORE t t' -> WT E t H lv -> WT E t' H lv.
Proof.
  intros C W. pose proof (CORE_chs _ _ C) as Hc. pose proof (CORE_live _ _ C) as Hl.
  assert (Hk : forall m, is_Some (kids t' m) <-> is_Some (kids t m)) by (intros m; by rewrite (co_kids C)).
  constructor.
  - rewrite (co_root C). destruct (wt_root W) as (r & ? & ? & ?). exists r. by rewrite Hk.
  - intros p k a. rewrite Hc, Hl. apply (wt_ch W).
  - intros p k p' k' a. rewrite !Hc. apply (wt_uniq W).
  - intros a. rewrite Hl, (co_root C). intros Ha Hr. destruct (wt_up W a Ha Hr) as (p & k & Hp).
    exists p, k. by rewrite Hc.
  - intros m. rewrite Hk. apply (wt_lv W).
  - intros m. rewrite Hk, (co_root C), Hc. apply (wt_ne W).
  - intros m. rewrite Hk, (co_an C). apply (wt_fresh W).
  - intros l. rewrite (co_el C), (co_al C). apply (wt_lfresh W).
Qed.
Lemma gen_core t t' : CORE t t' -> forall n a, gen t' n a = gen t n a.
Proof.
  intros C n. induction n as [|n IH]; intros a; [done|]. cbn.
  assert (achs t' a = achs t a) as -> by (destruct a; [done|apply (CORE_chs _ _ C)]).
  apply list_bind_ext; [apply IH|done].
Qed.
Lemma WT_ext E t H lv lv' : (forall m, is_Some (kids t m) -> lv' m = lv m) -> WT E t H lv -> WT E t H lv'.
Proof.
  intros Hlv W. constructor.
  - destruct (wt_root W) as (r & ? & ? & ?). exists r. by rewrite Hlv.
  - intros p k a Hc. pose proof (chs_lookup_live _ _ _ _ Hc) as Hp.
    destruct (wt_ch W _ _ _ Hc) as [Ha Hv]. split; [done|]. rewrite Hlv, Hv by done.
    destruct a; cbn; [done|]. by rewrite Hlv.
  - apply (wt_uniq W).
  - apply (wt_up W).
  - intros m Hm. rewrite Hlv by done. by apply (wt_lv W).
  - apply (wt_ne W).
  - apply (wt_fresh W).
  - apply (wt_lfresh W).
Qed.
Lemma WT_mono (E E' : nat -> Prop) t H lv : (forall m, E m -> E' m) -> WT E t H lv -> WT E' t H lv.
Proof.
  intros HE W. constructor; try apply W. intros m Hm Hr Hn. apply (wt_ne W); auto.
Qed.
End links.
