(** Drain2.v — the two loops of Drain::drop compute the pruned tree. *)
From Verif Require Export Drain1.

Section order.
Context {B : BTreeTrait}.
Notation btree := (btree B).
Notation child := (child B).
Implicit Types (t : btree) (i j m p q k s : nat) (a b : aidx) (c : child) (cs : list child).
Context {t : btree} {H : nat} {lv : nat -> nat} (W : WT NoE t H lv).
Notation lu := (lun t lv).

(** order of leaves *)
Definition bef (x y : nat) : Prop := exists X Y Z, leaves t = X ++ x :: Y ++ y :: Z.
Lemma bef_irrefl x : ~ bef x x.
Proof.
  intros (X & Y & Z & E). pose proof (leaves_nodup W) as N. rewrite E in N.
  apply NoDup_app in N as (_ & _ & N). apply NoDup_cons in N as [N _]. apply N. set_solver.
Qed.
Lemma bef_asym x y : bef x y -> ~ bef y x.
Proof.
  intros (X & Y & Z & E) (X' & Y' & Z' & E'). pose proof (leaves_nodup W) as N.
  assert (HH : (X ++ x :: Y) ++ y :: Z = X' ++ y :: Y' ++ x :: Z') by (rewrite <- app_assoc; cbn; congruence).
  assert (N' : NoDup ((X ++ x :: Y) ++ y :: Z)) by (rewrite <- app_assoc; cbn; by rewrite <- E).
  pose proof (nodup_split_unique _ _ _ _ _ N' HH) as [E1 E2].
  rewrite E, E2 in N. apply NoDup_app in N as (_ & _ & N). apply NoDup_cons in N as [N _]. apply N. set_solver.
Qed.
Lemma bef_app X x Y y Z : leaves t = X ++ Y ++ Z -> x ∈ X -> y ∈ Y -> bef x y.
Proof.
  intros E (X1 & X2 & ->)%elem_of_list_split (Y1 & Y2 & ->)%elem_of_list_split.
  exists X1, (X2 ++ Y1), (Y2 ++ Z). rewrite E. repeat (rewrite <- app_assoc; cbn). done.
Qed.
Lemma bef_chs q k k' a b x y : chs t q !! k = Some a -> chs t q !! k' = Some b -> k < k' ->
  x ∈ lu a -> y ∈ lu b -> bef x y.
Proof.
  intros Ha Hb Hk Hx Hy. assert (is_Some (kids t q)) as Hq by by eapply chs_lookup_live.
  destruct (lu_seg W (AInt q) Hq) as (X & Y & E). rewrite (lu_int W) in E by done.
  rewrite <- (take_drop k' (chs t q)), bind_app in E. rewrite (drop_S _ _ _ Hb) in E. cbn [mbind list_bind] in E.
  rewrite <- !app_assoc in E. eapply (bef_app (X ++ (take k' (chs t q) ≫= lu)) x (lu b) y); [|  |done].
  - rewrite E. rewrite <- !app_assoc. done.
  - apply elem_of_app. right. apply elem_of_list_bind. exists a. split; [done|].
    apply elem_of_list_lookup. exists k. by rewrite lookup_take.
Qed.
Lemma bef_nodes a b x y : live t a -> live t b -> alv lv a = alv lv b -> a <> b -> x ∈ lu a -> y ∈ lu b ->
  bef x y \/ bef y x.
Proof.
  intros Ha Hb Hab Hne Hx Hy. destruct (lu_pair W a b Ha Hb Hab Hne) as (X & Y & Z & [E|E]); [left|right].
  - eapply (bef_app (X ++ lu a ++ Y) x (lu b) y Z); [by rewrite E, <- !app_assoc|set_solver|done].
  - eapply (bef_app (X ++ lu b ++ Y) y (lu a) x Z); [by rewrite E, <- !app_assoc|set_solver|done].
Qed.
Lemma bef_all a b x y x' y' : live t a -> live t b -> alv lv a = alv lv b -> a <> b -> x ∈ lu a -> y ∈ lu b ->
  x' ∈ lu a -> y' ∈ lu b -> bef x y -> bef x' y'.
Proof.
  intros Ha Hb Hab Hne Hx Hy Hx' Hy' Hbf. destruct (lu_pair W a b Ha Hb Hab Hne) as (X & Y & Z & [E|E]).
  - eapply (bef_app (X ++ lu a ++ Y) x' (lu b) y' Z); [by rewrite E, <- !app_assoc|set_solver|done].
  - exfalso. apply (bef_asym _ _ Hbf).
    eapply (bef_app (X ++ lu b ++ Y) y (lu a) x Z); [by rewrite E, <- !app_assoc|set_solver|done].
Qed.
Lemma bef_left P x Q y : leaves t = P ++ x :: Q -> bef y x -> y ∈ P.
Proof.
  intros E (X & Y & Z & E'). assert (HH : P ++ x :: Q = (X ++ y :: Y) ++ x :: Z) by (rewrite <- app_assoc; cbn; congruence).
  pose proof (leaves_nodup W) as N. rewrite E in N. apply (nodup_split_unique _ _ _ _ _ N) in HH as [-> _]. set_solver.
Qed.
Lemma bef_right P x Q y : leaves t = P ++ x :: Q -> bef x y -> y ∈ Q.
Proof.
  intros E (X & Y & Z & E'). assert (HH : P ++ x :: Q = X ++ x :: Y ++ y :: Z) by congruence.
  pose proof (leaves_nodup W) as N. rewrite E in N. apply (nodup_split_unique _ _ _ _ _ N) in HH as [_ ->]. set_solver.
Qed.
End order.

(** root-first paths by index *)
Definition PTH {B : BTreeTrait} (t : btree B) (sp : list idx) : Prop :=
  head sp = Some (mkIdx (root t) 0) /\
  forall j (x y : idx), sp !! j = Some y -> sp !! S j = Some x ->
    exists q, i_arena y = AInt q /\ chs t q !! i_arr x = Some (i_arena x).
Lemma rpath_PTH {B : BTreeTrait} (t : btree B) r a : rpath t r a -> PTH t (rev r).
Proof.
  intros Hr. induction Hr as [|i a k p Hp [IH0 IH]].
  - split; [done|]. intros [|j] x y; cbn; by intros.
  - cbn [rev]. split.
    + destruct (rpath_head _ _ _ Hp) as (k0 & r' & ->). cbn [rev] in *. by rewrite !head_snoc_snoc || (destruct (rev r'); done).
    + intros j x y Hy Hx. destruct (decide (S j < length (rev p))) as [Hlt|Hge].
      * rewrite lookup_app_l in Hy by lia. rewrite lookup_app_l in Hx by lia. by eapply IH.
      * assert (S j = length (rev p)) as Hj.
        { apply lookup_lt_Some in Hx. rewrite app_length in Hx. cbn in Hx. lia. }
        rewrite list_lookup_middle in Hx by done. injection Hx as <-. cbn.
        destruct (rpath_head _ _ _ Hp) as (k0 & r' & ->). cbn [rev] in *. rewrite app_length in Hj. cbn in Hj.
        assert (j = length (rev r')) as -> by lia. rewrite <- app_assoc in Hy. cbn in Hy.
        rewrite list_lookup_middle in Hy by done. injection Hy as <-. cbn. eauto.
Qed.

Lemma filter_mid {A} (P : A -> Prop) `{!forall x, Decision (P x)} (l : list A) ds de : ds <= de -> de <= length l ->
  (forall k x, l !! k = Some x -> k < ds -> P x) -> (forall k x, l !! k = Some x -> ds <= k -> k < de -> ~ P x) ->
  (forall k x, l !! k = Some x -> de <= k -> P x) -> filter P l = take ds l ++ drop de l.
Proof.
  intros H1 H2 Ha Hb Hc. rewrite <- (take_drop de l) at 1. rewrite <- (take_drop ds (take de l)) at 1.
  rewrite !filter_app, take_take. replace (ds `min` de) with ds by lia.
  rewrite (filter_all P (take ds l)). 2:{ intros x [k Hk]%elem_of_list_lookup. apply lookup_take_Some in Hk as [? ?]. eauto. }
  rewrite (filter_all P (drop de l)). 2:{ intros x [k Hk]%elem_of_list_lookup. rewrite lookup_drop in Hk. eapply Hc; [done|lia]. }
  destruct (filter P (drop ds (take de l))) as [|x l'] eqn:E; [by rewrite app_nil_r|exfalso].
  assert (x ∈ filter P (drop ds (take de l))) as [HP Hx]%elem_of_list_filter by (rewrite E; left).
  apply elem_of_list_lookup in Hx as [k Hk]. rewrite lookup_drop in Hk. apply lookup_take_Some in Hk as [Hk ?].
  eapply Hb; [exact Hk|lia|lia|done].
Qed.

Section loops.
Context {B : BTreeTrait}.
Notation btree := (btree B).
Notation child := (child B).
Implicit Types (t : btree) (i j m p q k s : nat) (a b : aidx) (c : child) (cs : list child).
Context {t : btree} {H : nat} {lv : nat -> nat} (W : WT NoE t H lv) (K : LK t) (M : list nat).
Notation kp := (kpn t lv M).
Notation kpc := (kpcn t lv M).
Notation fk := (fkn t lv M).
Notation lu := (lun t lv).
Notation bef := (bef (t := t)).
Context (sp ep : list idx) (ls le : nat).
Context (Hsl : length sp = S (S H)) (Hel : length ep = S (S H)) (Psp : PTH t sp) (Pep : PTH t ep).
Context (Hls : i_arena <$> sp !! S H = Some (ALeaf ls)) (Hle : i_arena <$> ep !! S H = Some (ALeaf le)).
Context (Hord : ls = le \/ bef ls le).
Context (HP : forall x, bef x ls -> x ∉ M) (HU : forall x, bef le x -> x ∉ M) (HY : forall x, bef ls x -> bef x le -> x ∈ M).

Lemma pth_at path j x : PTH t path -> path !! j = Some x -> live t (i_arena x) /\ alv lv (i_arena x) + j = S H.
Proof.
  intros [P0 P1]. revert x. induction j as [|j IH]; intros x Hx.
  - rewrite head_lookup, Hx in P0. injection P0 as ->. cbn. split; [apply (root_live W)|rewrite (alv_root W); lia].
  - assert (is_Some (path !! j)) as [y Hy].
    { apply lookup_lt_is_Some. apply lookup_lt_Some in Hx. lia. }
    destruct (IH y Hy) as [Hl Hlv]. destruct (P1 _ _ _ Hy Hx) as (q & Eq & Hc). rewrite Eq in *. cbn in Hlv.
    apply (wt_ch W) in Hc as [? ?]. split; [done|lia].
Qed.
Lemma pth_lu path l : PTH t path -> i_arena <$> path !! S H = Some (ALeaf l) -> forall n j x, j + n = S H -> path !! j = Some x -> l ∈ lu (i_arena x).
Proof.
  intros PP Hl. induction n as [|n IH]; intros j x Hj Hx.
  - assert (j = S H) as -> by lia. rewrite Hx in Hl. cbn in Hl. injection Hl as ->. rewrite lu_leaf. left.
  - assert (is_Some (path !! S j)) as [y Hy].
    { destruct (path !! S H) as [z|] eqn:E; [|done]. apply lookup_lt_Some in E. apply lookup_lt_is_Some. lia. }
    specialize (IH (S j) y ltac:(lia) Hy). destruct (proj2 PP _ _ _ Hx Hy) as (q & -> & Hc).
    rewrite (lu_int W) by by eapply chs_lookup_live. apply elem_of_list_bind. exists (i_arena y).
    split; [done|]. by eapply elem_of_list_lookup_2.
Qed.
Lemma sp_in j x : sp !! j = Some x -> ls ∈ lu (i_arena x).
Proof.
  intros Hx. pose proof (lookup_lt_Some _ _ _ Hx). apply (pth_lu sp ls Psp Hls (S H - j) j); [lia|done].
Qed.
Lemma ep_in j x : ep !! j = Some x -> le ∈ lu (i_arena x).
Proof.
  intros Hx. pose proof (lookup_lt_Some _ _ _ Hx). apply (pth_lu ep le Pep Hle (S H - j) j); [lia|done].
Qed.
Lemma path_ne j x y : sp !! j = Some x -> ep !! j = Some y -> i_arena x <> i_arena y -> bef ls le.
Proof.
  intros Hx Hy Hne. destruct Hord as [He|?]; [|done]. exfalso.
  destruct (pth_at sp j x Psp Hx) as [L1 V1]. destruct (pth_at ep j y Pep Hy) as [L2 V2].
  pose proof (sp_in _ _ Hx) as I1. pose proof (ep_in _ _ Hy) as I2. rewrite <- He in I2.
  destruct (bef_nodes W (i_arena x) (i_arena y) ls ls L1 L2 ltac:(lia) Hne I1 I2) as [Hb|Hb]; by apply (bef_irrefl W) in Hb.
Qed.

(** children around the paths *)
Lemma left_fk q k k' x a : chs t q !! k = Some (i_arena x) -> ls ∈ lu (i_arena x) -> chs t q !! k' = Some a -> k' < k -> fk a.
Proof. intros Hk Hx Ha Hlt. apply Forall_forall. intros y Hy. apply HP. by eapply (bef_chs W q k' k). Qed.
Lemma right_fk q k k' x a : chs t q !! k = Some (i_arena x) -> le ∈ lu (i_arena x) -> chs t q !! k' = Some a -> k < k' -> fk a.
Proof. intros Hk Hx Ha Hlt. apply Forall_forall. intros y Hy. apply HU. by eapply (bef_chs W q k k'). Qed.
Lemma nkp_all a : (forall y, y ∈ lu a -> y ∈ M) -> ~ kp a.
Proof. intros Ha (y & Hy & Hn)%Exists_exists. auto. Qed.
Lemma chs_ne_root q k a : chs t q !! k = Some a -> a <> root t.
Proof. intros Hk ->. by apply (wt_root_nochild W) in Hk. Qed.
Lemma chs_fk_kp q k a : chs t q !! k = Some a -> fk a -> kp a.
Proof. intros Hk. apply (fk_kp W); [by apply (wt_ch W) in Hk as [? _]|by eapply chs_ne_root]. Qed.

(** nodes off the paths keep all or nothing *)
Definition onp i : Prop := AInt i ∈ map i_arena sp \/ AInt i ∈ map i_arena ep.
Global Instance onp_dec i : Decision (onp i).
Proof. unfold onp. apply _. Defined.
Lemma off_path i : is_Some (kids t i) -> ~ onp i -> fk (AInt i) \/ ~ kp (AInt i).
Proof.
  intros Hi Hn. pose proof (wt_lv W i Hi) as Hlv.
  assert (is_Some (sp !! (H - lv i))) as [x Hx] by (apply lookup_lt_is_Some; lia).
  assert (is_Some (ep !! (H - lv i))) as [y Hy] by (apply lookup_lt_is_Some; lia).
  destruct (pth_at sp _ x Psp Hx) as [L1 V1]. destruct (pth_at ep _ y Pep Hy) as [L2 V2].
  pose proof (sp_in _ _ Hx) as I1. pose proof (ep_in _ _ Hy) as I2.
  assert (AInt i <> i_arena x) as N1. { intros E. apply Hn. left. rewrite E. apply elem_of_list_fmap_1. by eapply elem_of_list_lookup_2. }
  assert (AInt i <> i_arena y) as N2. { intros E. apply Hn. right. rewrite E. apply elem_of_list_fmap_1. by eapply elem_of_list_lookup_2. }
  destruct (lu (AInt i)) as [|z l] eqn:El; [left; unfold fkn; by rewrite El|].
  assert (z ∈ lu (AInt i)) as Hz by (rewrite El; left).
  destruct (bef_nodes W (AInt i) (i_arena x) z ls Hi L1 ltac:(cbn in *; lia) N1 Hz I1) as [Hb|Hb].
  - left. apply Forall_forall. intros w Hw. apply HP. apply (bef_all W (AInt i) (i_arena x) z ls w ls Hi L1 ltac:(cbn in *; lia) N1 Hz I1 Hw I1 Hb).
  - destruct (bef_nodes W (AInt i) (i_arena y) z le Hi L2 ltac:(cbn in *; lia) N2 Hz I2) as [Hb2|Hb2].
    + right. apply nkp_all. intros w Hw. apply HY.
      * apply (bef_all W (i_arena x) (AInt i) ls z ls w L1 Hi ltac:(cbn in *; lia) (not_eq_sym N1) I1 Hz I1 Hw Hb).
      * apply (bef_all W (AInt i) (i_arena y) z le w le Hi L2 ltac:(cbn in *; lia) N2 Hz I2 Hw I2 Hb2).
    + left. apply Forall_forall. intros w Hw. apply HU.
      apply (bef_all W (i_arena y) (AInt i) le z le w L2 Hi ltac:(cbn in *; lia) (not_eq_sym N2) I2 Hz I2 Hw Hb2).
Qed.

(** ** the invariant of the loops: the nodes [C] are cut *)
Record LI (C : list nat) (T : btree) (del : list aidx) : Prop := {
  li_root : root T = root t;
  li_rc : root_cache T = root_cache t;
  li_an : anext (in_nodes T) = anext (in_nodes t);
  li_al : anext (leaf_nodes T) = anext (leaf_nodes t);
  li_el : forall l, el T l = if decide (l ∈ M) then None else el t l;
  li_llnk : forall l, llnk T l = if decide (l ∈ M) then None else llnk t l;
  li_kids : forall i, kids T i = if decide (i ∈ C) then filter kpc <$> kids t i else kids t i;
  li_par : forall i, fst <$> lnk T i = fst <$> lnk t i;
  li_lk : forall p k m, chs T p !! k = Some (AInt m) -> lnk T m = Some (Some (AInt p), k);
  li_nk : forall d, d ∈ del -> exists m, d = AInt m /\ ~ kp d /\ d <> root t;
  li_del : forall p m, p ∈ C -> AInt m ∈ chs t p -> ~ kp (AInt m) -> AInt m ∈ del;
}.

Lemma li_chs_sub C T del p a : LI C T del -> a ∈ chs T p -> a ∈ chs t p.
Proof.
  intros I. unfold chs. rewrite (li_kids _ _ _ I). case_decide; [|done].
  destruct (kids t p) as [cs|]; [|done]. cbn. rewrite filter_arena. by intros [_ ?]%elem_of_list_filter.
Qed.
Lemma li_live C T del i : LI C T del -> is_Some (kids T i) <-> is_Some (kids t i).
Proof. intros I. rewrite (li_kids _ _ _ I). case_decide; [apply fmap_is_Some|done]. Qed.

(** cutting one more node *)
Lemma li_edit C T del q cs T' xs : LI C T del -> kids t q = Some cs -> EDIT T T' q (filter kpc cs) ->
  (forall d, d ∈ xs -> exists m, d = AInt m /\ ~ kp d /\ d ∈ map c_arena cs) ->
  (forall m, AInt m ∈ map c_arena cs -> ~ kp (AInt m) -> AInt m ∈ xs) ->
  LI (q :: C) T' (del ++ xs).
Proof.
  intros I Hk D X1 X2. constructor.
  - by rewrite (ed_root _ _ _ _ D), (li_root _ _ _ I).
  - by rewrite (ed_rc _ _ _ _ D), (li_rc _ _ _ I).
  - by rewrite (ed_an _ _ _ _ D), (li_an _ _ _ I).
  - by rewrite (ed_al _ _ _ _ D), (li_al _ _ _ I).
  - intros l. by rewrite (ed_el _ _ _ _ D), (li_el _ _ _ I).
  - intros l. by rewrite (ed_llnk _ _ _ _ D), (li_llnk _ _ _ I).
  - intros i. rewrite (ed_kids _ _ _ _ D), (li_kids _ _ _ I). case_decide as D1.
    + subst i. rewrite decide_True by left. by rewrite Hk.
    + destruct (decide (i ∈ C)) as [D2|D2].
      * rewrite decide_True; [done|by right].
      * rewrite decide_False; [done|]. intros [->|?]%elem_of_cons; done.
  - intros i. by rewrite (ed_par _ _ _ _ D), (li_par _ _ _ I).
  - intros p k m Hm. destruct (decide (q = p)) as [->|Hne].
    + apply (ed_link _ _ _ _ D). rewrite <- Hm. unfold chs. by rewrite (ed_kids _ _ _ _ D), decide_True.
    + assert (Hm' : chs T p !! k = Some (AInt m)).
      { rewrite <- Hm. unfold chs. by rewrite (ed_kids _ _ _ _ D), decide_False. }
      rewrite (ed_other _ _ _ _ D); [by apply (li_lk _ _ _ I)|].
      intros Hin. rewrite filter_arena in Hin. apply elem_of_list_filter in Hin as [_ Hin].
      rewrite <- (chs_kids _ _ _ Hk) in Hin. apply elem_of_list_lookup in Hin as [k1 Hin].
      apply elem_of_list_lookup_2 in Hm'. apply (li_chs_sub _ _ _ _ _ I) in Hm'. apply elem_of_list_lookup in Hm' as [k2 Hm'].
      destruct (wt_uniq W _ _ _ _ _ Hin Hm'); done.
  - intros d [Hd|Hd]%elem_of_app; [by apply (li_nk _ _ _ I)|]. destruct (X1 d Hd) as (m & -> & Hn & Hin).
    exists m. split; [done|]. split; [done|]. rewrite <- (chs_kids _ _ _ Hk) in Hin.
    apply elem_of_list_lookup in Hin as [k Hin]. by eapply chs_ne_root.
  - intros p m [->|Hp]%elem_of_cons Hm Hn; apply elem_of_app.
    + right. apply X2; [|done]. by rewrite <- (chs_kids _ _ _ Hk).
    + left. by eapply (li_del _ _ _ I).
Qed.

(** the children of an uncut node in the middle of the loops *)
Lemma li_node C T del q cs : LI C T del -> q ∉ C -> kids t q = Some cs -> 0 < lv q ->
  exists n, get_in T q = Ok n /\ n_children n = cs /\ NoDup (map c_arena cs) /\
    (forall a, a ∈ map c_arena cs -> exists m, a = AInt m /\ is_Some (kids T m)) /\ AInt q ∉ map c_arena cs /\
    (forall k m, map c_arena cs !! k = Some (AInt m) -> lnk T m = Some (Some (AInt q), k)).
Proof.
  intros I Hq Hk Hlv. assert (HkT : kids T q = Some cs) by (rewrite (li_kids _ _ _ I), decide_False; done).
  destruct (get_in_kids _ _ _ HkT) as (po & s & Hg & _). eexists. split; [exact Hg|]. split; [done|].
  rewrite <- (chs_kids _ _ _ Hk). split; [apply (wt_nodup W)|]. split; [|split].
  - intros a Ha. destruct (wt_int_child W _ _ Ha Hlv) as (m & -> & _). exists m. split; [done|].
    apply (li_live _ _ _ _ I). apply (wt_live_child W _ _ Ha).
  - intros [k Hx]%elem_of_list_lookup. apply (wt_ch W) in Hx as [_ Hx]. cbn in Hx. lia.
  - intros k m Hm. apply (li_lk _ _ _ I). by rewrite (chs_kids _ _ _ HkT), <- (chs_kids _ _ _ Hk).
Qed.
(** a cut node is empty iff it is not kept *)
Lemma li_empty C T del q : LI C T del -> q ∈ C -> is_Some (kids t q) ->
  exists n, get_in T q = Ok n /\ n_is_empty n = bool_decide (~ kp (AInt q)).
Proof.
  intros I Hq [cs Hk]. assert (HkT : kids T q = Some (filter kpc cs)) by (rewrite (li_kids _ _ _ I), decide_True, Hk; done).
  destruct (get_in_kids _ _ _ HkT) as (po & s & Hg & _). eexists. split; [exact Hg|].
  unfold n_is_empty. cbn. apply bool_decide_ext. rewrite (kp_int W) by (by rewrite Hk). rewrite (chs_kids _ _ _ Hk). split.
  - intros E (a & (c & -> & Hc)%elem_of_list_fmap & Ha). assert (c ∈ filter kpc cs) as Hx by (by apply elem_of_list_filter).
    rewrite E in Hx. by apply elem_of_nil in Hx.
  - intros Hn. destruct (filter kpc cs) as [|c l] eqn:E; [done|exfalso].
    assert (c ∈ filter kpc cs) as [Hc Hin]%elem_of_list_filter by (rewrite E; left).
    apply Hn. exists (c_arena c). split; [by apply elem_of_list_fmap_1|done].
Qed.

(** removing the children [ds .. de] of a node *)
Lemma slice_del q cs ds de : kids t q = Some cs -> 0 < lv q -> ds <= de -> de <= length cs ->
  (forall k a, chs t q !! k = Some a -> ds <= k -> k < de -> ~ kp a) ->
  (forall k a, chs t q !! k = Some a -> k < ds \/ de <= k -> kp a) ->
  filter kpc cs = take ds cs ++ drop de cs /\
  (forall d, d ∈ map c_arena (take (de - ds) (drop ds cs)) -> exists m, d = AInt m /\ ~ kp d /\ d ∈ map c_arena cs) /\
  (forall m, AInt m ∈ map c_arena cs -> ~ kp (AInt m) -> AInt m ∈ map c_arena (take (de - ds) (drop ds cs))).
Proof.
  intros Hk Hlv H1 H2 Hn Hkp.
  assert (Hx : forall k c, cs !! k = Some c -> chs t q !! k = Some (c_arena c)).
  { intros k c Hc. by rewrite (chs_kids _ _ _ Hk), list_lookup_fmap, Hc. }
  split; [|split].
  - apply filter_mid; [done|done|..]; intros k c Hc; unfold kpcn; eauto.
  - intros d (c & -> & [k Hc]%elem_of_list_lookup)%elem_of_list_fmap. apply lookup_take_Some in Hc as [Hc Hlt].
    rewrite lookup_drop in Hc. pose proof (Hx _ _ Hc) as Hy.
    assert (c_arena c ∈ chs t q) as Hin by by eapply elem_of_list_lookup_2.
    destruct (wt_int_child W _ _ Hin Hlv) as (m & Em & _). exists m. split; [done|]. split; [|by rewrite <- (chs_kids _ _ _ Hk)].
    eapply Hn; [exact Hy|lia|lia].
  - intros m (c & Ec & [k Hc]%elem_of_list_lookup)%elem_of_list_fmap Hnk. rewrite Ec. apply elem_of_list_fmap_1.
    apply elem_of_list_lookup. exists (k - ds). pose proof (Hx _ _ Hc) as Hy.
    destruct (decide (k < ds \/ de <= k)) as [D|D]; [exfalso; apply Hnk; rewrite Ec; by eapply Hkp|].
    rewrite lookup_take by lia. rewrite lookup_drop. by replace (ds + (k - ds)) with k by lia.
Qed.

Definition CJ (j : nat) (C : list nat) : Prop := forall i, i ∈ C <-> onp i /\ j <= H - lv i.
Lemma onp_live i : onp i -> is_Some (kids t i).
Proof.
  intros [(x & E & [j Hx]%elem_of_list_lookup)%elem_of_list_fmap|(x & E & [j Hx]%elem_of_list_lookup)%elem_of_list_fmap].
  - destruct (pth_at sp j x Psp Hx) as [Hl _]. by rewrite <- E in Hl.
  - destruct (pth_at ep j x Pep Hx) as [Hl _]. by rewrite <- E in Hl.
Qed.
Lemma onp_at i x y j : onp i -> sp !! j = Some x -> ep !! j = Some y -> H - lv i = j -> AInt i = i_arena x \/ AInt i = i_arena y.
Proof.
  intros Ho Hx Hy Hj. pose proof (wt_lv W i (onp_live i Ho)) as Hle'.
  destruct Ho as [(z & E & [k Hz]%elem_of_list_lookup)%elem_of_list_fmap|(z & E & [k Hz]%elem_of_list_lookup)%elem_of_list_fmap].
  - destruct (pth_at sp k z Psp Hz) as [_ Hv]. rewrite <- E in Hv. cbn in Hv. left. rewrite E. f_equal.
    assert (k = j) as -> by lia. congruence.
  - destruct (pth_at ep k z Pep Hz) as [_ Hv]. rewrite <- E in Hv. cbn in Hv. right. rewrite E. f_equal.
    assert (k = j) as -> by lia. congruence.
Qed.
Lemma onp_sp j x q : sp !! j = Some x -> i_arena x = AInt q -> onp q.
Proof. intros Hx E. left. rewrite <- E. apply elem_of_list_fmap_1. by eapply elem_of_list_lookup_2. Qed.
Lemma onp_ep j x q : ep !! j = Some x -> i_arena x = AInt q -> onp q.
Proof. intros Hx E. right. rewrite <- E. apply elem_of_list_fmap_1. by eapply elem_of_list_lookup_2. Qed.
Lemma sp_get j : j <= S H -> exists x, sp !! j = Some x.
Proof. intros Hj. destruct (sp !! j) eqn:E; [eauto|]. apply lookup_ge_None in E. lia. Qed.
Lemma ep_get j : j <= S H -> exists x, ep !! j = Some x.
Proof. intros Hj. destruct (ep !! j) eqn:E; [eauto|]. apply lookup_ge_None in E. lia. Qed.
Lemma sp_int j x : j <= H -> sp !! j = Some x -> exists q, i_arena x = AInt q /\ is_Some (kids t q) /\ lv q = H - j.
Proof.
  intros Hj Hx. destruct (pth_at sp j x Psp Hx) as [Hl Hv]. destruct (i_arena x) as [l|q]; cbn in *; [lia|].
  exists q. split; [done|]. split; [done|lia].
Qed.
Lemma ep_int j x : j <= H -> ep !! j = Some x -> exists q, i_arena x = AInt q /\ is_Some (kids t q) /\ lv q = H - j.
Proof.
  intros Hj Hx. destruct (pth_at ep j x Pep Hx) as [Hl Hv]. destruct (i_arena x) as [l|q]; cbn in *; [lia|].
  exists q. split; [done|]. split; [done|lia].
Qed.

Lemma loop1_ok j : forall C T del, j <= H -> LI C T del -> CJ j C ->
  exists j' C' T' del' x y, drop_loop1 j T sp ep del = Ok (j', del', T') /\ LI C' T' del' /\ CJ j' C' /\ j' <= j /\
    sp !! j' = Some x /\ ep !! j' = Some y /\ i_arena x = i_arena y.
Proof.
  induction j as [|j IH]; intros C T del Hj I HC; unfold CJ in HC.
  - destruct (sp_get 0) as [x Hx]; [lia|]. destruct (ep_get 0) as [y Hy]; [lia|].
    assert (i_arena x = i_arena y) as E.
    { destruct Psp as [P0 _]. destruct Pep as [P1 _]. rewrite head_lookup in P0, P1. congruence. }
    cbn [drop_loop1]. unfold vec_get. rewrite Hx, Hy. cbn [ropt rbind]. rewrite decide_True by done.
    exists 0, C, T, del, x, y. done.
  - destruct (sp_get (S j)) as [s Hs]; [lia|]. destruct (ep_get (S j)) as [e He]; [lia|].
    cbn [drop_loop1]. unfold vec_get. rewrite Hs, He. cbn [ropt rbind].
    destruct (decide (i_arena s = i_arena e)) as [Ese|Hne].
    { exists (S j), C, T, del, s, e. done. }
    pose proof (path_ne _ _ _ Hs He Hne) as Hb.
    destruct (sp_get j) as [s' Hs']; [lia|]. destruct (ep_get j) as [e' He']; [lia|].
    destruct (sp_int _ _ Hj Hs) as (si & Esi & Hsi & Lsi). destruct (ep_int _ _ Hj He) as (ei & Eei & Hei & Lei).
    destruct (proj2 Psp _ _ _ Hs' Hs) as (q & Eq & Hq). destruct (proj2 Pep _ _ _ He' He) as (q2 & Eq2 & Hq2).
    destruct (sp_int j s' ltac:(lia) Hs') as (q' & Eq' & [csq Hkq] & Lq). assert (q' = q) as -> by congruence. clear Eq'.
    destruct (ep_int j e' ltac:(lia) He') as (q' & Eq' & [csq2 Hkq2] & Lq2). assert (q' = q2) as -> by congruence. clear Eq'.
    pose proof (sp_in _ _ Hs) as Is. pose proof (ep_in _ _ He) as Ie.
    pose proof (sp_in _ _ Hs') as Is'. pose proof (ep_in _ _ He') as Ie'.
    assert (si ∈ C) as Csi. { apply HC. split; [exact (onp_sp _ _ _ Hs Esi)|lia]. }
    assert (ei ∈ C) as Cei. { apply HC. split; [exact (onp_ep _ _ _ He Eei)|lia]. }
    destruct (li_empty _ _ _ _ I Csi Hsi) as (sn & Gsn & Nsn). destruct (li_empty _ _ _ _ I Cei Hei) as (en & Gen & Nen).
    rewrite Esi, Eei. cbn [get_internal unwrap_internal rbind]. rewrite Gsn. cbn [rbind]. rewrite Gen. cbn [rbind].
    rewrite Nsn, Nen. rewrite Hs', He'. cbn [ropt rbind]. rewrite Eq, Eq2.
    set (ds := if bool_decide (¬ kp (AInt si)) then i_arr s else S (i_arr s)).
    set (de := if bool_decide (¬ kp (AInt ei)) then S (i_arr e) else i_arr e).
    assert (Cq : q ∉ C). { rewrite HC. intros [_ ?]. lia. }
    assert (Cq2 : q2 ∉ C). { rewrite HC. intros [_ ?]. lia. }
    rewrite Esi in Hq, Is. rewrite Eei in Hq2, Ie. rewrite Eq in Is'. rewrite Eq2 in Ie'.
    assert (Hlen : i_arr s < length csq). { apply lookup_lt_Some in Hq. by rewrite (chs_kids _ _ _ Hkq), map_length in Hq. }
    assert (Hlen2 : i_arr e < length csq2). { apply lookup_lt_Some in Hq2. by rewrite (chs_kids _ _ _ Hkq2), map_length in Hq2. }
    assert (Hds : i_arr s <= ds /\ ds <= S (i_arr s)) by (clear; unfold ds; destruct (bool_decide (¬ kp (AInt si))); lia).
    assert (Hde : i_arr e <= de /\ de <= S (i_arr e)) by (clear; unfold de; destruct (bool_decide (¬ kp (AInt ei))); lia).
    (* children of the start node before ds are kept, of the end node after de *)
    assert (Hleft : forall k a, chs t q !! k = Some a -> k < ds -> kp a).
    { intros k a Ha Hk. destruct (decide (k < i_arr s)) as [?|?].
      - eapply chs_fk_kp; [exact Ha|]. apply (left_fk q (i_arr s) k s a); [by rewrite Esi|by rewrite Esi|done|done].
      - unfold ds in Hk. case_bool_decide as D; [lia|]. assert (k = i_arr s) as -> by lia. rewrite Hq in Ha. injection Ha as <-.
        exact D. }
    assert (Hright : forall k a, chs t q2 !! k = Some a -> de <= k -> kp a).
    { intros k a Ha Hk. destruct (decide (i_arr e < k)) as [?|?].
      - eapply chs_fk_kp; [exact Ha|]. apply (right_fk q2 (i_arr e) k e a); [by rewrite Eei|by rewrite Eei|done|done].
      - unfold de in Hk. case_bool_decide as D; [lia|]. assert (k = i_arr e) as -> by lia. rewrite Hq2 in Ha. injection Ha as <-.
        exact D. }
    destruct (decide (AInt q = AInt q2)) as [Eqq|Nqq].
    + (* same parent *)
      injection Eqq as <-. assert (csq2 = csq) as -> by congruence. clear Hkq2 Cq2.
      assert (Hse : i_arr s < i_arr e).
      { destruct (Nat.lt_trichotomy (i_arr s) (i_arr e)) as [?|[E0|Hgt]]; [done| |].
        - exfalso. apply Hne. rewrite Esi, Eei. congruence.
        - exfalso. apply (bef_asym W _ _ Hb). by eapply (bef_chs W q (i_arr e) (i_arr s)). }
      destruct (li_node C T del q csq I Cq Hkq ltac:(lia)) as (n & Gn & En & Nd & Hint & Hself & Hlk).
      destruct (slice_del q csq ds de Hkq) as (Ef & X1 & X2); [lia|lia|lia| |..].
      { intros k a Ha H1 H2. destruct (decide (k = i_arr s)) as [->|].
        { rewrite Hq in Ha. injection Ha as <-. unfold ds in H1. case_bool_decide; [done|lia]. }
        destruct (decide (k = i_arr e)) as [->|].
        { rewrite Hq2 in Ha. injection Ha as <-. unfold de in H2. case_bool_decide; [done|lia]. }
        apply nkp_all. intros y Hy. apply HY.
        - eapply (bef_chs W q (i_arr s) k); [exact Hq|exact Ha|lia|done|done].
        - eapply (bef_chs W q k (i_arr e)); [exact Ha|exact Hq2|lia|done|done]. }
      { intros k a Ha [?|?]; [by eapply Hleft|by eapply Hright]. }
      destruct (cut_step T q csq ds de n Gn En Nd Hint Hself Hlk) as (T' & ET & DT); [lia|lia|].
      cbn [unwrap_internal rbind]. rewrite Gn. cbn [rbind]. rewrite En.
      rewrite vec_slice_ok by lia. cbn [rbind]. rewrite delete_range_ok by lia. cbn [rbind]. rewrite ET. cbn [rbind].
      rewrite <- Ef in DT. pose proof (li_edit _ _ _ _ _ _ _ I Hkq DT X1 X2) as I'.
      destruct (IH (q :: C) T' (del ++ map c_arena (take (de - ds) (drop ds csq))) ltac:(lia) I')
        as (j' & C' & T2 & del' & x & y & E & I2 & HC2 & Hj2 & HR).
      { intros i. rewrite elem_of_cons, HC. split.
        - intros [->|[? ?]]; [split; [exact (onp_sp _ _ _ Hs' Eq)|lia]|split; [done|lia]].
        - intros [Ho Hd]. destruct (decide (H - lv i = j)) as [D|D]; [|right; split; [done|lia]]. left.
          destruct (onp_at i s' e' j Ho Hs' He' D) as [Ex|Ex]; congruence. }
      exists j', C', T2, del', x, y. split; [exact E|]. split; [done|]. split; [done|]. split; [lia|done].
    + (* different parents *)
      assert (Nq : q <> q2) by congruence.
      assert (Hall : forall x y, x ∈ lu (AInt q) -> y ∈ lu (AInt q2) -> bef x y).
      { intros x y Hx Hy. apply (bef_all W (AInt q) (AInt q2) ls le x y); try done; cbn; [by rewrite Hkq|by rewrite Hkq2|lia]. }
      assert (Hsub : forall p k a, is_Some (kids t p) -> chs t p !! k = Some a -> forall x, x ∈ lu a -> x ∈ lu (AInt p)).
      { intros p k a Hp Ha x Hx. rewrite (lu_int W) by done. apply elem_of_list_bind. exists a. split; [done|]. by eapply elem_of_list_lookup_2. }
      destruct (li_node C T del q csq I Cq Hkq ltac:(lia)) as (n & Gn & En & Nd & Hint & Hself & Hlk).
      destruct (slice_del q csq ds (length csq) Hkq) as (Ef & X1 & X2); [lia|lia|lia| |..].
      { intros k a Ha H1 H2. destruct (decide (k = i_arr s)) as [->|].
        { rewrite Hq in Ha. injection Ha as <-. unfold ds in H1. case_bool_decide; [done|lia]. }
        apply nkp_all. intros y Hy. apply HY.
        - eapply (bef_chs W q (i_arr s) k); [exact Hq|exact Ha|lia|done|done].
        - apply Hall; [|done]. eapply Hsub; [|exact Ha|done]. by rewrite Hkq. }
      { intros k a Ha [?|Hge]; [by eapply Hleft|]. apply lookup_lt_Some in Ha. rewrite (chs_kids _ _ _ Hkq), map_length in Ha. lia. }
      rewrite drop_all, app_nil_r in Ef.
      pose proof (cut_suffix T q csq ds n Gn En) as DT. rewrite <- Ef in DT.
      specialize (DT ltac:(intros a Ha; destruct (Hint a Ha) as (m & -> & _); eauto) Hlk).
      cbn [unwrap_internal rbind]. rewrite Gn. cbn [rbind]. rewrite En.
      rewrite vec_slice_ok by lia. cbn [rbind]. rewrite delete_range_ok by lia. cbn [rbind].
      rewrite drop_all, app_nil_r. rewrite <- Ef.
      set (T1 := set_in T q (with_children n (filter kpc csq))) in *.
      pose proof (li_edit _ _ _ _ _ _ _ I Hkq DT X1 X2) as I1.
      assert (Cq2' : q2 ∉ q :: C) by (intros [?|?]%elem_of_cons; congruence).
      destruct (li_node (q :: C) T1 _ q2 csq2 I1 Cq2' Hkq2 ltac:(lia)) as (n2 & Gn2 & En2 & Nd2 & Hint2 & Hself2 & Hlk2).
      destruct (slice_del q2 csq2 0 de Hkq2) as (Ef2 & Y1 & Y2); [lia|lia|lia| |..].
      { intros k a Ha H1 H2. destruct (decide (k = i_arr e)) as [->|].
        { rewrite Hq2 in Ha. injection Ha as <-. unfold de in H2. case_bool_decide; [done|lia]. }
        apply nkp_all. intros y Hy. apply HY.
        - apply Hall; [done|]. eapply Hsub; [|exact Ha|done]. by rewrite Hkq2.
        - eapply (bef_chs W q2 k (i_arr e)); [exact Ha|exact Hq2|lia|done|done]. }
      { intros k a Ha [?|Hge]; [lia|by eapply Hright]. }
      destruct (cut_step T1 q2 csq2 0 de n2 Gn2 En2 Nd2 Hint2 Hself2 Hlk2) as (T' & ET & DT2); [lia|lia|].
      rewrite Gn2. cbn [rbind]. rewrite En2. rewrite vec_slice_ok by lia. cbn [rbind]. rewrite delete_range_ok by lia. cbn [rbind].
      rewrite ET. cbn [rbind]. rewrite <- Ef2 in DT2.
      pose proof (li_edit _ _ _ _ _ _ _ I1 Hkq2 DT2 Y1 Y2) as I2. rewrite <- app_assoc in I2.
      destruct (IH (q2 :: q :: C) T' _ ltac:(lia) I2) as (j' & C' & T2 & del' & x & y & E & I3 & HC3 & Hj3 & HR).
      { intros i. rewrite !elem_of_cons, HC. split.
        - intros [->|[->|[? ?]]]; [split; [exact (onp_ep _ _ _ He' Eq2)|lia]|split; [exact (onp_sp _ _ _ Hs' Eq)|lia]|split; [done|lia]].
        - intros [Ho Hd]. destruct (decide (H - lv i = j)) as [D|D]; [|right; right; split; [done|lia]].
          destruct (onp_at i s' e' j Ho Hs' He' D) as [Ex|Ex]; [right; left|left]; congruence. }
      exists j', C', T2, del', x, y. split; [exact E|]. split; [done|]. split; [done|]. split; [lia|done].
Qed.

(** at the end every path node is cut or need not be *)
Definition CE (C : list nat) : Prop :=
  (forall i, i ∈ C -> onp i) /\ (forall i, onp i -> i ∉ C -> forall a, a ∈ chs t i -> kp a).

Lemma same_above n : forall j x y, j + n <= S H -> forall x' y', sp !! j = Some x -> ep !! j = Some y ->
  sp !! (j + n) = Some x' -> ep !! (j + n) = Some y' -> i_arena x' = i_arena y' -> i_arena x = i_arena y.
Proof.
  induction n as [|n IH]; intros j x y Hn x' y' Hx Hy Hx' Hy' E.
  - rewrite Nat.add_0_r in *. congruence.
  - destruct (sp_get (S j)) as [x1 Hx1]; [lia|]. destruct (ep_get (S j)) as [y1 Hy1]; [lia|].
    assert (i_arena x1 = i_arena y1) as E1.
    { apply (IH (S j) x1 y1 ltac:(lia) x' y'); try done; by replace (S j + n) with (j + S n) by lia. }
    destruct (proj2 Psp _ _ _ Hx Hx1) as (q & -> & Hq). destruct (proj2 Pep _ _ _ Hy Hy1) as (q2 & -> & Hq2).
    rewrite E1 in Hq. by destruct (wt_uniq W _ _ _ _ _ Hq Hq2) as [-> _].
Qed.
Lemma kp_above n : forall j x x', sp !! j = Some x -> sp !! (j + n) = Some x' -> kp (i_arena x') -> kp (i_arena x).
Proof.
  induction n as [|n IH]; intros j x x' Hx Hx' Hk.
  - rewrite Nat.add_0_r in Hx'. congruence.
  - destruct (sp !! S j) as [x1|] eqn:Hx1.
    2:{ apply lookup_ge_None in Hx1. apply lookup_lt_Some in Hx'. lia. }
    destruct (proj2 Psp _ _ _ Hx Hx1) as (q & -> & Hq). apply (kp_child W M q (i_arena x1)); [by eapply elem_of_list_lookup_2|].
    eapply (IH (S j)); [done| |exact Hk]. by replace (S j + n) with (j + S n) by lia.
Qed.

Lemma loop2_ok j : forall C T del x y, j <= H -> LI C T del -> CJ j C ->
  sp !! j = Some x -> ep !! j = Some y -> i_arena x = i_arena y ->
  exists C' T' del', drop_loop2 j T sp del = Ok (del', T') /\ LI C' T' del' /\ CE C'.
Proof.
  induction j as [|j IH]; intros C T del s e Hj I HC Hs He Ese; unfold CJ in HC.
  - exists C, T, del. split; [done|]. split; [done|]. split; [intros i ?; by apply HC|].
    intros i Ho Hn. destruct Hn. apply HC. split; [done|lia].
  - cbn [drop_loop2]. unfold vec_get at 1. rewrite Hs. cbn [ropt rbind].
    destruct (sp_get j) as [s' Hs']; [lia|]. destruct (ep_get j) as [e' He']; [lia|].
    unfold vec_get at 1. rewrite Hs'. cbn [ropt rbind].
    destruct (sp_int _ _ Hj Hs) as (si & Esi & Hsi & Lsi).
    destruct (proj2 Psp _ _ _ Hs' Hs) as (q & Eq & Hq).
    destruct (sp_int j s' ltac:(lia) Hs') as (q' & Eq' & [csq Hkq] & Lq). assert (q' = q) as -> by congruence. clear Eq'.
    assert (Ee' : i_arena e' = AInt q).
    { rewrite <- Eq. symmetry. apply (same_above 1 j s' e' ltac:(lia) s e); try done; by replace (j + 1) with (S j) by lia. }
    rewrite Esi, Eq. cbn [unwrap_internal rbind].
    rewrite bool_decide_eq_false_2 by (intros ->; lia). cbn [negb rassert rbind].
    assert (si ∈ C) as Csi. { apply HC. split; [exact (onp_sp _ _ _ Hs Esi)|lia]. }
    destruct (li_empty _ _ _ _ I Csi Hsi) as (sn & Gsn & Nsn). rewrite Gsn. cbn [rbind].
    assert (Cq : q ∉ C). { rewrite HC. intros [_ ?]. lia. }
    destruct (li_node C T del q csq I Cq Hkq ltac:(lia)) as (n & Gn & En & Nd & Hint & Hself & Hlk).
    rewrite Gn. cbn [rbind]. rewrite Nsn. pose proof (sp_in _ _ Hs) as Is. rewrite Esi in Hq, Is.
    pose proof (ep_in _ _ He) as Ie. rewrite <- Ese, Esi in Ie.
    assert (Hoth : forall k a, chs t q !! k = Some a -> k <> i_arr s -> kp a).
    { intros k a Ha Hk. eapply chs_fk_kp; [exact Ha|]. destruct (decide (k < i_arr s)) as [?|?].
      - apply (left_fk q (i_arr s) k s a); [by rewrite Esi|by rewrite Esi|done|done].
      - apply (right_fk q (i_arr s) k s a); [by rewrite Esi|by rewrite Esi|done|lia]. }
    case_bool_decide as D.
    + assert (Hlen : i_arr s < length csq). { apply lookup_lt_Some in Hq. by rewrite (chs_kids _ _ _ Hkq), map_length in Hq. }
      rewrite En. unfold vec_get.
      assert (exists c, csq !! i_arr s = Some c /\ c_arena c = AInt si) as (c & Hc & Ec).
      { rewrite (chs_kids _ _ _ Hkq), list_lookup_fmap in Hq. destruct (csq !! i_arr s) as [c|]; [|done].
        exists c. split; [done|]. by injection Hq. }
      rewrite Hc. cbn [ropt rbind]. rewrite Ec, bool_decide_eq_true_2 by done. cbn [rassert rbind].
      unfold vec_remove. rewrite Hc. cbn [rbind].
      destruct (slice_del q csq (i_arr s) (S (i_arr s)) Hkq) as (Ef & X1 & X2); [lia|lia|lia| |..].
      { intros k a Ha H1 H2. assert (k = i_arr s) as -> by lia. rewrite Hq in Ha. by injection Ha as <-. }
      { intros k a Ha Hk. apply (Hoth k); [done|lia]. }
      destruct (cut_step T q csq (i_arr s) (S (i_arr s)) n Gn En Nd Hint Hself Hlk) as (T' & ET & DT); [lia|lia|].
      rewrite ET. cbn [rbind]. rewrite <- Ef in DT.
      replace (take (S (i_arr s) - i_arr s) (drop (i_arr s) csq)) with [c] in X1, X2
        by (rewrite (drop_S _ _ _ Hc); by replace (S (i_arr s) - i_arr s) with 1 by lia).
      pose proof (li_edit _ _ _ _ _ _ _ I Hkq DT X1 X2) as I'. cbn [map] in I'. rewrite Ec in I'.
      destruct (IH (q :: C) T' (del ++ [AInt si]) s' e' ltac:(lia) I') as (C' & T2 & del' & E & HR); [|done|done|congruence|].
      { intros i. rewrite elem_of_cons, HC. split.
        - intros [->|[? ?]]; [split; [exact (onp_sp _ _ _ Hs' Eq)|lia]|split; [done|lia]].
        - intros [Ho Hd]. destruct (decide (H - lv i = j)) as [Dj|Dj]; [|right; split; [done|lia]]. left.
          destruct (onp_at i s' e' j Ho Hs' He' Dj) as [Ex|Ex]; congruence. }
      exists C', T2, del'. by rewrite Ec.
    + exists C, T, del. split; [done|]. split; [done|]. split; [intros i ?; by apply HC|].
      intros i Ho Hn a [k Ha]%elem_of_list_lookup. rewrite HC in Hn. set (d := H - lv i).
      assert (Hd : d <= j). { destruct (decide (S j <= H - lv i)); [tauto|unfold d; lia]. }
      destruct (sp_get d) as [x Hx]; [lia|]. destruct (ep_get d) as [y Hy]; [lia|].
      destruct (sp_get (S d)) as [x1 Hx1]; [lia|]. destruct (ep_get (S d)) as [y1 Hy1]; [lia|].
      assert (Exy : i_arena x = i_arena y).
      { apply (same_above (S j - d) d x y ltac:(lia) s e); try done; by replace (d + (S j - d)) with (S j) by lia. }
      assert (Exy1 : i_arena x1 = i_arena y1).
      { apply (same_above (j - d) (S d) x1 y1 ltac:(lia) s e); try done; by replace (S d + (j - d)) with (S j) by lia. }
      assert (Ei : AInt i = i_arena x) by (destruct (onp_at i x y d Ho Hx Hy eq_refl); congruence).
      destruct (proj2 Psp _ _ _ Hx Hx1) as (q1 & Eq1 & Hq1). assert (q1 = i) as -> by congruence.
      destruct (decide (k = i_arr x1)) as [->|Hk].
      * assert (a = i_arena x1) as -> by congruence. apply (kp_above (j - d) (S d) x1 s Hx1).
        -- by replace (S d + (j - d)) with (S j) by lia.
        -- by rewrite Esi.
      * eapply chs_fk_kp; [exact Ha|]. pose proof (sp_in _ _ Hx1) as I1. pose proof (ep_in _ _ Hy1) as I2. rewrite <- Exy1 in I2.
        destruct (decide (k < i_arr x1)) as [?|?].
        -- apply (left_fk i (i_arr x1) k x1 a); done.
        -- apply (right_fk i (i_arr x1) k x1 a); try done; lia.
Qed.

(** ** after purging *)
Lemma root_onp r : root t = AInt r -> onp r.
Proof.
  intros Er. left. destruct Psp as [P0 _]. destruct sp as [|x l]; [done|]. injection P0 as ->. cbn. rewrite Er. left.
Qed.
Lemma purged_ok C T del : LI C T del -> CE C -> exists T', purge_all T del = Ok T' /\ PR t lv M T' /\ root_cache T' = root_cache t.
Proof.
  intros I [CE1 CE2]. destruct (purge_all_ok del T) as (T' & E & R & Rc & An & Al & Hk & Hl & Hs & Hc & HD).
  exists T'. split; [done|].
  specialize (HD (fun a => ~ kp a /\ a <> root t)).
  assert (HD' : forall a, ~ (~ kp a /\ a <> root t) -> match a with AInt i => kids T' i = kids T i | ALeaf l => el T' l = el T l end).
  { apply HD.
    - intros a Ha. by destruct (li_nk _ _ _ I a Ha) as (m & -> & ? & ?).
    - intros i a [Hi _] Ha. apply (li_chs_sub _ _ _ _ _ I) in Ha. split.
      + intros Hka. apply Hi. by eapply (kp_child W).
      + apply elem_of_list_lookup in Ha as [k Ha]. by eapply chs_ne_root. }
  clear HD.
  assert (Hroot : exists r, root t = AInt r) by (exists (raw (root t)); apply (wt_root_id W)).
  destruct Hroot as [r Er].
  (* all children of an uncut, kept node are kept *)
  assert (Hunc : forall i, is_Some (kids t i) -> i ∉ C -> AInt i = root t \/ kp (AInt i) -> forall a, a ∈ chs t i -> kp a).
  { intros i Hi Hn Hrk a Ha. destruct (decide (onp i)) as [Ho|Ho]; [by eapply CE2|].
    destruct (off_path i Hi Ho) as [Hf|Hf].
    - apply elem_of_list_lookup in Ha as [k Ha]. eapply chs_fk_kp; [exact Ha|]. eapply (fk_child W); [|exact Hf].
      by eapply elem_of_list_lookup_2.
    - exfalso. destruct Hrk as [Hr|?]; [|done]. apply Ho, root_onp. congruence. }
  assert (Hkeep : forall i, AInt i = root t \/ kp (AInt i) -> kids T' i = filter kpc <$> kids t i).
  { intros i Hi. specialize (HD' (AInt i)). cbn in HD'. rewrite HD' by tauto. rewrite (li_kids _ _ _ I).
    case_decide as Dc; [done|]. destruct (kids t i) as [cs|] eqn:Ek; [|done]. cbn. f_equal. symmetry. apply filter_all.
    intros c Hcc. apply (Hunc i); [by rewrite Ek|done|done|]. rewrite (chs_kids _ _ _ Ek). by apply elem_of_list_fmap_1. }
  assert (Hdead : forall n i, H - lv i = n -> is_Some (kids t i) -> ~ kp (AInt i) -> AInt i <> root t -> kids T' i = None).
  { induction n as [|n IH]; intros i Hn Hi Hki Hr.
    - pose proof (wt_nonroot_lv W i Hi Hr). lia.
    - destruct (wt_up W (AInt i) Hi Hr) as (p & k & Hp). pose proof (wt_ch W _ _ _ Hp) as [_ Hlv]. cbn in Hlv.
      pose proof (chs_lookup_live _ _ _ _ Hp) as Hpl. pose proof (wt_lv W p Hpl) as Hple.
      pose proof (elem_of_list_lookup_2 _ _ _ Hp) as Hin.
      assert (Hnl : ~ live T' (AInt i)); [|cbn in Hnl; destruct (kids T' i); [destruct Hnl; eauto|done]].
      destruct (decide (p ∈ C)) as [Dc|Dc].
      { apply Hs. by eapply (li_del _ _ _ I). }
      destruct (decide (AInt p = root t \/ kp (AInt p))) as [Dp|Dp].
      { exfalso. apply Hki. by eapply (Hunc p). }
      apply (Hc p).
      + apply IH; [lia|done|tauto|tauto].
      + unfold chs. rewrite (li_kids _ _ _ I), decide_False by done. exact Hin. }
  assert (Hkids : forall i, kids T' i = if decide (AInt i = root t \/ kp (AInt i)) then filter kpc <$> kids t i else None).
  { intros i. case_decide as D; [by apply Hkeep|]. destruct (kids t i) as [cs|] eqn:Ek.
    - apply (Hdead (H - lv i)); [done|by rewrite Ek|tauto|tauto].
    - destruct (Hk i) as [?|[Ex _]]; [done|]. rewrite Ex, (li_kids _ _ _ I), Ek. by case_decide. }
  assert (Hel' : forall l, el T' l = if decide (l ∈ M) then None else el t l).
  { intros l. case_decide as D.
    - destruct (Hl l) as [?|[Ex _]]; [done|]. by rewrite Ex, (li_el _ _ _ I), decide_True.
    - specialize (HD' (ALeaf l)). cbn in HD'. rewrite HD'.
      + by rewrite (li_el _ _ _ I), decide_False.
      + intros [Hx _]. apply Hx. by apply kp_leaf. }
  split; [|by rewrite Rc, (li_rc _ _ _ I)]. constructor.
  - by rewrite R, (li_root _ _ _ I).
  - done.
  - done.
  - assert (Hch : forall p k a, chs T' p !! k = Some a -> chs T p !! k = Some a /\ kp a /\ a ∈ chs t p).
    { intros p k a Hp. destruct (Hk p) as [Hn|[Ex _]]; [unfold chs in Hp; by rewrite Hn in Hp|].
      assert (chs T p !! k = Some a) as HpT by (rewrite <- Hp; unfold chs; by rewrite Ex). split; [done|].
      unfold chs in Hp. rewrite Hkids in Hp. case_decide; [|done]. destruct (kids t p) as [cs|] eqn:Ek; [|done].
      cbn in Hp. rewrite filter_arena in Hp. apply elem_of_list_lookup_2, elem_of_list_filter in Hp as [? ?].
      split; [done|]. by rewrite (chs_kids _ _ _ Ek). }
    constructor.
    + intros p k a Hp. destruct (Hch _ _ _ Hp) as (HpT & Hka & Hin). destruct a as [l|m]; cbn.
      * apply kp_leaf in Hka. destruct (Hl l) as [Hn|[_ Ex]].
        -- rewrite Hel', decide_False in Hn by done. exfalso. destruct (wt_live_child W _ _ Hin) as [e He]. congruence.
        -- rewrite Ex, (li_llnk _ _ _ I), decide_False by done. apply elem_of_list_lookup in Hin as [k' Hin].
           apply (lk_ch K _ _ _ Hin).
      * destruct (Hk m) as [Hn|[_ Ex]].
        -- exfalso. rewrite Hkids, decide_True in Hn by by right. destruct (wt_live_child W _ _ Hin) as [cs Hm]. by rewrite Hm in Hn.
        -- rewrite Ex. by apply (li_lk _ _ _ I).
    + intros r' Hr'. rewrite R, (li_root _ _ _ I) in Hr'. assert (r' = r) as -> by congruence.
      destruct (Hk r) as [Hn|[_ Ex]].
      * exfalso. rewrite Hkids, decide_True in Hn by (left; congruence). pose proof (wt_root_live W) as [cs Hcs].
        rewrite Er in Hcs. cbn in Hcs. by rewrite Hcs in Hn.
      * rewrite Ex. destruct (lk_root K r Er) as [s0 Hs0]. pose proof (li_par _ _ _ I r) as Hp. rewrite Hs0 in Hp. cbn in Hp.
        destruct (lnk T r) as [[po s1]|]; [|done]. cbn in Hp. injection Hp as ->. eauto.
  - by rewrite An, (li_an _ _ _ I).
  - by rewrite Al, (li_al _ _ _ I).
Qed.

(** ** before the loops *)
Lemma filt_ok C T del q : LI C T del -> is_Some (kids t q) -> lv q = 0 ->
  exists T', filter_deleted_children T (AInt q) = Ok T' /\ LI (q :: C) T' del.
Proof.
  intros I [cs Hk] Hlv. unfold filter_deleted_children. cbn [unwrap_internal rbind].
  assert (exists cs0, kids T q = Some cs0 /\ filter kpc cs0 = filter kpc cs /\ (forall c, c ∈ cs0 -> c ∈ cs)) as (cs0 & Hk0 & Ef & Hsub).
  { rewrite (li_kids _ _ _ I), Hk. case_decide; [|eauto]. exists (filter kpc cs). split; [done|]. split.
    - rewrite list_filter_filter. apply list_filter_iff. tauto.
    - by intros c [_ ?]%elem_of_list_filter. }
  destruct (get_in_kids _ _ _ Hk0) as (po & s & Hg & Hlk). rewrite Hg. cbn [rbind n_children].
  assert (Hleaf : forall c, c ∈ cs -> exists l, c_arena c = ALeaf l /\ is_Some (el t l)).
  { intros c Hc. assert (c_arena c ∈ chs t q) as Hin by (rewrite (chs_kids _ _ _ Hk); by apply elem_of_list_fmap_1).
    destruct (wt_leaf_child W _ _ Hin Hlv) as [l El']. exists l. split; [done|]. rewrite El' in Hin. apply (wt_live_child W _ _ Hin). }
  assert (Efl : filter (fun c => alive T (c_arena c) = true) cs0 = filter kpc cs).
  { rewrite <- Ef. apply filter_in_ext. intros c Hc%Hsub. destruct (Hleaf c Hc) as (l & Ec & He). unfold kpcn. rewrite Ec, kp_leaf.
    cbn. rewrite bool_decide_eq_true. change (is_Some (a_get (leaf_nodes T) l)) with (is_Some (a_get (leaf_nodes T) l)).
    assert (is_Some (a_get (leaf_nodes T) l) <-> is_Some (el T l)) as -> by (unfold el; by rewrite fmap_is_Some).
    rewrite (li_el _ _ _ I). case_decide; [split; [by intros []|done]|done]. }
  rewrite Efl. eexists. split; [done|]. rewrite <- (app_nil_r del). eapply li_edit; [exact I|exact Hk| | |].
  - unfold with_children. cbn. assert (Hl1 : forall i, lnk (set_in T q (mkNode po s (filter kpc cs))) i = lnk T i).
    { intros i. rewrite lnk_set_in. case_decide; [|done]. subst i. by rewrite Hlk. }
    assert (Hno : forall m, AInt m ∉ map c_arena (filter kpc cs)).
    { intros m (c & Ec & [_ Hc]%elem_of_list_filter)%elem_of_list_fmap. destruct (Hleaf c Hc) as (l & ? & _). congruence. }
    constructor; try done.
    + intros i. apply kids_set_in.
    + intros i. by rewrite Hl1.
    + intros k m Hm. exfalso. apply (Hno m). by eapply elem_of_list_lookup_2.
  - by intros d ?%elem_of_nil.
  - intros m (c & Ec & Hc)%elem_of_list_fmap. destruct (Hleaf c Hc) as (l & ? & _). congruence.
Qed.

Lemma drop_tree_ok T0 : LI [] T0 [] ->
  exists (s e : idx) T1 T2 lvl del1 T3 del2 T4 T5, sp !! H = Some s /\ ep !! H = Some e /\
    filter_deleted_children T0 (i_arena s) = Ok T1 /\ filter_deleted_children T1 (i_arena e) = Ok T2 /\
    drop_loop1 H T2 sp ep [] = Ok (lvl, del1, T3) /\ drop_loop2 lvl T3 sp del1 = Ok (del2, T4) /\
    purge_all T4 del2 = Ok T5 /\ PR t lv M T5 /\ root_cache T5 = root_cache t.
Proof.
  intros I. destruct (sp_get H) as [s Hs]; [lia|]. destruct (ep_get H) as [e He]; [lia|].
  destruct (sp_int H s ltac:(lia) Hs) as (q & Eq & Hq & Lq). destruct (ep_int H e ltac:(lia) He) as (q2 & Eq2 & Hq2 & Lq2).
  destruct (filt_ok _ _ _ q I Hq ltac:(lia)) as (T1 & E1 & I1).
  destruct (filt_ok _ _ _ q2 I1 Hq2 ltac:(lia)) as (T2 & E2 & I2).
  destruct (loop1_ok H _ _ _ ltac:(lia) I2) as (j & C & T3 & del1 & x & y & E3 & I3 & HC & Hj & Hx & Hy & Exy).
  { intros i. rewrite !elem_of_cons. split.
    - intros [->|[->|?%elem_of_nil]]; [split; [exact (onp_ep _ _ _ He Eq2)|lia]|split; [exact (onp_sp _ _ _ Hs Eq)|lia]|done].
    - intros [Ho Hd]. pose proof (onp_at i s e H Ho Hs He ltac:(lia)) as [Ex|Ex]; [right; left|left]; congruence. }
  destruct (loop2_ok j C T3 del1 x y ltac:(lia) I3 HC Hx Hy Exy) as (C' & T4 & del2 & E4 & I4 & HE).
  destruct (purged_ok C' T4 del2 I4 HE) as (T5 & E5 & P5 & R5).
  exists s, e, T1, T2, j, del1, T3, del2, T4, T5. rewrite Eq, Eq2. done.
Qed.
End loops.
