(** Hist.v — histories of the mutating operations: the invariant, no panics, handles. *)
From Verif Require Export Facts Ulbs Flat.

(** ** the operations of a history *)
Inductive op {B : BTreeTrait} {S0 : Type} : Type :=
| OPush (x : Elem B)
| OPrepend (x : Elem B)
| OInsert (c : cursor) (x : Elem B)
| ORemove (c : cursor)
| OUpdateLeaf (l : nat) (f : Elem B -> Elem B * (bool * option (Elem B) * option (Elem B)))
| OUpdate (a b : cursor) (ord : list aidx -> list aidx) (fu : S0 -> Elem B -> S0 * Elem B * option (Diff B)) (s : S0)
| ODrain (a b : cursor) (k : nat)
| OSearch (Q : Query B) (q : QArg Q) (f : Elem B -> qresult -> Elem B * option (Diff B * option (Elem B) * option (Elem B))).
Arguments op : clear implicits.

(** the tree after the operation (results are dropped) *)
Definition run_op {B S0} (t : btree B) (o : op B S0) : res (btree B) :=
  match o with
  | OPush x => let? (_, t) := push t x in Ok t
  | OPrepend x => let? (_, t) := prepend t x in Ok t
  | OInsert c x => let? (_, _, t) := insert_by_path t c x in Ok t
  | ORemove c => let? (_, t) := remove_leaf t c in Ok t
  | OUpdateLeaf l f => let? (_, _, t) := update_leaf t l f in Ok t
  | OUpdate a b ord fu s => let? (_, _, t) := update ord t a b fu s in Ok t
  | ODrain a b k => let? (_, t) := drain_range t (Some (mkQR a true)) (Some (mkQR b true)) k in Ok t
  | OSearch Q q f => let? (_, _, t) := update_leaf_by_search Q t q f in Ok t
  end.
Fixpoint run_ops {B S0} (os : list (op B S0)) (t : btree B) : res (btree B) :=
  match os with [] => Ok t | o :: os' => let? t := run_op t o in run_ops os' t end.

Section hist.
Context {B : BTreeTrait} (L : Lawful B) {S0 : Type}.
Notation btree := (btree B).
Notation Tree := (Tree L).
Notation evalid := (evalid L).
Notation op := (op B S0).
Implicit Types (t : btree) (xs X Y A Z M R : list (nat * Elem B)) (l : nat) (e : Elem B) (o : op).

(** ** what a caller must respect; [xs] is the content of [t].  For a trait whose default cache is
    not the aggregate of nothing ([mono L = false]) only the operations of the ordered containers
    are allowed. *)
Definition valid_range t xs (a b : cursor) : Prop :=
  mono L = true /\ Fits t a b /\ exists ea eb, (cu_leaf a, ea) ∈ xs /\ cu_offset a <= rle_len ea /\ (cu_leaf b, eb) ∈ xs /\
    cu_offset b <= rle_len eb /\ cur_le xs a b.
Definition okx t xs o : Prop :=
  match o with
  | OPush x => evalid x
  | OPrepend x => evalid x /\ xs <> []
  | OInsert c x => evalid x /\ exists e, (cu_leaf c, e) ∈ xs /\ cu_offset c <= rle_len e /\
      (mono L = true \/ cu_offset c = 0 \/ cu_offset c = rle_len e)
  | ORemove c => True
  | OUpdateLeaf l f => mono L = true /\ exists e e1 upd n1 n2, (l, e) ∈ xs /\ f e = (e1, (upd, n1, n2)) /\
      evalid e1 /\ (forall x, n1 = Some x -> evalid x) /\ (forall x, n2 = Some x -> evalid x) /\
      (upd = false -> get_elem_cache (default e1 (head (ul_parts e1 n1 n2))) = get_elem_cache e)
  | OUpdate a b ord fu s => valid_range t xs a b /\ (forall w, ord w ≡ₚ w) /\ upd_sound L fu
  | ODrain a b k => valid_range t xs a b /\ (forall l e, (l, e) ∈ xs -> rle_len e <> 0) /\
      (forall X e, xs = X ++ [(cu_leaf a, e)] -> cu_offset a <> rle_len e)
  | OSearch Q q f => mono L = true /\ Shallow t 10 /\ exists l e off fd s', (l, e) ∈ xs /\
      query_with_finder_return Q t q = Ok (Some (mkQR (mkCur l off) fd), s') /\
      forall fnd, exists e' d n1, f e (mkQR (mkCur l off) fnd) = (e', Some (d, n1, None)) /\ evalid e' /\
        (forall x, n1 = Some x -> evalid x) /\ (can_remove e' = true -> n1 = None) /\
        drel L (get_elem_cache e) d (summ L (map get_elem_cache (ul_kept e' n1)))
  end.
Definition okop t o : Prop := exists xs, Content t xs /\ okx t xs o.

(** ** the leaves an operation may change or remove *)
Definition between xs (a b : cursor) l : Prop :=
  exists X M Y, xs = X ++ M ++ Y /\ head (M.*1) = Some (cu_leaf a) /\ last (M.*1) = Some (cu_leaf b) /\ l ∈ M.*1.
Definition touches t xs o l : Prop :=
  match o with
  | OPush _ => last (xs.*1) = Some l
  | OPrepend _ => head (xs.*1) = Some l
  | OInsert c _ | ORemove c => l = cu_leaf c
  | OUpdateLeaf l0 _ => l = l0 \/ exists ls ms, xs.*1 = ls ++ l0 :: l :: ms
  | OUpdate a b _ _ _ | ODrain a b _ => between xs a b l
  | OSearch Q q _ => exists off fd s', query_with_finder_return Q t q = Ok (Some (mkQR (mkCur l off) fd), s')
  end.

(** ** one step *)
Definition newids t t' xs xs' : Prop := anext (leaf_nodes t) <= anext (leaf_nodes t') /\
  forall l, l ∈ xs'.*1 -> l ∈ xs.*1 \/ anext (leaf_nodes t) <= l < anext (leaf_nodes t').

Lemma range_split xs (a b : cursor) ea eb : NoDup xs.*1 -> (cu_leaf a, ea) ∈ xs -> (cu_leaf b, eb) ∈ xs -> cur_le xs a b ->
  exists X M Y, xs = X ++ M ++ Y /\ head M = Some (cu_leaf a, ea) /\ last M = Some (cu_leaf b, eb).
Proof.
  intros Hnd Ha Hb [[E _]|(P & Q & -> & H1 & H2)].
  - apply elem_of_list_split in Ha as (X & Y & ->). exists X, [(cu_leaf a, ea)], Y. split; [done|]. split; [done|]. cbn.
    rewrite <- E in Hb |- *. f_equal. f_equal. apply (fst_lookup_unique _ (cu_leaf a) _ _ Hnd); [clear; set_solver|exact Hb].
  - apply elem_of_app in Ha as [Ha|Ha]; [|exfalso].
    2:{ rewrite fmap_app in Hnd. apply NoDup_app in Hnd as (_ & Hnd & _). apply (Hnd _ H1). apply elem_of_list_fmap. by exists (cu_leaf a, ea). }
    apply elem_of_app in Hb as [Hb|Hb].
    { exfalso. rewrite fmap_app in Hnd. apply NoDup_app in Hnd as (_ & Hnd & _). apply (Hnd (cu_leaf b)); [|done]. apply elem_of_list_fmap. by exists (cu_leaf b, eb). }
    apply elem_of_list_split in Ha as (X & P2 & ->). apply elem_of_list_split in Hb as (Q1 & Y & ->).
    exists X, ((cu_leaf a, ea) :: P2 ++ Q1 ++ [(cu_leaf b, eb)]), Y. split; [by rewrite <- !app_assoc; cbn; rewrite <- !app_assoc|].
    split; [done|]. rewrite app_assoc, app_comm_cons. by rewrite last_snoc.
Qed.
Lemma cut_ids fr xs c A Z : Cut fr xs c A Z -> forall l, l ∈ (A ++ Z).*1 -> l ∈ xs.*1 \/ fr l.
Proof.
  intros C l Hl. rewrite fmap_app in Hl. destruct C; rewrite ?fmap_app, ?fmap_cons in *; cbn [fst] in *; set_solver.
Qed.
(** whatever is not the leaf cut stays on its side *)
Lemma cut_sides fr X l e Y (c : cursor) A Z : NoDup (X ++ (l, e) :: Y).*1 -> Cut fr (X ++ (l, e) :: Y) c A Z -> cu_leaf c = l ->
  (exists A2, A = X ++ A2) /\ (exists Z2, Z = Z2 ++ Y).
Proof.
  intros Hnd C El. remember (X ++ (l, e) :: Y) as xs eqn:Ex. destruct C as [X' l' e' Y'|X' l' e' Y' off H1 H2|X' l' e' Y' off e1 e2 n H1 H2 H3 H4]; cbn in El; subst l';
    rewrite Ex in Hnd; symmetry in Ex; apply (split_fst_unique _ _ _ _ _ _ _ Hnd) in Ex as (<- & <- & <-).
  - split; [exists []; by rewrite app_nil_r|by exists [(l, e)]].
  - split; [by exists [(l, e)]|by exists []].
  - split; [by exists [(l, e1)]|by exists [(n, e2)]].
Qed.

Lemma in_fst xs l e : (l, e) ∈ xs -> l ∈ xs.*1.
Proof. intros H. apply elem_of_list_fmap. by exists (l, e). Qed.
Lemma upd_keep_ids (r : list (nat * Elem B * option (Diff B))) : forall l, l ∈ (upd_keep r).*1 -> l ∈ r.*1.*1.
Proof.
  intros l Hl. unfold upd_keep in Hl. apply elem_of_list_fmap in Hl as (x & -> & Hl). apply elem_of_list_fmap in Hl as (y & -> & Hl).
  apply elem_of_list_filter in Hl as [_ Hl]. apply elem_of_list_fmap_1, elem_of_list_fmap_1. done.
Qed.
(** range operations *)
Lemma range_step xs (a b : cursor) ea eb fr A Z A1 M K : NoDup xs.*1 -> NoDup (A ++ Z).*1 -> (cu_leaf a, ea) ∈ xs -> (cu_leaf b, eb) ∈ xs -> cur_le xs a b ->
  Cut fr xs b A Z -> Cut fr (A ++ Z) a A1 (M ++ Z) -> (forall l, l ∈ K.*1 -> l ∈ M.*1) ->
  (forall l, l ∈ (A1 ++ K ++ Z).*1 -> l ∈ xs.*1 \/ fr l) /\
  (forall l e, (l, e) ∈ xs -> ~ between xs a b l -> (l, e) ∈ A1 ++ K ++ Z).
Proof.
  intros Hnd Hnd2 Ha Hb Hle C1 C2 HK. split.
  - intros l Hl. pose proof (cut_ids _ _ _ _ _ C1) as I1. pose proof (cut_ids _ _ _ _ _ C2) as I2.
    assert (l ∈ (A1 ++ M ++ Z).*1) as Hl2 by (rewrite !fmap_app in *; set_solver). destruct (I2 l Hl2) as [H|H]; [by apply I1|by right].
  - intros l e Hin Hnt. destruct (range_split xs a b ea eb Hnd Ha Hb Hle) as (X & W & Y & -> & HW1 & HW2).
    assert (l ∉ W.*1) as HlW.
    { intros Hl. apply Hnt. exists X, W, Y. split; [done|]. split; [|split; [|done]].
      - destruct W; [done|]. injection HW1 as ->. done.
      - change (last (map fst W) = Some (cu_leaf b)). rewrite last_map, HW2. done. }
    assert (HW : (l, e) ∈ X \/ (l, e) ∈ Y).
    { apply elem_of_app in Hin as [?|Hin]; [by left|]. apply elem_of_app in Hin as [Hin|?]; [|by right]. exfalso. apply HlW. by eapply in_fst. }
    destruct (exists_last (l := W)) as (W0 & wl & EW); [by intros ->|]. rewrite EW, last_snoc in HW2. injection HW2 as ->.
    rewrite EW, <- !app_assoc in C1, Hnd. cbn in C1, Hnd. rewrite app_assoc in C1, Hnd.
    destruct (cut_sides _ _ _ _ _ _ _ _ Hnd C1 eq_refl) as [[A2 ->] [Z2 ->]].
    destruct HW as [HX|HY]; [|clear -HY; set_solver].
    (* the start's leaf follows X *)
    assert (exists e3 R, (((X ++ W0) ++ A2) ++ Z2 ++ Y) = X ++ (cu_leaf a, e3) :: R) as (e3 & R & ER).
    { destruct W0 as [|w W0].
      - cbn in EW. subst W. cbn in HW1. injection HW1 as E1 _. rewrite app_nil_r in *. cbn in C1. clear -C1 E1 Hnd.
        remember (X ++ (cu_leaf b, eb) :: Y) as ys eqn:Ey. remember (X ++ A2) as AA eqn:EA. remember (Z2 ++ Y) as ZZ eqn:EZ.
        destruct C1 as [X' l' e' Y'|X' l' e' Y' off H1 H2|X' l' e' Y' off e1 e2 n H1 H2 H3 H4]; cbn in E1, Ey; rewrite Ey in Hnd; symmetry in Ey; apply (split_fst_unique _ _ _ _ _ _ _ Hnd) in Ey as (<- & <- & <-); rewrite <- E1.
        + eauto.
        + exists eb. eexists. by rewrite <- app_assoc.
        + exists e1. eexists. by rewrite <- app_assoc.
      - rewrite EW in HW1. injection HW1 as ->. exists ea. eexists. rewrite <- !app_assoc. cbn. reflexivity. }
    rewrite ER in C2, Hnd2. destruct (cut_sides _ _ _ _ _ _ _ _ Hnd2 C2 eq_refl) as [[A3 ->] _]. clear -HX. set_solver.
Qed.

Lemma lookup_old t xs l : Tree t xs -> l ∈ xs.*1 -> l < anext (leaf_nodes t).
Proof. intros T Hl. apply elem_of_list_fmap in Hl as ([l' e] & -> & Hl). by eapply (tree_old L). Qed.

Theorem step_ok t xs o : Tree t xs -> (mono L = true \/ MD t) -> okx t xs o ->
  exists t' xs', run_op t o = Ok t' /\ Tree t' xs' /\ (mono L = true \/ MD t') /\ newids t t' xs xs' /\
    (forall l e, (l, e) ∈ xs -> ~ touches t xs o l -> (l, e) ∈ xs').
Proof.
  intros T HM Ho. pose proof (tree_nodup L _ _ T) as Hnd. unfold newids.
  destruct o as [x|x|c x|c|l f|a b ord fu s|a b k|Q q f]; cbn [okx run_op touches] in *.
  - (* push *)
    destruct (t_push L t xs x T Ho) as (cur & t' & -> & M' & Ha & [(X & l & e & e' & -> & _ & _ & T' & _)|(n & Hn & T' & _)]); cbn [rbind].
    + exists t', (X ++ [(l, e')]). split_and!; try done; [first [tauto|destruct HM as [?|HM]; [by left|right; by apply (M' false)]|pose proof (M' false); tauto]| |].
      * intros l0. rewrite !fmap_app. cbn. by left.
      * intros l0 e0 Hin Hnt. rewrite fmap_app in Hnt. cbn in Hnt. rewrite last_snoc in Hnt. apply elem_of_app in Hin as [Hin|Hin]; [clear -Hin; set_solver|].
        apply elem_of_list_singleton in Hin. by injection Hin as -> ->.
    + exists t', (xs ++ [(n, x)]). split_and!; try done; [first [tauto|destruct HM as [?|HM]; [by left|right; by apply (M' false)]|pose proof (M' false); tauto]| |].
      * intros l0. rewrite fmap_app. cbn. intros [?|Hx]%elem_of_app; [by left|]. apply elem_of_list_singleton in Hx as ->. by right.
      * intros l0 e0 Hin _. clear -Hin; set_solver.
  - (* prepend *)
    destruct Ho as [Vx Hne]. destruct (t_prepend L t xs x T Hne Vx) as (cur & t' & -> & M' & Ha & [(Y & l & e & e' & -> & _ & _ & T' & _)|(n & Hn & T' & _)]); cbn [rbind].
    + exists t', ((l, e') :: Y). split_and!; try done; [first [tauto|destruct HM as [?|HM]; [by left|right; by apply (M' false)]|pose proof (M' false); tauto]| |].
      * intros l0 Hl. by left.
      * intros l0 e0 Hin Hnt. cbn in Hnt. apply elem_of_cons in Hin as [[= -> ->]|Hin]; [done|]. by right.
    + exists t', ((n, x) :: xs). split_and!; try done; [first [tauto|destruct HM as [?|HM]; [by left|right; by apply (M' false)]|pose proof (M' false); tauto]| |].
      * intros l0. cbn. intros [->|?]%elem_of_cons; [by right|by left].
      * intros l0 e0 Hin _. by right.
  - (* insert *)
    destruct Ho as (Vx & e & Hin & Hoff & Hb). destruct c as [l off]. cbn [cu_leaf cu_offset] in *. apply elem_of_list_split in Hin as (X & Y & ->).
    destruct (t_insert L t X l e Y off x T Hoff Vx) as (cur & sl & R & t' & -> & T' & HR & Ha & M'); cbn [rbind].
    exists t', (X ++ R ++ Y). split_and!; try done; [first [tauto|destruct HM as [?|HM]; [by left|right; by apply (M' false)]|pose proof (M' false); tauto]| |].
    + intros l0. rewrite !fmap_app. cbn [fmap list_fmap fst].
      assert (forall z, z ∈ R.*1 -> z = l \/ anext (leaf_nodes t) <= z < anext (leaf_nodes t')) as HRl by (destruct HR; cbn; set_solver).
      intros [?|[Hx|?]%elem_of_app]%elem_of_app; [|destruct (HRl _ Hx) as [->|?]|]; set_solver.
    + intros l0 e0 Hin Hnt. clear -Hin Hnt. set_solver.
  - (* remove *)
    destruct c as [l off]. cbn [cu_leaf]. destruct (decide (l ∈ xs.*1)) as [Hin|Hin].
    + apply elem_of_list_fmap in Hin as ([l' e] & -> & Hin). cbn [fst]. apply elem_of_list_split in Hin as (X & Y & ->).
      destruct (t_remove L t X l' e Y off T HM) as (t' & -> & T' & M' & Ha). cbn [rbind]. exists t', (X ++ Y). split_and!; try done; [first [tauto|destruct HM as [?|HM]; [by left|right; by apply (M' false)]|pose proof (M' false); tauto]| |].
      * intros l0. rewrite !fmap_app. cbn. clear. set_solver.
      * intros l0 e0 Hin Hnt. clear -Hin Hnt. set_solver.
    + rewrite t_remove_dead. { cbn [rbind]. exists t, xs. split_and!; try done. intros l0 Hl. by left. }
      destruct (a_get (leaf_nodes t) l) as [lf|] eqn:E; [|done]. exfalso. apply Hin. apply (t_node_len L t xs T). by rewrite E.
  - (* update_leaf *)
    destruct Ho as (Hm & e & e1 & upd & n1 & n2 & Hin & Hf & V0 & V1 & V2 & Hc). apply elem_of_list_split in Hin as (X & Y & ->).
    destruct (t_update_leaf L t X l e Y f e1 upd n1 n2 T Hf V0 V1 V2 Hc) as (alive & sl & R & t' & -> & T' & HR & Ha & _). cbn [rbind].
    exists t', (X ++ R). split_and!; try done; [by left| |].
    + intros l0. rewrite !fmap_app, fmap_cons. cbn [fst].
      assert (forall z, z ∈ R.*1 -> z = l \/ z ∈ Y.*1 \/ anext (leaf_nodes t) <= z < anext (leaf_nodes t')) as HRl.
      { destruct HR as [|y|x0 y nx ey y' Y' -> _ _|x0 r ns Hr Hlen _ Hfr]; intros z Hz.
        - auto.
        - cbn in Hz. set_solver.
        - cbn in Hz |- *. set_solver.
        - rewrite fmap_cons, fmap_app, fst_zip in Hz by lia. rewrite Forall_forall in Hfr. cbn in Hz. set_solver. }
      intros [?|Hx]%elem_of_app; [set_solver|]. destruct (HRl _ Hx) as [->|[?|?]]; set_solver.
    + intros l0 e0 Hin Hnt. apply elem_of_app in Hin as [Hin|Hin]; [clear -Hin; set_solver|].
      apply elem_of_cons in Hin as [[= -> ->]|Hin]; [exfalso; apply Hnt; by left|]. apply elem_of_app. right.
      destruct HR as [|y|x0 y nx ey y' Y' -> _ _|x0 r ns Hr Hlen _ Hfr].
      * done.
      * by right.
      * apply elem_of_cons in Hin as [[= -> ->]|Hin]; [|by do 2 right]. exfalso. apply Hnt. right. exists X.*1, Y'.*1. by rewrite fmap_app.
      * right. apply elem_of_app. by right.
  - (* update *)
    destruct Ho as ((Hm & Sh & ea & eb & H1 & H2 & H3 & H4 & H5) & Hord & Hfu).
    destruct (t_update L fu ord t xs a b ea eb s T Sh H1 H2 H3 H4 H5 Hord Hfu) as (A & Z & A1 & M & t' & C1 & C2 & -> & T' & Ha). cbn [rbind].
    exists t', (A1 ++ upd_keep (upd_run fu s M).2 ++ Z). split; [done|]. split; [done|]. split; [by left|].
    destruct (range_step xs a b ea eb _ A Z A1 M (upd_keep (upd_run fu s M).2) Hnd ltac:(eapply cut_nodup; [exact Hnd| |exact C1]; cbn; intros n [l0 e0] Hn Hx; pose proof (tree_old L _ _ _ _ T Hx); cbn; lia) H1 H3 H5 C1 C2) as [R1 R2].
    { intros l Hl. apply upd_keep_ids in Hl. by rewrite upd_run_ids in Hl. }
    split; [split; [done|exact R1]|exact R2].
  - (* drain *)
    destruct Ho as ((Hm & Sh & ea & eb & H1 & H2 & H3 & H4 & H5) & Hnz & Hend).
    destruct (t_drain L t xs a b ea eb true true T Sh H1 H2 H3 H4 H5) as (A & Z & A1 & M & t' & C1 & C2 & Hk & T' & Ha).
    { intros _. by apply (Hnz (cu_leaf b)). }
    { intros X Y l e -> _. apply (Hnz l). clear; set_solver. }
    { intros X -> E. exfalso. by eapply (Hend X ea). }
    rewrite Hk. cbn [rbind]. exists t', (A1 ++ [] ++ Z). split; [done|]. split; [done|]. split; [by left|].
    destruct (range_step xs a b ea eb _ A Z A1 M [] Hnd ltac:(eapply cut_nodup; [exact Hnd| |exact C1]; cbn; intros n [l0 e0] Hn Hx; pose proof (tree_old L _ _ _ _ T Hx); cbn; lia) H1 H3 H5 C1 C2) as [R1 R2].
    { intros l Hl. by apply elem_of_nil in Hl. }
    split; [split; [done|exact R1]|exact R2].
  - (* search *)
    destruct Ho as (Hm & Sh & l & e & off & fd & s' & Hin & Hq & Hf). apply elem_of_list_split in Hin as (X & Y & ->).
    destruct (t_ulbs L Q t X l e Y q off fd s' f T Sh Hq) as (fnd & _ & _ & Hu). destruct (Hf fnd) as (e' & d & n1 & F1 & F2 & F3 & F4 & F5).
    destruct (Hu e' d n1 F1 F2 F3 F4 F5) as (rc & sl & R & t' & -> & T' & HR & Ha & _). cbn [rbind].
    exists t', (X ++ R ++ Y). split; [done|]. split; [done|]. split; [by left|]. split; [split|].
    + done.
    + intros l0. rewrite !fmap_app, fmap_cons. cbn [fst].
      assert (forall z, z ∈ R.*1 -> z = l \/ anext (leaf_nodes t) <= z < anext (leaf_nodes t')) as HRl by (destruct HR; cbn; set_solver).
      intros [?|[Hx|?]%elem_of_app]%elem_of_app; [|destruct (HRl _ Hx) as [->|?]|]; set_solver.
    + intros l0 e0 Hin Hnt. assert (l0 <> l) by (intros ->; apply Hnt; eauto). clear -Hin H. set_solver.
Qed.

(** ** histories *)
Fixpoint valid_ops t (os : list op) : Prop :=
  match os with [] => True | o :: os' => okop t o /\ forall t', run_op t o = Ok t' -> valid_ops t' os' end.
(** [l] was handed out before [t] *)
Theorem history_ok os : forall t xs, Tree t xs -> (mono L = true \/ MD t) -> valid_ops t os ->
  exists t' xs', run_ops os t = Ok t' /\ Tree t' xs' /\ (mono L = true \/ MD t') /\ newids t t' xs xs'.
Proof.
  induction os as [|o os IH]; intros t xs T HM Hv; cbn [run_ops].
  - exists t, xs. split_and!; try done. split; [done|]. intros l Hl. by left.
  - destruct Hv as [(ys & Hc & Ho) Hv]. assert (ys = xs) as -> by (eapply content_det; [exact Hc|by eapply Tree_content]).
    destruct (step_ok t xs o T HM Ho) as (t1 & xs1 & E & T1 & HM1 & [N1 N2] & _). rewrite E. cbn [rbind].
    destruct (IH t1 xs1 T1 HM1 (Hv t1 E)) as (t' & xs' & E' & T' & HM' & [N3 N4]). exists t', xs'. split_and!; try done. split; [lia|].
    intros l Hl. destruct (N4 l Hl) as [H|H]; [|right; lia]. destruct (N2 l H) as [?|?]; [by left|right; lia].
Qed.
Lemma run_ops_app os1 os2 t : run_ops (S0 := S0) (os1 ++ os2) t = let? t' := run_ops os1 t in run_ops os2 t'.
Proof. revert t. induction os1 as [|o os1 IH]; intros t; cbn; [done|]. destruct (run_op t o); cbn; [apply IH|done|done]. Qed.
Lemma valid_app os1 : forall os2 t t', valid_ops t (os1 ++ os2) -> run_ops os1 t = Ok t' -> valid_ops t os1 /\ valid_ops t' os2.
Proof.
  induction os1 as [|o os1 IH]; intros os2 t t' Hv E; cbn in *; [by injection E as ->|]. destruct Hv as [Ho Hv].
  destruct (run_op t o) as [t1| |] eqn:E1; cbn in E; try done. destruct (IH os2 t1 t' (Hv t1 eq_refl) E) as [H1 H2]. split; [|done].
  split; [done|]. by intros t2 [= <-].
Qed.

(** everything that is guaranteed in every state a caller can reach from the empty tree *)
Theorem reach_ok os : valid_ops bt_new os ->
  exists t xs, run_ops os bt_new = Ok t /\ Tree t xs /\ Content t xs /\
    (Shallow t 9 -> xs <> [] \/ mono L = true -> check t = Ok tt) /\
    (xs <> [] \/ mono L = true -> root_cache t = agg L xs) /\
    (forall i n, a_get (in_nodes t) i = Some n -> length (n_children n) <= 11) /\
    (exists ks, NoDup ks /\ (forall i, i ∈ ks <-> Reach t (AInt i)) /\ node_len t = length ks + length xs) /\
    (forall l e, get_elem t l = Some e <-> (l, e) ∈ xs).
Proof.
  intros Hv. destruct (history_ok os bt_new [] (Tree_new L)) as (t & xs & E & T & HM & _); [by right; apply MD_new|done|].
  exists t, xs. split; [done|]. split; [done|]. split; [by eapply Tree_content|]. split; [by apply (t_check L)|]. split; [by apply (t_root_cache L)|].
  split. { intros i n Hi. by eapply (t_fan L). }
  split; [by apply (t_node_len L)|]. intros l e. by apply (t_get_elem L).
Qed.
(** a handle that was removed stays dead *)
Theorem dead_forever os1 os2 os3 l e t1 t2 t3 : valid_ops bt_new (os1 ++ os2 ++ os3) ->
  run_ops os1 bt_new = Ok t1 -> get_elem t1 l = Some e ->
  run_ops os2 t1 = Ok t2 -> get_elem t2 l = None ->
  run_ops os3 t2 = Ok t3 -> get_elem t3 l = None.
Proof.
  intros Hv E1 H1 E2 H2 E3. destruct (valid_app _ _ _ _ Hv E1) as [V1 V23]. destruct (valid_app _ _ _ _ V23 E2) as [V2 V3].
  destruct (history_ok os1 bt_new [] (Tree_new L) ltac:(by right; apply MD_new) V1) as (t1' & x1 & E1' & T1 & M1 & _).
  rewrite E1 in E1'. injection E1' as <-.
  destruct (history_ok os2 t1 x1 T1 M1 V2) as (t2' & x2 & E2' & T2 & M2 & [N2 _]). rewrite E2 in E2'. injection E2' as <-.
  destruct (history_ok os3 t2 x2 T2 M2 V3) as (t3' & x3 & E3' & T3 & M3 & [_ N3]). rewrite E3 in E3'. injection E3' as <-.
  apply (t_get_elem L _ _ _ T1) in H1. pose proof (tree_old L _ _ _ _ T1 H1) as Hold.
  destruct (get_elem t3 l) as [e3|] eqn:G; [|done]. exfalso. apply (t_get_elem L _ _ _ T3) in G. apply in_fst in G.
  destruct (N3 l G) as [G2|G2]; [|lia]. apply elem_of_list_fmap in G2 as ([l' e2] & -> & G2). apply (t_get_elem L _ _ _ T2) in G2. cbn [fst] in H2. congruence.
Qed.
(** a live handle keeps its element across an operation that does not touch its leaf *)
Theorem handle_stable os o t xs l e t' : valid_ops bt_new (os ++ [o]) -> run_ops os bt_new = Ok t -> Content t xs ->
  get_elem t l = Some e -> ~ touches t xs o l -> run_op t o = Ok t' -> get_elem t' l = Some e.
Proof.
  intros Hv E Hc He Ht E'. destruct (valid_app _ _ _ _ Hv E) as [V1 [(ys & Hy & Ho) _]].
  destruct (history_ok os bt_new [] (Tree_new L) ltac:(by right; apply MD_new) V1) as (t1 & x1 & E1 & T1 & M1 & _).
  rewrite E in E1. injection E1 as <-. assert (x1 = xs) as -> by (eapply content_det; [by eapply Tree_content|done]).
  assert (ys = xs) as -> by (by eapply content_det).
  destruct (step_ok t xs o T1 M1 Ho) as (t2 & xs2 & E2 & T2 & _ & _ & HF). rewrite E' in E2. injection E2 as <-.
  apply (t_get_elem L _ _ _ T2). apply HF; [|done]. by apply (t_get_elem L _ _ _ T1).
Qed.
(** projections, one per property *)
Lemma reach_check os : valid_ops bt_new os ->
  exists t xs, run_ops os bt_new = Ok t /\ Tree t xs /\ (Shallow t 9 -> xs <> [] \/ mono L = true -> check t = Ok tt).
Proof. intros Hv. destruct (reach_ok os Hv) as (t & xs & E & T & _ & H & _). by exists t, xs. Qed.
Lemma reach_cache os : valid_ops bt_new os ->
  exists t xs, run_ops os bt_new = Ok t /\ Content t xs /\ (xs <> [] \/ mono L = true -> root_cache t = agg L xs).
Proof. intros Hv. destruct (reach_ok os Hv) as (t & xs & E & _ & T & _ & H & _). by exists t, xs. Qed.
Lemma reach_fan os : valid_ops bt_new os ->
  exists t, run_ops os bt_new = Ok t /\ forall i n, a_get (in_nodes t) i = Some n -> length (n_children n) <= 11.
Proof. intros Hv. destruct (reach_ok os Hv) as (t & xs & E & _ & _ & _ & _ & H & _). by exists t. Qed.
Lemma reach_len os : valid_ops bt_new os ->
  exists t xs, run_ops os bt_new = Ok t /\ Content t xs /\
    exists ks, NoDup ks /\ (forall i, i ∈ ks <-> Reach t (AInt i)) /\ node_len t = length ks + length xs.
Proof. intros Hv. destruct (reach_ok os Hv) as (t & xs & E & _ & T & _ & _ & _ & H & _). by exists t, xs. Qed.
End hist.
