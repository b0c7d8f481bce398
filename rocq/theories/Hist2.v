(** Hist2.v — histories over all mutating methods: those of Hist.v, bulk insertion, range updates,
    writes through get_elem_mut, filtered updates, clear and bulk construction. *)
From Verif Require Export Frame.

Inductive op2 {B : BTreeTrait} {S0 : Type} : Type :=
| QBase (o : op B S0)
| QMany (c : cursor) (data : list (Elem B))
| QRanges (A : Type) (fu : Elem B -> A -> Elem B) (ord : list aidx -> list aidx)
    (ord2 : list (cursor * list (Elem B)) -> list (cursor * list (Elem B))) (args : list (nat * (nat * nat * A)))
| QWrite (l : nat) (e : Elem B) (can_use_diff : bool) (od : option (Diff B))
| QFiltered (nc : Cache B -> Cache B) (dr : Cache B -> bool) (g : Elem B -> Elem B)
| QClear
| QCollect (es : list (Elem B)).
Arguments op2 : clear implicits.

(** the tree after the operation; QWrite: get_elem_mut, then recursive_update_cache; QCollect: the
    tree is replaced by one collected from an iterator *)
Definition run_op2 {B S0} (t : btree B) (o : op2 B S0) : res (btree B) :=
  match o with
  | QBase o => run_op t o
  | QMany c data => insert_many_by_cursor t (Some c) data
  | QRanges A fu ord ord2 args => let? (_, t) := update_leaves_with_arg_in_ranges fu ord ord2 t args in Ok t
  | QWrite l e u od => let? t := ropt (poke t l e) in recursive_update_cache t (ALeaf l) u od
  | QFiltered nc dr g => let? (_, t) := update_cache_and_elem_with_filter (pfu nc dr) (pgu g) t tt in Ok t
  | QClear => Ok (clear t)
  | QCollect es => from_iter es
  end.
Fixpoint run_ops2 {B S0} (os : list (op2 B S0)) (t : btree B) : res (btree B) :=
  match os with [] => Ok t | o :: os' => let? t := run_op2 t o in run_ops2 os' t end.
Definition resets {B S0} (o : op2 B S0) : Prop := match o with QClear | QCollect _ => True | _ => False end.

Section hist.
Context {B : BTreeTrait} (L : Lawful B) {U : Type} (F : Flatten L U) {S0 : Type}.
Notation btree := (btree B).
Notation Tree := (Tree L).
Notation evalid := (evalid L).
Notation op2 := (op2 B S0).
Implicit Types (t : btree) (xs X Y : list (nat * Elem B)) (l : nat) (e : Elem B) (o : op2).

(** ** what a caller must respect *)
Definition okx2 t xs o : Prop :=
  match o with
  | QBase o => okx L t xs o
  | QMany c data => mono L = true /\ Forall evalid data /\ exists e, (cu_leaf c, e) ∈ xs /\ cu_offset c <= rle_len e
  | QRanges A fu ord ord2 args => (forall e a, evalid e -> evalid (fu e a)) /\ xs <> [] /\ @USE_DIFF B = true /\
      (forall w, ord w ≡ₚ w) /\ (forall w, ord2 w ≡ₚ w) /\
      (forall l r, (l, r) ∈ args -> exists e, (l, e) ∈ xs /\ fst (fst r) < snd (fst r) <= rle_len e)
  | QWrite l e' u od => mono L = true /\ (u = true -> @USE_DIFF B = true) /\ evalid e' /\ exists e, (l, e) ∈ xs /\
      (forall d, od = Some d -> u = true -> drel L (get_elem_cache e) d (get_elem_cache e'))
  | QFiltered nc dr g => mono L = true /\ UcfLaw L nc dr g /\ agg L (map (hx dr g) xs) = agg L xs
  | QClear => True
  | QCollect es => mono L = true /\ Forall evalid es
  end.
Definition okop2 t o : Prop := exists xs, Content t xs /\ okx2 t xs o.
Fixpoint valid_ops2 t (os : list op2) : Prop :=
  match os with [] => True | o :: os' => okop2 t o /\ forall t', run_op2 t o = Ok t' -> valid_ops2 t' os' end.

(** ** the leaves an operation may change or remove *)
Definition touches2 t xs o l : Prop :=
  match o with
  | QBase o => touches t xs o l
  | QMany c _ => beside xs (cu_leaf c) l
  | QRanges _ _ _ _ args => l ∈ args.*1
  | QWrite l0 _ _ _ => l = l0
  | QFiltered _ dr _ => Vis dr t (ALeaf l)
  | QClear | QCollect _ => True
  end.

Theorem step2_ok t xs o : Tree t xs -> (mono L = true \/ MD t) -> okx2 t xs o ->
  exists t' xs', run_op2 t o = Ok t' /\ Tree t' xs' /\ (mono L = true \/ MD t') /\ (~ resets o -> Frame (touches2 t xs o) t t').
Proof using F.
  intros T HM Ho. destruct o as [o|c data|A fu ord ord2 args|l e' u od|nc dr g| |es]; cbn [okx2 run_op2 touches2 resets] in *.
  - destruct (step_ok L t xs o T HM Ho) as (t' & xs' & E & T' & M' & N & HF). exists t', xs'. split_and!; try done. intros _. by eapply (frame_tree L).
  - destruct Ho as (Hm & V & e & Hin & Hoff). destruct c as [l off]. cbn [cu_leaf cu_offset] in *. apply elem_of_list_split in Hin as (X & Y & ->).
    destruct (decide (data = [])) as [->|Hne]; [exists t, (X ++ (l, e) :: Y); by split_and!|].
    destruct (fs_insert_many_all L F t X l e Y off data T Hoff V Hne) as (d & d1 & d2 & t' & xs' & _ & _ & _ & _ & _ & E & T' & _).
    exists t', xs'. split_and!; try done; [by left|]. intros _. by eapply (f_insert_many L F).
  - destruct Ho as (Hfu & Hne & HD & Hord & Hord2 & Hargs).
    destruct (t_ranges L F fu Hfu ord ord2 t xs args T Hne HD Hord Hord2 Hargs) as (nl & t' & Rs & E & T' & _). rewrite E. cbn [rbind].
    exists t', (concat Rs). split_and!; try done; [left; by apply (lw_diff_mono _ L)|]. intros _. by eapply (f_ranges L F fu Hfu ord ord2 t xs args nl t').
  - destruct Ho as (Hm & Hu & V & e & Hin & Hd). apply elem_of_list_split in Hin as (X & Y & ->).
    destruct (t_poke L u t X l e Y e' od Hu T V Hd) as (t1 & t' & E1 & E2 & T'). rewrite E1. cbn [ropt rbind]. exists t', (X ++ (l, e') :: Y).
    split_and!; try done; [by left|]. intros _. eapply frame_weak; [|by eapply f_poke]. cbn. intros ? _ ->. done.
  - destruct Ho as (Hm & HU & Hag). destruct (t_ucf_effect L nc dr g t xs T HU) as (t' & E & _ & _ & T'). rewrite E. cbn [rbind].
    exists t', (map (hx dr g) xs). split_and!; [done|by apply T'|by left|]. intros _.
    destruct (t_ucf_frame L nc dr g t xs T) as (t2 & E2 & _ & _ & _ & Ha & _ & _ & H1 & H2). rewrite E in E2. injection E2 as <-. split; [lia|].
    unfold get_elem. split; intros l Hl Hn; [by rewrite H2|]. destruct (a_get (leaf_nodes t) l) as [lf|] eqn:G; [done|].
    destruct (a_get (leaf_nodes t') l) as [lf'|] eqn:G'; [|done]. exfalso. assert (~ ~ a_get (leaf_nodes t') l = a_get (leaf_nodes t) l) as X; [|by apply X; rewrite G, G'].
    intros HX. assert (~ ~ Vis dr t (ALeaf l)) as HV by (intros HV; by apply HX, H2). apply HV. intros HV'. apply H1 in HV'. by rewrite G, G' in HV'.
  - exists (clear t), []. split_and!; [done|apply (Tree_new L)|right; apply MD_new|]. intros []. done.
  - destruct Ho as (Hm & V). destruct (t_from_iter L es V) as (t' & xs' & E & T' & _). exists t', xs'. split_and!; [done|done|by left|]. intros []. done.
Qed.
Theorem history2_ok os : forall t xs, Tree t xs -> (mono L = true \/ MD t) -> valid_ops2 t os ->
  exists t' xs', run_ops2 os t = Ok t' /\ Tree t' xs' /\ (mono L = true \/ MD t') /\
    (Forall (fun o => ~ resets o) os -> Frame (fun _ => True) t t').
Proof using F.
  induction os as [|o os IH]; intros t xs T HM Hv; cbn [run_ops2].
  - exists t, xs. split_and!; try done.
  - destruct Hv as [(ys & Hc & Ho) Hv]. assert (ys = xs) as -> by (eapply content_det; [exact Hc|by eapply Tree_content]).
    destruct (step2_ok t xs o T HM Ho) as (t1 & xs1 & E & T1 & HM1 & F1). rewrite E. cbn [rbind].
    destruct (IH t1 xs1 T1 HM1 (Hv t1 E)) as (t' & xs' & E' & T' & HM' & F2). exists t', xs'. split_and!; try done.
    intros [R1 R2]%Forall_cons. eapply frame_weak; [|exact (frame_trans _ _ _ _ _ (F1 R1) (F2 R2))]. done.
Qed.
Lemma valid_app2 os1 : forall os2 t t', valid_ops2 t (os1 ++ os2) -> run_ops2 os1 t = Ok t' -> valid_ops2 t os1 /\ valid_ops2 t' os2.
Proof.
  induction os1 as [|o os1 IH]; intros os2 t t' Hv E; cbn in *; [by injection E as ->|]. destruct Hv as [Ho Hv].
  destruct (run_op2 t o) as [t1| |] eqn:E1; cbn in E; try done. destruct (IH os2 t1 t' (Hv t1 eq_refl) E) as [H1 H2]. split; [|done].
  split; [done|]. by intros t2 [= <-].
Qed.
Theorem reach2_ok os : valid_ops2 bt_new os ->
  exists t xs, run_ops2 os bt_new = Ok t /\ Tree t xs /\ Content t xs /\
    (Shallow t 9 -> xs <> [] \/ mono L = true -> check t = Ok tt) /\
    (xs <> [] \/ mono L = true -> root_cache t = agg L xs) /\
    (forall i n, a_get (in_nodes t) i = Some n -> length (n_children n) <= 11) /\
    (exists ks, NoDup ks /\ (forall i, i ∈ ks <-> Reach t (AInt i)) /\ node_len t = length ks + length xs) /\
    (forall l e, get_elem t l = Some e <-> (l, e) ∈ xs).
Proof using F.
  intros Hv. destruct (history2_ok os bt_new [] (Tree_new L)) as (t & xs & E & T & HM & _); [by right; apply MD_new|done|].
  exists t, xs. split; [done|]. split; [done|]. split; [by eapply Tree_content|]. split; [by apply (t_check L)|]. split; [by apply (t_root_cache L)|].
  split. { intros i n Hi. by eapply (t_fan L). }
  split; [by apply (t_node_len L)|]. intros l e. by apply (t_get_elem L).
Qed.
(** a handle that was removed stays dead, as long as the tree is not cleared or replaced *)
Theorem dead_forever2 os1 os2 os3 l e t1 t2 t3 : valid_ops2 bt_new (os1 ++ os2 ++ os3) -> Forall (fun o => ~ resets o) (os2 ++ os3) ->
  run_ops2 os1 bt_new = Ok t1 -> get_elem t1 l = Some e ->
  run_ops2 os2 t1 = Ok t2 -> get_elem t2 l = None ->
  run_ops2 os3 t2 = Ok t3 -> get_elem t3 l = None.
Proof using F.
  intros Hv [R2 R3]%Forall_app E1 H1 E2 H2 E3. destruct (valid_app2 _ _ _ _ Hv E1) as [V1 V23]. destruct (valid_app2 _ _ _ _ V23 E2) as [V2 V3].
  destruct (history2_ok os1 bt_new [] (Tree_new L) ltac:(by right; apply MD_new) V1) as (t1' & x1 & E1' & T1 & M1 & _).
  rewrite E1 in E1'. injection E1' as <-.
  destruct (history2_ok os2 t1 x1 T1 M1 V2) as (t2' & x2 & E2' & T2 & M2 & F2). rewrite E2 in E2'. injection E2' as <-.
  destruct (history2_ok os3 t2 x2 T2 M2 V3) as (t3' & x3 & E3' & T3 & M3 & F3). rewrite E3 in E3'. injection E3' as <-.
  apply (t_get_elem L _ _ _ T1) in H1. pose proof (tree_old L _ _ _ _ T1 H1) as Hold. destruct (F2 R2) as (A1 & _). destruct (F3 R3) as (_ & _ & A3).
  apply A3; [lia|done].
Qed.
Theorem handle_stable2 os o t xs l e t' : valid_ops2 bt_new (os ++ [o]) -> run_ops2 os bt_new = Ok t -> Content t xs ->
  get_elem t l = Some e -> ~ touches2 t xs o l -> run_op2 t o = Ok t' -> get_elem t' l = Some e.
Proof using F.
  intros Hv E Hc He Ht E'. destruct (valid_app2 _ _ _ _ Hv E) as [V1 [(ys & Hy & Ho) _]].
  destruct (history2_ok os bt_new [] (Tree_new L) ltac:(by right; apply MD_new) V1) as (t1 & x1 & E1 & T1 & M1 & _).
  rewrite E in E1. injection E1 as <-. assert (x1 = xs) as -> by (eapply content_det; [by eapply Tree_content|done]).
  assert (ys = xs) as -> by (by eapply content_det).
  assert (~ resets o) as Hr by (intros Hr; apply Ht; by destruct o).
  destruct (step2_ok t xs o T1 M1 Ho) as (t2 & xs2 & E2 & T2 & _ & HF). rewrite E' in E2. injection E2 as <-.
  destruct (HF Hr) as (_ & HF2 & _). rewrite HF2; [done| |done]. apply (t_get_elem L _ _ _ T1) in He. by eapply (tree_old L).
Qed.
Lemma run_ops2_app os1 os2 t : run_ops2 (os1 ++ os2) t = (let? t1 := run_ops2 os1 t in run_ops2 (S0 := S0) os2 t1).
Proof. revert t. induction os1 as [|o os1 IH]; intros t; cbn; [done|]. destruct (run_op2 t o); cbn; [apply IH|done|done]. Qed.
Theorem reach2_check os : valid_ops2 bt_new os ->
  exists t xs, run_ops2 os bt_new = Ok t /\ Tree t xs /\ (Shallow t 9 -> xs <> [] \/ mono L = true -> check t = Ok tt).
Proof using F. intros Hv. destruct (reach2_ok os Hv) as (t & xs & E & T & C & Hc & _). by exists t, xs. Qed.
Theorem reach2_cache os : valid_ops2 bt_new os ->
  exists t xs, run_ops2 os bt_new = Ok t /\ Content t xs /\ (xs <> [] \/ mono L = true -> root_cache t = agg L xs).
Proof using F. intros Hv. destruct (reach2_ok os Hv) as (t & xs & E & T & C & _ & Hc & _). by exists t, xs. Qed.
Theorem reach2_fan os : valid_ops2 bt_new os ->
  exists t, run_ops2 os bt_new = Ok t /\ forall i n, a_get (in_nodes t) i = Some n -> length (n_children n) <= 11.
Proof using F. intros Hv. destruct (reach2_ok os Hv) as (t & xs & E & T & C & _ & _ & Hc & _). by exists t. Qed.
Theorem reach2_len os : valid_ops2 bt_new os ->
  exists t xs, run_ops2 os bt_new = Ok t /\ Content t xs /\
    exists ks, NoDup ks /\ (forall i, i ∈ ks <-> Reach t (AInt i)) /\ node_len t = length ks + length xs.
Proof using F. intros Hv. destruct (reach2_ok os Hv) as (t & xs & E & T & C & _ & _ & _ & Hc & _). by exists t, xs. Qed.
Theorem reach2_handles os : valid_ops2 bt_new os ->
  exists t xs, run_ops2 os bt_new = Ok t /\ Content t xs /\ NoDup xs.*1 /\ forall l e, get_elem t l = Some e <-> (l, e) ∈ xs.
Proof using F.
  intros Hv. destruct (reach2_ok os Hv) as (t & xs & E & T & C & _ & _ & _ & _ & Hc). exists t, xs. split_and!; [done|done|by eapply (tree_nodup L)|done].
Qed.
End hist.
