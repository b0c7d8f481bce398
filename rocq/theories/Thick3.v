(** Thick3.v — histories keep inner nodes off the left spine at five children or more; the depth is
    logarithmic in the number of elements, and histories on trees of bounded size need no hypothesis
    on the depth. *)
From Verif Require Export Hist2 Thick2.

Section thick.
Context {B : BTreeTrait} (L : Lawful B) {U : Type} (F : Flatten L U) {S0 : Type}.
Notation btree := (btree B).
Notation Tree := (Tree L).
Notation evalid := (evalid L).
Implicit Types (t : btree) (xs X Y : list (nat * Elem B)) (l : nat) (e : Elem B).

Lemma md_cuts t xs (a b : cursor) ea eb t2 : Tree t xs -> (cu_leaf a, ea) ∈ xs -> cu_offset a <= rle_len ea -> (cu_leaf b, eb) ∈ xs -> cu_offset b <= rle_len eb ->
  cur_le xs a b -> cuts t a b = Ok t2 -> MDw true t -> MDw true t2.
Proof.
  intros T Ha Hoa Hb Hob Hle E HM. destruct a as [la oa]. destruct b as [lb ob]. cbn [cu_leaf cu_offset] in *.
  destruct (t_cut L t xs lb eb ob T Hb Hob) as (sie & t1 & A & Z & E1 & T1 & C1 & _).
  pose proof (md_cut L _ _ _ _ _ _ _ T Hb Hob E1 HM) as HM1.
  pose proof (cut_before xs (mkCur la oa) _ _ A Z ea (tree_nodup L _ _ T) Hle C1 Ha Hoa) as Hpos. cbn [cu_leaf cu_offset] in Hpos.
  assert (exists ea', (la, ea') ∈ A ++ Z /\ oa <= rle_len ea') as (ea' & Ha' & Hoa').
  { destruct Hpos as [(ea' & Hx & Hy)|(-> & ea' & Hx)]; exists ea'; (split; [|first [done|lia]]).
    - clear -Hx; set_solver.
    - destruct Z; [done|]. injection Hx as ->. clear; set_solver. }
  destruct (t_cut L t1 (A ++ Z) la ea' oa T1 Ha' Hoa') as (sis & t3 & A1 & R1 & E2 & _).
  unfold cuts in E. rewrite E1 in E. cbn [rbind] in E. rewrite E2 in E. cbn [rbind] in E. injection E as <-.
  exact (md_cut L _ _ _ _ _ _ _ T1 Ha' Hoa' E2 HM1).
Qed.

Lemma step_md t xs (o : op B S0) t' : Tree t xs -> (mono L = true \/ MD t) -> okx L t xs o -> run_op t o = Ok t' -> MDw true t -> MDw true t'.
Proof.
  intros T HM Ho E M. destruct o as [x|x|c x|c|l f|a b ord fu s|a b k|Q q f]; cbn [okx run_op] in *.
  - destruct (t_push L t xs x T Ho) as (cur & t1 & E1 & M' & _). rewrite E1 in E. cbn [rbind] in E. injection E as <-. auto.
  - destruct Ho as [Vx Hne]. destruct (t_prepend L t xs x T Hne Vx) as (cur & t1 & E1 & M' & _). rewrite E1 in E. cbn [rbind] in E. injection E as <-. auto.
  - destruct Ho as (Vx & e & Hin & Hoff & Hb). destruct c as [l off]. cbn [cu_leaf cu_offset] in *. apply elem_of_list_split in Hin as (X & Y & ->).
    destruct (t_insert L t X l e Y off x T Hoff Vx) as (cur & sl & R & t1 & E1 & _ & _ & _ & M'). rewrite E1 in E. cbn [rbind] in E. injection E as <-. auto.
  - destruct c as [l off]. destruct (decide (l ∈ xs.*1)) as [Hin|Hin].
    + apply elem_of_list_fmap in Hin as ([l' e] & -> & Hin). cbn [fst] in *. apply elem_of_list_split in Hin as (X & Y & ->).
      destruct (t_remove L t X l' e Y off T HM) as (t1 & E1 & T' & M' & Ha). rewrite E1 in E. cbn [rbind] in E. injection E as <-. auto.
    + rewrite t_remove_dead in E. { cbn [rbind] in E. by injection E as <-. }
      destruct (a_get (leaf_nodes t) l) as [lf|] eqn:E0; [|done]. exfalso. apply Hin. apply (t_node_len L t xs T). by rewrite E0.
  - destruct Ho as (Hm & e & e1 & upd & n1 & n2 & Hin & Hf & V0 & V1 & V2 & Hc). apply elem_of_list_split in Hin as (X & Y & ->).
    destruct (t_update_leaf L t X l e Y f e1 upd n1 n2 T Hf V0 V1 V2 Hc) as (alive & sl & R & t1 & E1 & T' & HR & Ha & M'). rewrite E1 in E. cbn [rbind] in E. injection E as <-. auto.
  - destruct Ho as ((Hm & Sh & ea & eb & H1 & H2 & H3 & H4 & H5) & Hord & Hfu). destruct Sh as (t2' & Ec' & Sh).
    destruct (t_update_full L fu ord t xs a b ea eb s T H1 H2 H3 H4 H5 Hord Hfu) as (A & Z & A1 & W & t2 & Ec & T2 & G2 & S2 & C1 & C2 & HO & _).
    rewrite Ec' in Ec. injection Ec as ->. destruct (HO (or_intror Sh)) as (t1 & E1 & T' & G' & M'). rewrite E1 in E. cbn [rbind] in E. injection E as <-.
    apply M'. by eapply (md_cuts t xs a b ea eb).
  - destruct Ho as ((Hm & Sh & ea & eb & H1 & H2 & H3 & H4 & H5) & Hnz & Hend).
    destruct (drain_range t (Some (mkQR a true)) (Some (mkQR b true)) k) as [[es t1]| |] eqn:E1; cbn [rbind] in E; [|done|done]. injection E as <-.
    apply (md_drain L t xs a b ea eb true true k es t1 T H1 H2 H3 H4 H5).
    + intros _. by apply (Hnz (cu_leaf b)).
    + intros X Y l e -> _. apply (Hnz l). clear; set_solver.
    + intros X -> E0. exfalso. by eapply (Hend X ea).
    + done.
    + done.
  - destruct Ho as (Hm & Sh & l & e & off & fd & s' & Hin & Hq & Hf). apply elem_of_list_split in Hin as (X & Y & ->).
    destruct (t_ulbs L Q t X l e Y q off fd s' f T Sh Hq) as (fnd & _ & _ & Hu). destruct (Hf fnd) as (e' & d & n1 & F1 & F2 & F3 & F4 & F5).
    destruct (Hu e' d n1 F1 F2 F3 F4 F5) as (rc & sl & R & t1 & E1 & T' & HR & Ha & M'). rewrite E1 in E. cbn [rbind] in E. injection E as <-. auto.
Qed.

Definition collects (o : op2 B S0) : Prop := match o with QCollect _ => True | _ => False end.

Lemma ucf_SH nc dr g t xs t' : Tree t xs -> update_cache_and_elem_with_filter (pfu nc dr) (pgu g) t tt = Ok (tt, t') -> SH t t'.
Proof.
  intros T E. destruct (t_ucf_frame L nc dr g t xs T) as (t2 & E2 & Hr & _ & Hai & Hal & I1 & I2 & L1 & L2). rewrite E in E2. injection E2 as <-.
  assert (HI : forall i, chs t' i = chs t i /\ lnk t' i = lnk t i).
  { intros i. destruct (decide (chs t' i = chs t i /\ lnk t' i = lnk t i)) as [|Hn]; [done|exfalso].
    assert (~ Vis dr t (AInt i)) as HV.
    { intros HV. apply Hn. unfold chs, kids, lnk. rewrite (I1 i HV). destruct (a_get (in_nodes t) i) as [n|]; [|done]. cbn. split; [|done].
      rewrite map_map. done. }
    apply Hn. unfold chs, kids, lnk. by rewrite (I2 i HV). }
  constructor; [done|apply HI|apply HI| |done|done].
  intros l. destruct (decide (llnk t' l = llnk t l)) as [|Hn]; [done|exfalso].
  assert (~ Vis dr t (ALeaf l)) as HV.
  { intros HV. apply Hn. unfold llnk. rewrite (L1 l HV). by destruct (a_get (leaf_nodes t) l). }
  apply Hn. unfold llnk. by rewrite (L2 l HV).
Qed.

Lemma step2_md t xs (o : op2 B S0) t' : Tree t xs -> (mono L = true \/ MD t) -> okx2 L t xs o -> ~ collects o -> run_op2 t o = Ok t' -> MDw true t -> MDw true t'.
Proof using F.
  intros T HM Ho Hnc E M. destruct o as [o|c data|A fu ord ord2 args|l e' u od|nc dr g| |es]; cbn [okx2 run_op2 collects] in *.
  - by eapply step_md.
  - destruct Ho as (Hm & V & e & Hin & Hoff). destruct c as [l off]. cbn [cu_leaf cu_offset] in *. apply elem_of_list_split in Hin as (X & Y & ->).
    by eapply (md_insert_many L F t X l e Y off data).
  - destruct Ho as (Hfu & Hne & HD & Hord & Hord2 & Hargs).
    destruct (t_ranges L F fu Hfu ord ord2 t xs args T Hne HD Hord Hord2 Hargs) as (nl & t1 & Rs & E1 & _ & _ & _ & M'). rewrite E1 in E. cbn [rbind] in E. injection E as <-. auto.
  - destruct Ho as (Hm & Hu & V & e & Hin & Hd). apply elem_of_list_split in Hin as (X & Y & ->).
    destruct (tree_leaf L t X l e Y T) as [p Hl]. unfold poke in E. rewrite Hl in E. cbn in E.
    destruct (RopeP.t_set_elem L u t X l e Y e' p od Hu T) as (t1 & E1 & _ & M'); [unfold get_lf; by rewrite Hl|done|done|].
    unfold with_elem in E. cbn in E. rewrite E1 in E. injection E as <-. auto.
  - destruct (update_cache_and_elem_with_filter (pfu nc dr) (pgu g) t tt) as [[[] t1]| |] eqn:E1; cbn [rbind] in E; [|done|done]. injection E as <-.
    apply (MD_SH _ t); [|done]. by eapply ucf_SH.
  - injection E as <-. apply MD_new.
  - done.
Qed.

(** after any history the depth is logarithmic *)
Lemma history_md os : forall t xs, Tree t xs -> (mono L = true \/ MD t) -> valid_ops2 L t os -> Forall (fun o => ~ collects o) os -> MDw true t ->
  exists t' xs', run_ops2 os t = Ok t' /\ Tree t' xs' /\ MDw true t'.
Proof using F.
  induction os as [|o os IH]; intros t xs T HM Hv Hc M; cbn [run_ops2].
  - by exists t, xs.
  - apply Forall_cons in Hc as [Hc1 Hc]. destruct Hv as [(ys & Hcn & Ho) Hv]. assert (ys = xs) as -> by (eapply content_det; [exact Hcn|by eapply Tree_content]).
    destruct (step2_ok L F t xs o T HM Ho) as (t1 & xs1 & E & T1 & HM1 & _). rewrite E. cbn [rbind].
    apply (IH t1 xs1 T1 HM1 (Hv t1 E) Hc). by eapply (step2_md t xs o).
Qed.
Theorem thick_log t xs d : Tree t xs -> MDw true t -> InOrder t (root t) d xs -> 2 <= d -> xs <> [] -> 5 ^ (d - 1) < length xs.
Proof. intros T M I Hd Hne. exact (t_depth_min5 L t d xs T Hne M I Hd). Qed.
Theorem history_log os : valid_ops2 L bt_new os -> Forall (fun o => ~ collects o) os ->
  exists t xs, run_ops2 os bt_new = Ok t /\ Content t xs /\ MDw true t /\
    (forall d, InOrder t (root t) d xs -> 2 <= d -> xs <> [] -> 5 ^ (d - 1) < length xs) /\
    (forall k, 1 <= k -> length xs <= 5 ^ k -> Shallow t k).
Proof using F.
  intros Hv Hc. destruct (history_md os bt_new [] (Tree_new L)) as (t & xs & E & T & M); [right; apply MD_new|done|done|apply MD_new|].
  exists t, xs. split; [done|]. split; [by eapply Tree_content|]. split; [done|]. split; [intros d; by apply thick_log|].
  intros k. by apply (thick_shallow L t xs k T M).
Qed.

(** ** trees of bounded size: no hypothesis on the depth.  [okf] is [okx2] without the depth. *)
Definition rangef xs (a b : cursor) : Prop :=
  mono L = true /\ exists ea eb, (cu_leaf a, ea) ∈ xs /\ cu_offset a <= rle_len ea /\ (cu_leaf b, eb) ∈ xs /\ cu_offset b <= rle_len eb /\ cur_le xs a b.
Definition okf t xs (o : op2 B S0) : Prop :=
  match o with
  | QBase (OUpdate a b ord fu s) => rangef xs a b /\ (forall w, ord w ≡ₚ w) /\ upd_sound L fu
  | QBase (ODrain a b k) => rangef xs a b /\ (forall l e, (l, e) ∈ xs -> rle_len e <> 0) /\
      (forall X e, xs = X ++ [(cu_leaf a, e)] -> cu_offset a <> rle_len e)
  | QBase (OSearch Q q f) => mono L = true /\ exists l e off fd s', (l, e) ∈ xs /\
      query_with_finder_return Q t q = Ok (Some (mkQR (mkCur l off) fd), s') /\
      forall fnd, exists e' d n1, f e (mkQR (mkCur l off) fnd) = (e', Some (d, n1, None)) /\ evalid e' /\
        (forall x, n1 = Some x -> evalid x) /\ (can_remove e' = true -> n1 = None) /\
        drel L (get_elem_cache e) d (summ L (map get_elem_cache (ul_kept e' n1)))
  | QCollect _ => False
  | _ => okx2 L t xs o
  end.
Fixpoint sized_ops t (os : list (op2 B S0)) : Prop :=
  match os with [] => True
  | o :: os' => (exists xs, Content t xs /\ length xs <= 5 ^ 7 /\ okf t xs o) /\ forall t', run_op2 t o = Ok t' -> sized_ops t' os' end.
Lemma rangef_ok t xs a b : Tree t xs -> Shallow t 7 -> rangef xs a b -> valid_range L t xs a b.
Proof.
  intros T Sh (Hm & ea & eb & H1 & H2 & H3 & H4 & H5). split; [done|]. split; [|by exists ea, eb].
  destruct (cuts_shallow L t xs a b ea eb T H1 H2 H3 H4 H5) as (t2 & E & S2). exists t2. split; [done|]. by apply (S2 7).
Qed.
Lemma okf_ok t xs o : Tree t xs -> Shallow t 7 -> okf t xs o -> okx2 L t xs o /\ ~ collects o.
Proof.
  intros T Sh Ho. destruct o as [[x|x|c x|c|l f|a b ord fu s|a b k|Q q f]|c data|A fu ord ord2 args|l e' u od|nc dr g| |es]; cbn [okf okx2 okx collects] in *; try (split; [done|by intros []]).
  - destruct Ho as (Hr & ? & ?). split; [|by intros []]. split; [by apply rangef_ok|done].
  - destruct Ho as (Hr & ? & ?). split; [|by intros []]. split; [by apply rangef_ok|done].
  - destruct Ho as (Hm & Ho). split; [|by intros []]. split; [done|]. split; [|done]. destruct Sh as (d & ys & ? & ?). exists d, ys. split; [done|lia].
Qed.
Theorem history_sized os : forall t xs, Tree t xs -> (mono L = true \/ MD t) -> MDw true t -> sized_ops t os ->
  exists t' xs', run_ops2 os t = Ok t' /\ Tree t' xs' /\ (mono L = true \/ MD t') /\ MDw true t'.
Proof using F.
  induction os as [|o os IH]; intros t xs T HM M Hv; cbn [run_ops2].
  - by exists t, xs.
  - destruct Hv as [(ys & Hcn & Hl & Ho) Hv]. assert (ys = xs) as -> by (eapply content_det; [exact Hcn|by eapply Tree_content]).
    pose proof (thick_shallow L t xs 7 T M ltac:(lia) Hl) as Sh. destruct (okf_ok t xs o T Sh Ho) as [Ho' Hc].
    destruct (step2_ok L F t xs o T HM Ho') as (t1 & xs1 & E & T1 & HM1 & _). rewrite E. cbn [rbind].
    apply (IH t1 xs1 T1 HM1); [by eapply (step2_md t xs o)|by apply Hv].
Qed.
Theorem reach_sized os : sized_ops bt_new os ->
  exists t xs, run_ops2 os bt_new = Ok t /\ Tree t xs /\ MDw true t /\
    (length xs <= 5 ^ 9 -> xs <> [] \/ mono L = true -> check t = Ok tt).
Proof using F.
  intros Hv. destruct (history_sized os bt_new [] (Tree_new L)) as (t & xs & E & T & HM & M); [right; apply MD_new|apply MD_new|done|].
  exists t, xs. split; [done|]. split; [done|]. split; [done|]. intros Hl Hne. apply (t_check L t xs T); [|done].
  apply (thick_shallow L t xs 9 T M); [lia|done].
Qed.
End thick.
(** [MDw true], read off the stored nodes *)
Lemma thick_raw {B : BTreeTrait} (t : btree B) : MDw true t ->
  (forall i n, a_get (in_nodes t) i = Some n -> AInt i <> root t -> SP t i \/ 5 <= length (n_children n)) /\
  (forall i n c, a_get (in_nodes t) i = Some n -> AInt i = root t -> c ∈ n_children n -> (exists j, c_arena c = AInt j) -> 2 <= length (n_children n)).
Proof.
  intros [M1 M2]. split.
  - intros i n Hi Hr.
    destruct (M1 i) as [?|H5]; [unfold kids; rewrite Hi; eauto|done|by left|right]. revert H5. unfold chs, kids. rewrite Hi. cbn. by rewrite map_length.
  - intros i n c Hi Hr Hc [j Hj]. specialize (M2 j). rewrite <- Hr in M2. cbn [raw] in M2. revert M2. unfold chs, kids. rewrite Hi. cbn. rewrite map_length. intros M2. apply M2.
    rewrite <- Hj. apply elem_of_list_fmap. by exists c.
Qed.
