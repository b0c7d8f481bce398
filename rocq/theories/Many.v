(** Many.v — sequence semantics of insertion (elements flattened to their units) and bulk
    insertion (insert_many_by_cursor, /repo/src/lib.rs:677-749). *)
From Verif Require Export Upd Query.

(** ** Specification: elements as sequences of units *)
Record Flatten {B : BTreeTrait} (L : Lawful B) (U : Type) : Type := mkFl {
  fl : Elem B -> list U;
  fl_len : forall e, evalid L e -> length (fl e) = rle_len e;
  fl_split : forall e off a b, evalid L e -> 0 < off < rle_len e -> e_split e off = Ok (a, b) ->
    fl a = take off (fl e) /\ fl b = drop off (fl e);
  fl_try : forall e off x e', evalid L e -> evalid L x -> off <= rle_len e -> try_insert e off x = Ok (inl e') ->
    fl e' = take off (fl e) ++ fl x ++ drop off (fl e);
  fl_mr : forall a b c, evalid L a -> evalid L b -> can_merge a b = true -> merge_right a b = Ok c -> fl c = fl a ++ fl b;
  fl_ml : forall a b c, evalid L a -> evalid L b -> can_merge a b = true -> merge_left b a = Ok c -> fl c = fl a ++ fl b;
  fl_rm : forall e, evalid L e -> can_remove e = true -> fl e = [];
}.
Arguments fl {B L U} _ _.

(** position of a cursor, start of a leaf, leaves of positive length *)
Section defs.
Context {B : BTreeTrait}.
Implicit Types (xs : list (nat * Elem B)).
Lemma tlen_snoc xs l e : tlen (xs ++ [(l, e)]) = tlen xs + rle_len e.
Proof. rewrite tlen_app, tlen_cons, tlen_nil. lia. Qed.
Definition CurAt xs (c : cursor) (p : nat) : Prop :=
  exists X e Y, xs = X ++ (cu_leaf c, e) :: Y /\ cu_offset c <= rle_len e /\ p = tlen X + cu_offset c.
Definition Starts xs (l p : nat) : Prop := exists X e Y, xs = X ++ (l, e) :: Y /\ tlen X = p.
Definition Keep (p : nat) xs xs' : Prop := forall l p1, Starts xs l p1 -> p1 < p -> Starts xs' l p1.
Definition NZ xs : Prop := forall l e, (l, e) ∈ xs -> rle_len e <> 0.
End defs.

Section many.
Context {B : BTreeTrait} (L : Lawful B).
Notation btree := (btree B).
Notation OK := (OK L).
Notation Tree := (Tree L).
Implicit Types (t : btree) (xs X Y : list (nat * Elem B)).

(** ** the left neighbour reported by split_leaf_if_needed *)
Lemma at_leaf_prev t H lv l e p A c0 c Z X Y : OK t H lv -> at_leaf t lv l e p (A ++ [c0]) c Z -> cont t H = X ++ (l, e) :: Y ->
  exists l0 e0 X', c_arena c0 = ALeaf l0 /\ X = X' ++ [(l0, e0)].
Proof.
  intros O AL Hc. pose proof AL as (Hk & Ha & Hlv & He & _).
  pose proof (ok_wt _ _ _ _ O) as W. pose proof (ok_lk _ _ _ _ O) as K.
  assert (c_arena c0 ∈ chs t p) as Hin.
  { rewrite (chs_kids _ _ _ Hk). apply elem_of_list_fmap_1. clear. set_solver. }
  destruct (wt_leaf_child W p _ Hin Hlv) as [nx Ex].
  assert (live t (c_arena c0)) as Hlive. { apply elem_of_list_lookup in Hin as [k Hin]. by apply (wt_ch W) in Hin as [? _]. }
  rewrite Ex in Hlive. destruct Hlive as [ey Hey].
  destruct (ed_cont W Hlv (rp_ED L W K Hlv (RP_set t H lv l e e p (A ++ [c0]) c Z W AL))) as (X0 & Y0 & G1 & _).
  rewrite !map_app, !pel_app in G1. cbn [map] in G1. rewrite Ha, (pel_cons _ _ _ _ He), Ex, (pel_cons _ _ _ _ Hey) in G1.
  pose proof (cont_nodup W) as Hnd. apply NoDup_fmap_1 in Hnd. rewrite G1 in Hc, Hnd.
  exists nx, ey, (X0 ++ pel t (map c_arena A)). split; [done|].
  replace (X0 ++ ((pel t (map c_arena A) ++ (nx, ey) :: pel t []) ++ (l, e) :: pel t (map c_arena Z)) ++ Y0)
    with ((X0 ++ pel t (map c_arena A) ++ [(nx, ey)]) ++ (l, e) :: (pel t (map c_arena Z) ++ Y0)) in Hc, Hnd
    by (change (pel t []) with (@nil (nat * Elem B)); rewrite <- !app_assoc; cbn; rewrite <- ?app_assoc; done).
  apply nodup_split_unique in Hc as [<- _]; [|done]. by rewrite <- app_assoc.
Qed.
Lemma spl_left f : forall t H lv l e off X Y si t' l0, OK t H lv -> cont t H = X ++ (l, e) :: Y ->
  split_leaf_f f t (mkCur l off) = Ok (si, t') -> si_left si = Some l0 -> exists X' e0, X = X' ++ [(l0, e0)].
Proof.
  induction f as [|f IH]; intros t H lv l e off X Y si t' l0 O Hc E Hl0; [done|].
  pose proof (ok_wt _ _ _ _ O) as W.
  assert (He : el t l = Some e). { apply (cont_el (H := H)). rewrite Hc. clear; set_solver. }
  destruct (at_leaf_ok t H lv l e W (ok_lk _ _ _ _ O) He) as (p & A & c & Z & AL). pose proof AL as (Hk & Ha & Hlv & _ & Hl & Hget & Hrp & _ & po & s & Hg & Hlk).
  cbn [split_leaf_f cu_leaf cu_offset] in E. rewrite Hget in E. cbn [rbind l_parent l_elem] in E. rewrite Hg in E. cbn [rbind n_children] in E.
  rewrite Hrp in E. cbn [ropt rbind] in E.
  assert (G : exists lft, (match length A with 0 => Ok None | S s0 => let? c0 := vec_get (A ++ c :: Z) s0 in Ok (Some (raw (c_arena c0))) end) = Ok lft /\
    forall l1, lft = Some l1 -> exists X' e0, X = X' ++ [(l1, e0)]).
  { destruct (rev A) as [|c0 A'] eqn:EA.
    - apply (f_equal (@rev _)) in EA. rewrite rev_involutive in EA. cbn in EA. subst A. exists None. by split.
    - apply (f_equal (@rev _)) in EA. rewrite rev_involutive in EA. cbn in EA. subst A. rewrite app_length. cbn [length]. rewrite Nat.add_comm. cbn.
      unfold vec_get. rewrite <- app_assoc. cbn [app]. rewrite list_lookup_middle by done. cbn [ropt rbind]. eexists. split; [done|]. intros l1 [= <-].
      destruct (at_leaf_prev t H lv l e p _ c0 c Z X Y O AL Hc) as (l2 & e2 & X' & -> & ->). cbn. eauto. }
  destruct G as (lft & El & G). rewrite El in E. cbn [rbind] in E.
  destruct (decide (off = 0)) as [H0|H0]. { injection E as <- <-. by apply G. }
  destruct (decide (off = rle_len e)) as [H1|H1].
  { destruct (match (A ++ c :: Z) !! S (length A) with | Some c1 => _ | None => _ end) as [np| |]; try done. cbn [rbind] in E. injection E as <- <-. by apply G. }
  unfold rassert in E. destruct (bool_decide (off < rle_len e)) eqn:Hb; [|done]. cbn [rbind] in E. 
  destruct (decide (12 <= length (A ++ c :: Z) + 1)) as [H12|H12].
  - destruct (BTree.split t (AInt p)) as [t0| |] eqn:Es; try done. cbn [rbind] in E.
    assert (length (chs t p) = 11) as H11.
    { pose proof (ok_sz _ _ _ _ O p). rewrite (chs_kids _ _ _ Hk), map_length in *. lia. }
    destruct (split_ok L (H - lv p) t H lv p (fuel t) W (ok_lk _ _ _ _ O) (ok_va _ _ _ _ O) (ok_co _ _ _ _ O) (ok_rc _ _ _ _ O))
      as (t1 & H1' & lv1 & Es' & O1 & Hgen & He1 & _); try lia.
    { rewrite Hk. eauto. } { intros j _. apply (ok_sz _ _ _ _ O). }
    { pose proof (wt_depth_bound W p) as Hd. rewrite Hk in Hd. specialize (Hd ltac:(eauto)). unfold fuel. lia. }
    unfold BTree.split in Es. rewrite Es' in Es. injection Es as ->.
    eapply (IH t0 H1' lv1 l e off X Y); try done. rewrite <- Hc. by apply cont_same.
  - destruct (e_split e off) as [[e1 e2]| |]; try done. cbn [rbind] in E.
    destruct (ins_lf _ _) as [nl t2]. destruct (set_child_cache _ _ _) as [cs| |]; try done. cbn [rbind] in E.
    destruct (vec_insert _ _ _ _) as [cs'| |]; try done. cbn [rbind] in E. injection E as <- <-. by apply G.
Qed.
Lemma t_split_left t X l e Y off si t' l0 : Tree t (X ++ (l, e) :: Y) -> split_leaf_if_needed t (mkCur l off) = Ok (si, t') -> si_left si = Some l0 ->
  exists X' e0, X = X' ++ [(l0, e0)].
Proof. intros (H & lv & O & Hc)%Tree_OK E Hl. eapply spl_left; eauto. Qed.

(** ** flattening *)
Context {U : Type} (F : Flatten L U).
Definition ft xs : list U := concat (map (fun x => fl F (snd x)) xs).
Lemma ft_app xs ys : ft (xs ++ ys) = ft xs ++ ft ys.
Proof. unfold ft. by rewrite map_app, concat_app. Qed.
Lemma ft_cons l e xs : ft ((l, e) :: xs) = fl F e ++ ft xs.
Proof. done. Qed.
Lemma ft_len xs : (forall l e, (l, e) ∈ xs -> evalid L e) -> length (ft xs) = tlen xs.
Proof.
  induction xs as [|[l e] xs IH]; intros V; [done|]. rewrite ft_cons, tlen_cons, app_length, IH, (fl_len L U F e); [done| |].
  - apply (V l). left.
  - intros l' e' Hin. apply (V l'). by right.
Qed.
Lemma tree_vX t X Z l e : Tree t (X ++ Z) -> (l, e) ∈ X -> evalid L e.
Proof. intros T Hin. eapply (tree_valid L _ _ l e T). rewrite elem_of_app. by left. Qed.
Lemma tree_ve t X l e Y : Tree t (X ++ (l, e) :: Y) -> evalid L e.
Proof. intros T. eapply (tree_valid L _ _ l e T). rewrite elem_of_app. right. left. Qed.
Lemma ft_cut X l e Y off : (forall l e, (l, e) ∈ X -> evalid L e) -> evalid L e -> off <= rle_len e ->
  take (tlen X + off) (ft (X ++ (l, e) :: Y)) = ft X ++ take off (fl F e) /\
  drop (tlen X + off) (ft (X ++ (l, e) :: Y)) = drop off (fl F e) ++ ft Y.
Proof.
  intros VX Ve Ho. pose proof (ft_len X VX) as HX. pose proof (fl_len L U F e Ve) as He. rewrite ft_app, ft_cons. split.
  - rewrite take_add_app by done. by rewrite take_app_le by lia.
  - rewrite drop_add_app by done. by rewrite drop_app_le by lia.
Qed.
Lemma keep_refl p xs : Keep p xs xs.
Proof. by intros l p1. Qed.
Lemma keep_trans p xs ys zs : Keep p xs ys -> Keep p ys zs -> Keep p xs zs.
Proof. intros H1 H2 l p1 Hs Hp. by apply H2; [apply H1|]. Qed.
Lemma keep_le p q xs ys : q <= p -> Keep p xs ys -> Keep q xs ys.
Proof. intros Hq H1 l p1 Hs Hp. apply H1; [done|lia]. Qed.
(** a change at or after position [tlen X + off] in [X ++ (l, e) :: Y] *)
Lemma keep_at X l e Y off R : off <= rle_len e -> (off <> 0 -> exists e1 R', R = (l, e1) :: R') -> Keep (tlen X + off) (X ++ (l, e) :: Y) (X ++ R).
Proof.
  intros Ho HR l1 p1 (X1 & e1 & Y1 & E & <-) Hp. apply app_eq_inv in E as [(k & E1 & E2)|(k & E1 & E2)].
  - destruct k as [|z k].
    + cbn in E2. injection E2 as -> -> ->. rewrite app_nil_r in E1. subst X1. destruct HR as (e2 & R' & ->); [lia|]. by exists X, e2, R'.
    + cbn in E2. injection E2 as <- E2. subst X. exists X1, e1, (k ++ R). by rewrite <- app_assoc.
  - destruct k as [|z k].
    + cbn in E2. injection E2 as <- <- <-. rewrite app_nil_r in E1. subst X1. destruct HR as (e2 & R' & ->); [lia|]. by exists X, e2, R'.
    + cbn in E2. injection E2 as <- E2. subst X1. rewrite tlen_app, tlen_cons in Hp. lia.
Qed.

(** ** one insertion, as an operation on the sequence *)
Theorem fs_insert t xs cur p x : Tree t xs -> CurAt xs cur p -> evalid L x ->
  exists cur' sl t' xs', insert_by_path t cur x = Ok (cur', sl, t') /\ Tree t' xs' /\
    ft xs' = take p (ft xs) ++ fl F x ++ drop p (ft xs) /\ CurAt xs' cur' p /\ Keep p xs xs' /\ (NZ xs -> rle_len x <> 0 -> NZ xs').
Proof.
  intros T (X & e & Y & -> & Ho & ->) Vx. destruct cur as [l off]. cbn [cu_leaf cu_offset] in *.
  pose proof (fun l e => tree_vX t X _ l e T) as VX. pose proof (tree_ve _ _ _ _ _ T) as Ve.
  destruct (ft_cut X l e Y off VX Ve Ho) as [-> ->].
  destruct (t_insert L t X l e Y off x T Ho Vx) as (cur' & sl & R & t' & E & T' & HI & _).
  exists cur', sl, t', (X ++ R ++ Y). split; [done|]. split; [done|]. rewrite !ft_app.
  assert (HN : forall R', (forall l1 e1, (l1, e1) ∈ R' -> rle_len e1 <> 0) -> NZ (X ++ (l, e) :: Y) -> NZ (X ++ R' ++ Y)).
  { intros R' HR' Hnz l1 e1 [Hin|[Hin|Hin]%elem_of_app]%elem_of_app; [|by eapply HR'|]; apply (Hnz l1 e1); rewrite elem_of_app, elem_of_cons; tauto. }
  assert (Hed : NZ (X ++ (l, e) :: Y) -> rle_len e <> 0). { intros Hnz. apply (Hnz l e). rewrite elem_of_app. right. left. }
  assert (Vte : forall e', try_insert e off x = Ok (inl e') -> rle_len e' = rle_len e + rle_len x).
  { intros e' Et. destruct (lw_try _ L e off x Ve Vx Ho) as [(e2 & E2 & _ & E3 & _)|E2]; congruence. }
  inversion HI as [e' H1|e' H1 H2 H3 H4|e' H1 H2 H3 H4 H5|n H1 H2 H3 H4 H5|n H1 H2 H3 H4 H5|n n2 e1 e2 H1 H2 H3 H4 H5 H6]; subst; cbn [cu_leaf cu_offset].
  - specialize (Vte _ H1). split_and!.
    + rewrite (ft_cons l e' []), (fl_try L U F e off x e' Ve Vx Ho H1). cbn. by rewrite app_nil_r, <- !app_assoc.
    + exists X, e', Y. cbn. split_and!; [done|lia|done].
    + apply keep_at; [done|]. intros _. cbn. eauto.
    + intros Hn Hx. apply HN; [|done]. intros l1 e1 [= -> ->]%elem_of_list_singleton. lia.
  - destruct (lw_ml _ L x e Vx Ve H3) as (c & Ec & _ & El & _). rewrite H4 in Ec. injection Ec as <-. split_and!.
    + rewrite (ft_cons l e' []), (fl_ml L U F x e e' Vx Ve H3 H4). cbn. by rewrite !app_nil_r, <- !app_assoc.
    + exists X, e', Y. cbn. split_and!; [done|lia|done].
    + apply keep_at; [done|]. intros _. cbn. eauto.
    + intros Hn Hx. apply HN; [|done]. intros l1 e1 [= -> ->]%elem_of_list_singleton. lia.
  - destruct (lw_mr _ L e x Ve Vx H4) as (c & Ec & _ & El & _). rewrite H5 in Ec. injection Ec as <-. split_and!.
    + rewrite (ft_cons l e' []), (fl_mr L U F e x e' Ve Vx H4 H5). rewrite take_ge, drop_ge by (rewrite (fl_len L U F e Ve); lia). cbn. by rewrite !app_nil_r, <- !app_assoc.
    + exists X, e', Y. cbn. split_and!; [done|lia|done].
    + apply keep_at; [done|]. intros _. cbn. eauto.
    + intros Hn Hx. apply HN; [|done]. intros l1 e1 [= -> ->]%elem_of_list_singleton. lia.
  - split_and!.
    + rewrite !ft_cons. cbn. by rewrite !app_nil_r, <- !app_assoc.
    + exists X, x, ((l, e) :: Y). cbn. split_and!; [done|lia|done].
    + apply keep_at; [done|]. done.
    + intros Hn Hx. apply HN; [|done]. intros l1 e1 [[= -> ->]|[= -> ->]%elem_of_list_singleton]%elem_of_cons; [done|by apply Hed].
  - split_and!.
    + rewrite !ft_cons. rewrite take_ge, drop_ge by (rewrite (fl_len L U F e Ve); lia). cbn. by rewrite !app_nil_r, <- !app_assoc.
    + exists (X ++ [(l, e)]), x, Y. cbn [cu_leaf cu_offset app]. rewrite <- (app_assoc X [(l, e)]). rewrite tlen_snoc. split_and!; [done|lia|lia].
    + apply keep_at; [done|]. intros _. cbn. eauto.
    + intros Hn Hx. apply HN; [|done]. intros l1 e1 [[= -> ->]|[= -> ->]%elem_of_list_singleton]%elem_of_cons; [by apply Hed|done].
  - destruct (lw_split _ L e off Ve H2) as (c1 & c2 & Ec & _ & _ & El1 & El2 & _). rewrite H3 in Ec. injection Ec as <- <-.
    destruct (fl_split L U F e off e1 e2 Ve H2 H3) as [F1 F2]. split_and!.
    + rewrite !ft_cons, F1, F2. cbn. by rewrite !app_nil_r, <- !app_assoc.
    + exists (X ++ [(l, e1)]), x, ((n2, e2) :: Y). cbn [cu_leaf cu_offset app]. rewrite <- (app_assoc X [(l, e1)]). rewrite tlen_snoc. split_and!; [done|lia|lia].
    + apply keep_at; [done|]. intros _. cbn. eauto.
    + intros Hn Hx. apply HN; [|done]. intros l1 e' [[= -> ->]|[[= -> ->]|[= -> ->]%elem_of_list_singleton]%elem_of_cons]%elem_of_cons; [lia|done|lia].
Qed.
Theorem fs_insert_rev items : forall t xs cur p, Tree t xs -> CurAt xs cur p -> Forall (evalid L) items ->
  exists t' xs', insert_rev t cur items = Ok t' /\ Tree t' xs' /\
    ft xs' = take p (ft xs) ++ concat (map (fl F) (rev items)) ++ drop p (ft xs) /\ Keep p xs xs' /\ (NZ xs -> Forall (fun x => rle_len x <> 0) items -> NZ xs').
Proof.
  induction items as [|x items IH]; intros t xs cur p T HC V; cbn [insert_rev].
  - exists t, xs. split_and!; try done; [cbn; by rewrite take_drop|apply keep_refl].
  - apply Forall_cons in V as [Vx V]. destruct (fs_insert t xs cur p x T HC Vx) as (cur' & sl & t1 & xs1 & -> & T1 & F1 & C1 & K1 & N1). cbn [rbind].
    destruct (IH t1 xs1 cur' p T1 C1 V) as (t' & xs' & -> & T' & F' & K' & N'). exists t', xs'. split_and!; try done.
    + rewrite F', F1. assert (length (take p (ft xs)) = p) as Hp.
      { rewrite take_length. destruct HC as (X & e & Y & -> & Ho & ->). rewrite ft_len, tlen_app, tlen_cons; [lia|]. intros; by eapply (tree_valid L _ _ _ _ T). }
      rewrite take_app_alt, drop_app_alt by done. cbn [rev]. rewrite map_app, concat_app. cbn. by rewrite app_nil_r, <- !app_assoc.
    + by eapply keep_trans.
    + intros Hn [Hx HF]%Forall_cons. apply N'; [by apply N1|done].
Qed.

(** ** merge_adj on unmergeable data; absorption by the left neighbour *)
Definition NoAdj (data : list (Elem B)) : Prop := forall i a b, data !! i = Some a -> data !! S i = Some b -> can_merge a b = false.
Lemma merge_adj_f_id f : forall data i ds, NoAdj data -> length data <= f + i -> 0 < f -> data <> [] -> merge_adj_f f data i (length data - 1) ds 0 = Ok data.
Proof.
  induction f as [|f IH]; intros data i ds HN Hf H0 Hne; [lia|]. cbn [merge_adj_f].
  destruct (decide (i < length data - 1)) as [Hi|Hi]; [|by rewrite decide_False by lia].
  destruct (lookup_lt_is_Some_2 data i) as [a Ha]; [lia|]. destruct (lookup_lt_is_Some_2 data (S i)) as [b Hb]; [lia|].
  unfold vec_get at 1 2. rewrite Ha, Hb. cbn [ropt rbind]. rewrite (HN i a b Ha Hb). apply IH; [done|lia|lia|done].
Qed.
Lemma merge_adj_id data : NoAdj data -> data <> [] -> merge_adj data = Ok data.
Proof. intros HN Hne. unfold merge_adj. destruct data; [done|]. apply merge_adj_f_id; [done|lia|lia|done]. Qed.
Lemma absorb_ok data : forall e, evalid L e -> Forall (evalid L) data -> exists e' d1 d2, absorb_right e data = Ok (e', d2) /\ data = d1 ++ d2 /\ evalid L e' /\
  fl F e' = fl F e ++ concat (map (fl F) d1) /\ rle_len e <= rle_len e' /\ (forall x, head data = Some x -> can_merge e x = false -> e' = e /\ d1 = []).
Proof.
  induction data as [|x data IH]; intros e Ve V; cbn [absorb_right].
  - exists e, [], []. cbn. rewrite app_nil_r. done.
  - apply Forall_cons in V as [Vx V]. destruct (can_merge e x) eqn:Em.
    + destruct (lw_mr _ L e x Ve Vx Em) as (c & Ec & Vc & El & _). rewrite Ec. cbn [rbind].
      destruct (IH c Vc V) as (e' & d1 & d2 & -> & -> & Ve' & Fe & Hle & _). exists e', (x :: d1), d2. split_and!; try done.
      * rewrite Fe, (fl_mr L U F e x c Ve Vx Em Ec). cbn. by rewrite <- app_assoc.
      * lia.
      * intros ? [= <-]. congruence.
    + exists e, [], (x :: data). cbn. rewrite app_nil_r. split_and!; try done.
Qed.
(** replacing one element and refreshing the aggregates above it *)
Lemma t_set_elem t X l e Y e' p : Tree t (X ++ (l, e) :: Y) -> get_lf t l = Ok (mkLeaf e p) -> evalid L e' ->
  exists t', recursive_update_cache (set_lf t l (mkLeaf e' p)) (ALeaf l) (USE_DIFF (b := B)) None = Ok t' /\ Tree t' (X ++ (l, e') :: Y).
Proof.
  intros T Hg Ve. apply get_lf_inv in Hg as [He Hl]. cbn [l_elem l_parent] in He, Hl. destruct (Tree_OK L _ _ T) as (H & lv & O & Hc).
  destruct (at_leaf_ok t H lv l e (ok_wt _ _ _ _ O) (ok_lk _ _ _ _ O) He) as (p' & A & c & Z & AL).
  assert (p' = p) as -> by (destruct AL as (_ & _ & _ & _ & Hl' & _); congruence).
  destruct (set_leaf_ok L t H lv l e e' p A c Z true O AL Ve ltac:(done)) as (t1 & E & O1 & _ & C1 & _). exists t1. split; [done|].
  rewrite <- (C1 X Y (eq_sym Hc)). by eapply OK_Tree.
Qed.

Lemma cut_cases fr X l e Y off A Z : NoDup (X ++ (l, e) :: Y).*1 -> Cut fr (X ++ (l, e) :: Y) (mkCur l off) A Z ->
  (off = 0 /\ A = X /\ Z = (l, e) :: Y) \/ (off <> 0 /\ off = rle_len e /\ A = X ++ [(l, e)] /\ Z = Y) \/
  (0 < off < rle_len e /\ exists e1 e2 n, e_split e off = Ok (e1, e2) /\ rle_len e1 = off /\ fr n /\ A = X ++ [(l, e1)] /\ Z = (n, e2) :: Y).
Proof.
  intros Hnd HC. remember (X ++ (l, e) :: Y) as xs eqn:Ex. remember (mkCur l off) as cur eqn:Ec.
  destruct HC as [X1 l1 e1 Y1|X1 l1 e1 Y1 o1 H1 H2|X1 l1 e1 Y1 o1 ea eb n H1 H2 H3 H4]; injection Ec as -> Ec.
  - apply (split_fst_unique _ _ _ _ _ _ _ Hnd) in Ex as (-> & -> & ->). by left.
  - apply (split_fst_unique _ _ _ _ _ _ _ Hnd) in Ex as (-> & -> & ->). right; left. subst. done.
  - apply (split_fst_unique _ _ _ _ _ _ _ Hnd) in Ex as (-> & -> & ->). right; right. subst o1. split; [done|]. by exists ea, eb, n.
Qed.
Theorem fs_insert_many t X l e Y off data : Tree t (X ++ (l, e) :: Y) -> off <= rle_len e -> Forall (evalid L) data -> NoAdj data ->
  (off <> 0 -> forall X' l0 e0 x y r, X = X' ++ [(l0, e0)] -> data = x :: y :: r -> can_merge e0 x = false) ->
  exists t' xs', insert_many_by_cursor t (Some (mkCur l off)) data = Ok t' /\ Tree t' xs' /\
    let p := tlen X + off in let s := ft (X ++ (l, e) :: Y) in
    ft xs' = take p s ++ concat (map (fl F) data) ++ drop p s /\ Keep p (X ++ (l, e) :: Y) xs' /\
    (NZ (X ++ (l, e) :: Y) -> Forall (fun x => rle_len x <> 0) data -> NZ xs').
Proof.
  intros T Ho V HA HL. cbv zeta. set (xs := X ++ (l, e) :: Y) in *. set (p := tlen X + off).
  assert (HC : CurAt xs (mkCur l off) p) by (by exists X, e, Y).
  destruct data as [|x [|y r]].
  - exists t, xs. cbn. split_and!; try done; [by rewrite take_drop|apply keep_refl].
  - apply Forall_cons in V as [Vx _]. cbn [insert_many_by_cursor insert_one].
    destruct (fs_insert t xs _ p x T HC Vx) as (cur' & sl & t1 & xs1 & -> & T1 & F1 & C1 & K1 & N1). cbn [rbind]. exists t1, xs1.
    split_and!; try done; [by rewrite F1; cbn; rewrite app_nil_r|]. intros Hn [Hx _]%Forall_cons. by apply N1.
  - set (data := x :: y :: r) in *. 
    assert (insert_many_by_cursor t (Some (mkCur l off)) data = (let? emp := is_empty t in
       let? (si, t) := split_leaf_if_needed t (mkCur l off) in
              let? (rest, t) :=
                match si_left si with
                | Some l =>
                    let? lf := get_lf t l in
                    let? (e, rest) := absorb_right (l_elem lf) data in
                    let t := set_lf t l (with_elem lf e) in
                    let? t := recursive_update_cache t (ALeaf l) (USE_DIFF (b := B)) None in
                    Ok (rest, t)
                | None => Ok (data, t)
                end in
              insert_rev t (default (mkCur l off) (si_new_pos si)) (rev rest))) as ->.
    { unfold insert_many_by_cursor. subst data. rewrite merge_adj_id by done. done. }
    rewrite (t_is_empty L t xs T). cbn [rbind].
    destruct (t_cut L t xs l e off T) as (si & t1 & A & Z & Es & T1 & HCut & Hnp & _ & _ & _); [unfold xs; rewrite elem_of_app; right; left|done|].
    rewrite Es. cbn [rbind].
    (* the cut keeps the sequence *)
    assert (Hnd := tree_nodup L _ _ T). fold xs in Hnd.
    assert (G : ft (A ++ Z) = ft xs /\ tlen A = p /\ Keep p xs (A ++ Z) /\ (NZ xs -> NZ (A ++ Z)) /\
      (exists A' R, A ++ Z = X ++ A' /\ A = X ++ R /\ (off = 0 -> R = [] /\ A' = (l, e) :: Y /\ default (mkCur l off) (si_new_pos si) = mkCur l 0)) /\ CurAt (A ++ Z) (default (mkCur l off) (si_new_pos si)) p).
    { destruct (cut_cases _ _ _ _ _ _ _ _ Hnd HCut) as [(H0 & -> & ->)|[(H0 & H1 & -> & ->)|(H0 & ea & eb & n & H1 & H2 & _ & -> & ->)]].
      - split_and!; try done; try apply keep_refl.
        + unfold p. lia.
        + exists ((l, e) :: Y), []. rewrite app_nil_r. by rewrite Hnp.
        + rewrite Hnp. cbn. exists X, e, Y. cbn. split_and!; [done|lia|]. unfold p. lia.
      - rewrite <- app_assoc. split_and!; try done; try apply keep_refl.
        + unfold p. rewrite tlen_snoc. lia.
        + exists ((l, e) :: Y), [(l, e)]. split_and!; [done|done|lia].
        + rewrite Hnp. destruct Y as [|[l2 e2] Y]; cbn; [by exists X, e, []|]. exists (X ++ [(l, e)]), e2, Y. cbn [cu_leaf cu_offset app]. rewrite <- (app_assoc X [(l, e)]), tlen_snoc. split_and!; [done|lia|].
          unfold p. lia.
      - rewrite <- app_assoc. cbn [app].
        pose proof (tree_ve _ _ _ _ _ T) as Ve.
        destruct (lw_split _ L e off Ve H0) as (c1 & c2 & Ec & _ & _ & El1 & El2 & _). rewrite H1 in Ec. injection Ec as <- <-.
        destruct (fl_split L U F e off ea eb Ve H0 H1) as [F1 F2]. split_and!; try done.
        + unfold xs. rewrite !ft_app, !ft_cons, F1, F2, (app_assoc (take _ _)), take_drop. done.
        + unfold p. rewrite tlen_snoc. lia.
        + apply keep_at; [done|]. eauto.
        + intros Hn l1 e1 [Hin|[[= -> ->]|[[= -> ->]|Hin]%elem_of_cons]%elem_of_cons]%elem_of_app; try lia; apply (Hn l1 e1); unfold xs; rewrite elem_of_app, elem_of_cons; tauto.
        + exists ((l, ea) :: (n, eb) :: Y), [(l, ea)]. split_and!; [done|done|lia].
        + rewrite Hnp. cbn. exists (X ++ [(l, ea)]), eb, Y. cbn [cu_leaf cu_offset app]. rewrite <- (app_assoc X [(l, ea)]), tlen_snoc. split_and!; [done|lia|]. unfold p. lia. }
    destruct G as (Gf & GA & GK & GN & (A' & R & GX & GR & GR0) & GC).
    destruct (si_left si) as [l0|] eqn:Esl.
    + destruct (t_split_left t X l e Y off si t1 l0 T Es Esl) as (X' & e0 & EX).
      destruct (tree_get_lf L t1 (A ++ Z) l0 e0 T1) as [q Hg].
      { rewrite GX, EX. rewrite elem_of_app, elem_of_app. left. right. apply elem_of_list_singleton. done. }
      rewrite Hg. cbn [rbind l_elem]. unfold with_elem. cbn [l_parent].
      assert (V0 : evalid L e0). { eapply (tree_valid L t1 _ l0 e0 T1). rewrite GX, EX, elem_of_app, elem_of_app. left. right. by apply elem_of_list_singleton. }
      destruct (absorb_ok data e0 V0 V) as (e0' & d1 & d2 & -> & Ed & V0' & F0 & Hle & Hno). cbn [rbind].
      pose proof T1 as T1'. rewrite GX, EX, <- app_assoc in T1'. cbn [app] in T1'.
      destruct (t_set_elem t1 X' l0 e0 A' e0' q T1' Hg V0') as (t2 & -> & T2). cbn [rbind].
      set (p2 := p + length (concat (map (fl F) d1))).
      set (xs2 := X' ++ (l0, e0') :: A') in *.
      assert (Hd1 : off <> 0 -> e0' = e0 /\ d1 = []). { intros Hne. apply (Hno x); [done|]. by eapply (HL Hne X' l0 e0 x y r). }
      assert (G2 : CurAt xs2 (default (mkCur l off) (si_new_pos si)) p2 /\ ft xs2 = take p (ft xs) ++ concat (map (fl F) d1) ++ drop p (ft xs)).
      { destruct (decide (off = 0)) as [H0|H0].
        - destruct (GR0 H0) as (-> & -> & ->). rewrite app_nil_r in GR. subst A.
          assert (Hl0 : length (fl F e0') = length (fl F e0) + length (concat (map (fl F) d1))) by (by rewrite F0, app_length).
          pose proof (fl_len L U F e0' V0') as Hle1. pose proof (fl_len L U F e0 V0) as Hle2.
          assert (Hlx : tlen (X' ++ [(l0, e0')]) = p2).
          { unfold p2. rewrite <- GA, EX, !tlen_app, !tlen_cons, tlen_nil. lia. }
          split.
          + exists (X' ++ [(l0, e0')]), e, Y. cbn [cu_leaf cu_offset]. unfold xs2. rewrite <- app_assoc. split_and!; [done|lia|lia].
          + assert (ft xs = ft X ++ ft ((l, e) :: Y)) as -> by (unfold xs; apply ft_app).
            rewrite take_app_alt, drop_app_alt by (rewrite ft_len; [lia|]; intros; by eapply (tree_vX _ _ _ _ _ T)).
            unfold xs2. rewrite EX, !ft_app, (ft_cons l0 e0'), (ft_cons l0 e0), F0. change (ft []) with (@nil U). by rewrite app_nil_r, <- !app_assoc.
        - destruct (Hd1 H0) as [-> ->]. cbn. unfold p2. cbn. rewrite Nat.add_0_r, take_drop. unfold xs2.
          assert (X' ++ (l0, e0) :: A' = A ++ Z) as -> by (rewrite GX, EX, <- app_assoc; done). done. }
      destruct G2 as [GC2 GF2].
      assert (GK2 : Keep p xs xs2).
      { eapply keep_trans; [exact GK|]. rewrite GX, EX, <- app_assoc. cbn [app]. unfold xs2.
        assert (p = tlen X' + rle_len e0 + off) as -> by (unfold p; rewrite EX, tlen_app, tlen_cons, tlen_nil; lia).
        destruct (decide (off = 0)) as [->|H0].
        - rewrite Nat.add_0_r. apply keep_at; [lia|]. eauto.
        - destruct (Hd1 H0) as [-> _]. apply keep_refl. }
      destruct (fs_insert_rev (rev d2) t2 xs2 _ p2 T2 GC2) as (t' & xs' & E & T' & F' & K' & N').
      { rewrite Forall_forall in *. intros z Hz. apply V. rewrite Ed, elem_of_app. right. by rewrite elem_of_list_In, <- in_rev, <- elem_of_list_In in Hz. }
      exists t', xs'. split_and!; try done.
      * rewrite F', GF2, rev_involutive, (app_assoc (take p (ft xs)) (concat (map (fl F) d1))). assert (length (take p (ft xs) ++ concat (map (fl F) d1)) = p2) as Hp2.
        { rewrite app_length, take_length. unfold p2. assert (p <= length (ft xs)); [|lia]. rewrite ft_len; [|intros; by eapply (tree_valid L _ _ _ _ T)].
          unfold xs, p. rewrite tlen_app, tlen_cons. lia. }
        rewrite take_app_alt, drop_app_alt by done. rewrite Ed, map_app, concat_app. by rewrite <- !app_assoc.
      * eapply keep_trans; [exact GK2|]. eapply keep_le; [|exact K']. unfold p2. lia.
      * intros Hn HF. apply N'.
        -- intros l1 e1 Hin. unfold xs2 in Hin. apply GN in Hn. rewrite GX, EX, <- app_assoc in Hn.
           apply elem_of_app in Hin as [Hin|[[= -> ->]|Hin]%elem_of_cons].
           ++ apply (Hn l1 e1). rewrite elem_of_app. by left.
           ++ assert (rle_len e0 <> 0); [|lia]. apply (Hn l0 e0). rewrite elem_of_app. right. left.
           ++ apply (Hn l1 e1). rewrite elem_of_app. right. by right.
        -- rewrite Forall_forall in *. intros z Hz. apply HF. rewrite Ed, elem_of_app. right. by rewrite elem_of_list_In, <- in_rev, <- elem_of_list_In in Hz.
    + cbn [rbind]. destruct (fs_insert_rev (rev data) t1 (A ++ Z) _ p T1 GC) as (t' & xs' & E & T' & F' & K' & N').
      { rewrite Forall_forall in *. intros z Hz. apply V. by rewrite elem_of_list_In, <- in_rev, <- elem_of_list_In in Hz. }
      exists t', xs'. split_and!; try done.
      * rewrite F', Gf, rev_involutive. done.
      * by eapply keep_trans.
      * intros Hn HF. apply N'; [by apply GN|]. rewrite Forall_forall in *. intros z Hz. apply HF. by rewrite elem_of_list_In, <- in_rev, <- elem_of_list_In in Hz.
Qed.
End many.
