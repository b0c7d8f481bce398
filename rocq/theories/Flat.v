(** Flat.v — sequence semantics (elements flattened to their units) of splitting, draining and
    removal, and drains addressed by position (drain_by_query, /repo/src/lib.rs:1616-1620). *)
From Verif Require Export ByQuery Drain5.

Section flat.
Context {B : BTreeTrait} (L : Lawful B) {U : Type} (F : Flatten L U).
Notation btree := (btree B).
Notation Tree := (Tree L).
Notation ft := (ft L F).
Implicit Types (t : btree) (xs X Y : list (nat * Elem B)).

Lemma curat_le xs (a b : cursor) p q : NoDup xs.*1 -> CurAt xs a p -> CurAt xs b q -> p < q -> cur_le xs a b.
Proof.
  intros Hnd (X1 & e1 & Y1 & E1 & H1 & ->) (X2 & e2 & Y2 & E2 & H2 & ->) Hpq. rewrite E1 in E2.
  apply app_eq_inv in E2 as [(k & E3 & E4)|(k & E3 & E4)].
  - destruct k as [|z k].
    + cbn in E4. injection E4 as E4 -> ->. rewrite app_nil_r in E3. subst X2. left. split; [done|]. lia.
    + cbn in E4. injection E4 as <- E4. subst X1. rewrite tlen_app, tlen_cons in Hpq. lia.
  - destruct k as [|z k].
    + cbn in E4. injection E4 as E4 -> ->. rewrite app_nil_r in E3. subst X2. left. split; [done|]. lia.
    + cbn in E4. injection E4 as <- E4. right. exists X2, ((cu_leaf b, e2) :: Y2). subst X2. split; [by rewrite E1, E4, <- app_assoc|].
      rewrite !fmap_app, !fmap_cons. clear. set_solver.
Qed.

Lemma cut_flat fr xs cur A Z p : NoDup xs.*1 -> (forall l e, (l, e) ∈ xs -> evalid L e) -> Cut fr xs cur A Z -> CurAt xs cur p ->
  ft A = take p (ft xs) /\ ft Z = drop p (ft xs) /\ tlen A = p /\ Keep p xs A /\ (NZ xs -> NZ A /\ NZ Z) /\ (forall l e, (l, e) ∈ A ++ Z -> evalid L e).
Proof.
  intros Hnd V HC (X & e & Y & Ex & Ho & ->). destruct cur as [l off]. cbn [cu_leaf cu_offset] in *. subst xs.
  assert (VX : forall l e, (l, e) ∈ X -> evalid L e) by (intros; eapply V; rewrite elem_of_app; by left).
  assert (Ve : evalid L e) by (apply (V l); clear; set_solver).
  destruct (ft_cut L F X l e Y off VX Ve Ho) as [-> ->].
  assert (HX : Keep (tlen X) (X ++ (l, e) :: Y) X).
  { pose proof (keep_at X l e Y 0 [] ltac:(lia)) as K. rewrite Nat.add_0_r, app_nil_r in K. apply K. lia. }
  destruct (cut_cases _ _ _ _ _ _ _ _ Hnd HC) as [(H0 & -> & ->)|[(H0 & H1 & -> & ->)|(H0 & ea & eb & n & H1 & H2 & _ & -> & ->)]].
  - subst off. rewrite Nat.add_0_r, take_0, drop_0, app_nil_r. split_and!; try done.
    intros Hn. split; intros l1 e1 Hin; apply (Hn l1 e1); rewrite elem_of_app; auto.
  - subst off. pose proof (fl_len L U F e Ve) as Hl. rewrite ft_app, ft_cons, take_ge, drop_ge by lia. cbn [app]. rewrite app_nil_r. split_and!; try done.
    + apply tlen_snoc.
    + apply keep_at; [done|]. eauto.
    + intros Hn. split; intros l1 e1 Hin; apply (Hn l1 e1); rewrite elem_of_app in *; rewrite elem_of_cons in *; set_solver.
    + by rewrite <- app_assoc.
  - destruct (lw_split _ L e off Ve H0) as (c1 & c2 & Ec & V1 & V2 & El1 & El2 & _). rewrite H1 in Ec. injection Ec as <- <-.
    destruct (fl_split L U F e off ea eb Ve H0 H1) as [F1 F2]. rewrite ft_app, !ft_cons, F1, F2. cbn [app]. rewrite app_nil_r. split_and!; try done.
    + rewrite tlen_snoc. lia.
    + apply keep_at; [done|]. eauto.
    + intros Hn. split; intros l1 e1 Hin.
      * apply elem_of_app in Hin as [Hin|[= -> ->]%elem_of_list_singleton]; [|lia]. apply (Hn l1 e1). rewrite elem_of_app. by left.
      * apply elem_of_cons in Hin as [[= -> ->]|Hin]; [lia|]. apply (Hn l1 e1). rewrite elem_of_app, elem_of_cons. auto.
    + intros l1 e1 Hin. rewrite !elem_of_app, elem_of_list_singleton, elem_of_cons in Hin.
      destruct Hin as [[Hin|[= -> ->]]|[[= -> ->]|Hin]]; try done; [by apply (VX l1)|]. apply (V l1). rewrite elem_of_app, elem_of_cons. auto.
Qed.

Lemma cut_nodup (fr : nat -> Prop) xs cur A Z : NoDup xs.*1 -> (forall n y, fr n -> y ∈ xs -> y.1 <> n) -> Cut fr xs cur A Z -> NoDup (A ++ Z).*1.
Proof.
  intros Hnd Hf HC. destruct HC as [X1 l1 e1 Y1|X1 l1 e1 Y1 o1 H1 H2|X1 l1 e1 Y1 o1 ea eb n H1 H2 H3 H4]; [done|by rewrite <- app_assoc|].
  rewrite <- app_assoc. cbn [app]. assert (Hn : n ∉ (X1 ++ (l1, e1) :: Y1).*1).
  { intros ([] & -> & Hin)%elem_of_list_fmap. by eapply Hf. }
  rewrite fmap_app, !fmap_cons in *. cbn [fst] in *. apply NoDup_app in Hnd as (N1 & N2 & N3). apply NoDup_cons in N3 as [N3 N4].
  apply NoDup_app. split; [done|]. split; [|apply NoDup_cons; split; [|apply NoDup_cons; split; [|done]]].
  - intros y Hy [->|[->|Hin]%elem_of_cons]%elem_of_cons; [by apply (N2 _ Hy); left|by apply Hn; rewrite elem_of_app; left|by apply (N2 _ Hy); right].
  - intros [->|Hin]%elem_of_cons; [|done]. apply Hn. clear. set_solver.
  - intros Hin. apply Hn. rewrite elem_of_app, elem_of_cons. auto.
Qed.
(** a cut to the right does not move a cursor *)
Lemma cut_curat fr xs (a b : cursor) A Z p q : NoDup xs.*1 -> Cut fr xs b A Z -> CurAt xs b q -> CurAt xs a p -> p <= q -> CurAt (A ++ Z) a p.
Proof.
  intros Hnd HC (X & e & Y & Ex & Ho & ->) Ha Hpq. destruct b as [l off]. cbn [cu_leaf cu_offset] in *. subst xs.
  destruct (cut_cases _ _ _ _ _ _ _ _ Hnd HC) as [(H0 & -> & ->)|[(H0 & H1 & -> & ->)|(H0 & ea & eb & n & H1 & H2 & _ & -> & ->)]]; [done|by rewrite <- app_assoc|].
  destruct Ha as (X1 & e1 & Y1 & E1 & Ho1 & ->). rewrite <- app_assoc. cbn [app].
  apply app_eq_inv in E1 as [(k & E3 & E4)|(k & E3 & E4)].
  - destruct k as [|z k].
    + cbn in E4. injection E4 as E4 -> ->. rewrite app_nil_r in E3. subst X1. exists X, ea, ((n, eb) :: Y). rewrite E4. split_and!; try done. lia.
    + cbn in E4. injection E4 as <- E4. subst X. exists X1, e1, (k ++ (l, ea) :: (n, eb) :: Y). split_and!; try done. by rewrite <- app_assoc.
  - destruct k as [|z k].
    + cbn in E4. injection E4 as E4 -> ->. rewrite app_nil_r in E3. subst X1. exists X, ea, ((n, eb) :: Y1). rewrite <- E4. split_and!; try done. lia.
    + cbn in E4. injection E4 as <- E4. subst X1. rewrite tlen_app, tlen_cons in Hpq. lia.
Qed.
Lemma curat_in xs c p : CurAt xs c p -> exists e, (cu_leaf c, e) ∈ xs /\ cu_offset c <= rle_len e.
Proof. intros (X & e & Y & -> & Ho & _). exists e. split; [clear; set_solver|done]. Qed.
Lemma nz_pos xs : NZ xs -> xs <> [] -> 0 < tlen xs.
Proof. intros Hn. destruct xs as [|[l e] xs]; [done|]. intros _. rewrite tlen_cons. specialize (Hn l e). assert (rle_len e <> 0) by (apply Hn; left). lia. Qed.

Lemma curat_fits t xs a b p q : Tree t xs -> CurAt xs a p -> CurAt xs b q -> (p < q \/ a = b) -> Shallow t 7 -> Fits t a b.
Proof.
  intros T Ca Cb Hpq Sh. pose proof (tree_nodup L _ _ T) as Hnd.
  destruct (curat_in _ _ _ Ca) as (ea & Ha & Hoa). destruct (curat_in _ _ _ Cb) as (eb & Hb & Hob).
  assert (Hle : cur_le xs a b). { destruct Hpq as [Hpq| ->]; [by eapply curat_le|]. by left. }
  destruct (cuts_shallow L t xs a b ea eb T Ha Hoa Hb Hob Hle) as (t2 & E & S2). exists t2. split; [done|]. exact (S2 _ Sh).
Qed.
Lemma cut_length fr xs (c : cursor) A Z : Cut fr xs c A Z -> length (A ++ Z) <= S (length xs).
Proof. destruct 1; rewrite !app_length; cbn; lia. Qed.
Theorem fs_drain t xs a b p q (fa fb : bool) : Tree t xs -> Fits t a b -> NZ xs -> CurAt xs a p -> CurAt xs b q ->
  (p < q \/ a = b) -> p < tlen xs ->
  exists M t' xs', (forall k, drain_range t (Some (mkQR a fa)) (Some (mkQR b fb)) k = Ok (take k M, t')) /\ Tree t' xs' /\
    ft xs' = take p (ft xs) ++ drop q (ft xs) /\ concat (map (fl F) M) = drop p (take q (ft xs)) /\ Keep p xs xs' /\ NZ xs' /\ length M <= S (S (length xs)) /\ Forall (evalid L) M.
Proof.
  intros T Sh Hn Ca Cb Hpq Hp. pose proof (tree_nodup L _ _ T) as Hnd.
  destruct (curat_in _ _ _ Ca) as (ea & Ha & Hoa). destruct (curat_in _ _ _ Cb) as (eb & Hb & Hob).
  assert (Hle : cur_le xs a b). { destruct Hpq as [Hpq| ->]; [by eapply curat_le|]. by left. }
  assert (Hpq' : p <= q).
  { destruct Hpq as [?| ->]; [lia|]. destruct Ca as (X1 & e1 & Y1 & E1 & H1 & ->). destruct Cb as (X2 & e2 & Y2 & E2 & H2 & ->).
    rewrite E1 in E2, Hnd. apply (split_fst_unique _ _ _ _ _ _ _ Hnd) in E2 as (-> & _). done. }
  destruct (t_drain L t xs a b ea eb fa fb T Sh Ha Hoa Hb Hob Hle) as (A & Z & A1 & M & t' & C1 & C2 & Hk & T' & G).
  { intros _. by apply (Hn (cu_leaf b)). }
  { intros X Y l e -> _. apply (Hn l e). clear. set_solver. }
  { intros X Ex Hf. exfalso. destruct Ca as (X1 & e1 & Y1 & E1 & H1 & ->). rewrite E1 in Ex, Hnd.
    apply (split_fst_unique _ _ _ _ _ _ _ Hnd) in Ex as (-> & -> & ->). rewrite E1, tlen_snoc in Hp. lia. }
  assert (V : forall l e, (l, e) ∈ xs -> evalid L e) by (intros; by eapply (tree_valid L _ _ _ _ T)).
  destruct (cut_flat _ _ _ _ _ _ Hnd V C1 Cb) as (FA & FZ & LA & KA & NA & V1).
  pose proof (cut_curat _ _ _ _ _ _ _ _ Hnd C1 Cb Ca Hpq') as Ca'.
  assert (Hnd1 : NoDup (A ++ Z).*1).
  { eapply cut_nodup; [exact Hnd| |exact C1]. intros n [l e] Hfr Hin. pose proof (tree_old L t xs _ _ T Hin). cbn. lia. }
  destruct (cut_flat _ _ _ _ _ _ Hnd1 V1 C2 Ca') as (FA1 & FZ1 & LA1 & KA1 & NA1 & V2).
  destruct (NA Hn) as [NA' NZ']. 
  assert (NAZ : NZ (A ++ Z)) by (intros l e [Hin|Hin]%elem_of_app; [by apply (NA' l)|by apply (NZ' l)]).
  destruct (NA1 NAZ) as [NA1' _].
  assert (FAZ : ft (A ++ Z) = ft xs) by (by rewrite ft_app, FA, FZ, take_drop).
  exists (snd <$> M), t', (A1 ++ Z). split_and!.
  - intros k. rewrite Hk. by rewrite <- fmap_take.
  - done.
  - rewrite ft_app, FA1, FZ, FAZ. done.
  - assert (ft M ++ ft Z = drop p (ft xs)) as EM by (by rewrite <- ft_app, FZ1, FAZ).
    rewrite FZ in EM. change (concat (map (fl F) (snd <$> M))) with (concat (map (fl F) (map snd M))). rewrite map_map. change (ft M = drop p (take q (ft xs))).
    rewrite <- (take_drop q (ft xs)) in EM at 2. rewrite drop_app_le in EM; [by apply app_inv_tail in EM|].
    rewrite take_length, (ft_len L F) by done. destruct Cb as (X2 & e2 & Y2 & -> & H2 & ->). rewrite tlen_app, tlen_cons. lia.
  - intros l p1 Hs Hp1. destruct (KA l p1 Hs ltac:(lia)) as (X2 & e2 & Y2 & E2 & H2).
    assert (Starts (A ++ Z) l p1) as Hs' by (exists X2, e2, (Y2 ++ Z); by rewrite E2, <- app_assoc).
    destruct (KA1 l p1 Hs' Hp1) as (X3 & e3 & Y3 & E3 & H3). exists X3, e3, (Y3 ++ Z). by rewrite E3, <- app_assoc.
  - intros l e [Hin|Hin]%elem_of_app; [by apply (NA1' l)|by apply (NZ' l)].
  - rewrite fmap_length. apply cut_length in C1. apply cut_length in C2. rewrite !app_length in *. lia.
  - apply Forall_forall. intros e ([l e'] & -> & Hin)%elem_of_list_fmap. apply (V2 l). clear -Hin. set_solver.
Qed.

(** depth: how it decides between success and panic *)
Lemma shallow_dec t xs k : Tree t xs -> xs <> [] -> Shallow t k \/ ~ Shallow t k.
Proof.
  intros T E. destruct (Tree_OK L _ _ T) as (H & lv & O & Hc). pose proof (content_cont t H lv (ok_wt _ _ _ _ O)) as Hd. rewrite <- Hc in Hd.
  destruct (decide (S H <= k)) as [Hk|Hk]; [left; by exists (S H), xs|]. right. intros (d' & ys & Hd' & Hle).
  assert (S H = d'); [|lia]. by eapply (proj1 (io_depth t)).
Qed.
Lemma fs_fits t xs a b p q (fa fb : bool) : Tree t xs -> NZ xs -> CurAt xs a p -> CurAt xs b q -> (p < q \/ a = b) -> p < tlen xs ->
  Fits t a b \/ (~ Shallow t 7 /\ forall k, drain_range t (Some (mkQR a fa)) (Some (mkQR b fb)) k = Panic).
Proof.
  intros T Hn Ca Cb Hpq Hp. pose proof (tree_nodup L _ _ T) as Hnd.
  destruct (curat_in _ _ _ Ca) as (ea & Ha & Hoa). destruct (curat_in _ _ _ Cb) as (eb & Hb & Hob).
  assert (Hle : cur_le xs a b). { destruct Hpq as [Hpq| ->]; [by eapply curat_le|]. by left. }
  destruct (t_drain_all L t xs a b ea eb fa fb T Ha Hoa Hb Hob Hle) as (A & Z & A1 & M & t2 & E2 & T2 & _ & Sh & C1 & C2 & _ & HP).
  { intros _. by apply (Hn (cu_leaf b)). }
  { intros X Y l e -> _. apply (Hn l e). clear. set_solver. }
  { intros X Ex Hf. exfalso. destruct Ca as (X1 & e1 & Y1 & E1 & H1 & ->). rewrite E1 in Ex, Hnd.
    apply (split_fst_unique _ _ _ _ _ _ _ Hnd) in Ex as (-> & -> & ->). rewrite E1, tlen_snoc in Hp. lia. }
  assert (A1 ++ M ++ Z <> []) as Hne. { intros [E1 E3]%app_nil. rewrite E1, E3 in C2. inversion C2; subst; by destruct X. }
  destruct (shallow_dec t2 _ 9 T2 Hne) as [S2|S2]; [left; by exists t2|]. right. split; [|by apply HP]. intros S7. apply S2, (Sh 7 S7).
Qed.
(** drain_by_query with the length finder: any part of the sequence, in any number of steps; the
    only other outcome is a panic, on trees deeper than 7 *)
Theorem t_drain_at_all get_len (HL : LenCache L get_len) t xs p q : Tree t xs -> NZ xs -> p <= q -> q <= tlen xs -> p < tlen xs ->
  (exists M t' xs', (forall k : nat, drain_by_query (@LengthFinder B get_len) t (p : nat) (q : nat) k = Ok (take k M, t')) /\ Tree t' xs' /\
    ft xs' = take p (ft xs) ++ drop q (ft xs) /\ concat (map (fl F) M) = drop p (take q (ft xs)) /\ NZ xs') \/
  (~ Shallow t 7 /\ forall k : nat, drain_by_query (@LengthFinder B get_len) t (p : nat) (q : nat) k = Panic).
Proof.
  intros T Hn Hpq Hq Hp. assert (Hne : xs <> []) by (intros ->; rewrite tlen_nil in Hp; lia).
  destruct (len_cur L get_len HL t xs p T Hne) as (ca & sa & Ea & Ca); [lia|].
  destruct (len_cur L get_len HL t xs q T Hne) as (cb & sb & Eb & Cb); [lia|].
  assert (Hor : p < q \/ ca = cb). { destruct (decide (p = q)) as [->|]; [|left; lia]. right. rewrite Ea in Eb. by injection Eb. }
  destruct (fs_fits t xs ca cb p q (bool_decide (p < tlen xs)) (bool_decide (q < tlen xs)) T Hn Ca Cb Hor Hp) as [Fi|[S7 HP]].
  - left. destruct (fs_drain t xs ca cb p q (bool_decide (p < tlen xs)) (bool_decide (q < tlen xs)) T Fi Hn Ca Cb Hor Hp) as (M & t' & xs' & Hk & T' & F1 & F2 & _ & N' & _).
    exists M, t', xs'. split_and!; try done. intros k. unfold drain_by_query, query. rewrite Ea, Eb. cbn [rbind]. apply Hk.
  - right. split; [done|]. intros k. unfold drain_by_query, query. rewrite Ea, Eb. cbn [rbind]. apply HP.
Qed.
Theorem t_drain_at get_len (HL : LenCache L get_len) t xs p q : Tree t xs -> Shallow t 7 -> NZ xs -> p <= q -> q <= tlen xs -> p < tlen xs ->
  exists M t' xs', (forall k : nat, drain_by_query (@LengthFinder B get_len) t (p : nat) (q : nat) k = Ok (take k M, t')) /\ Tree t' xs' /\
    ft xs' = take p (ft xs) ++ drop q (ft xs) /\ concat (map (fl F) M) = drop p (take q (ft xs)) /\ NZ xs'.
Proof. intros T Sh Hn Hpq Hq Hp. by destruct (t_drain_at_all get_len HL t xs p q T Hn Hpq Hq Hp) as [?|[? _]]. Qed.
End flat.
