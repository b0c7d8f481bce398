(** Rnm.v — sequence semantics of update (elements flattened to their units), and RangeNumMap
    (/repo/tests/range_num_map/mod.rs) as a growing array of optional numbers. *)
From Verif Require Export Pos Facts.

Section upd.
Context {B : BTreeTrait} (L : Lawful B) {U : Type} (F : Flatten L U).
Notation btree := (btree B).
Notation Tree := (Tree L).
Notation ft := (ft L F).
Implicit Types (t : btree) (xs X Y : list (nat * Elem B)).

Lemma upd_run_flat {S0} (fu : S0 -> Elem B -> S0 * Elem B * option (Diff B)) (g : U -> U) : upd_sound L fu ->
  (forall s e, evalid L e -> fl F (fu s e).1.2 = map g (fl F e)) ->
  forall M s, (forall l e, (l, e) ∈ M -> evalid L e) -> ft (upd_keep (upd_run fu s M).2) = map g (ft M).
Proof.
  intros Hs Hg. induction M as [|[l e] M IH]; intros s V; [done|]. cbn [upd_run].
  assert (Ve : evalid L e) by (apply (V l); left). specialize (Hg s e Ve) as Hg'.
  destruct (fu s e) as [[s1 e'] od] eqn:Ef. destruct (Hs _ _ _ _ _ Ve Ef) as [Ve' _].
  assert (VM : forall l e, (l, e) ∈ M -> evalid L e) by (intros; eapply V; by right). specialize (IH s1 VM).
  destruct (upd_run fu s1 M) as [s2 r]. cbn [snd fst] in *. unfold upd_keep in *. rewrite filter_cons. cbn [fst snd].
  rewrite ft_cons, map_app, <- Hg', <- IH. case_decide as Hc.
  - cbn [map]. change ((l, e', od).1) with (l, e'). by rewrite ft_cons.
  - apply not_false_is_true in Hc. by rewrite (fl_rm L U F e' Ve' Hc).
Qed.
(** update with a function that maps units to units: exactly the units of the range are mapped;
    the only other outcome is a panic, on trees deeper than 7 *)
Theorem fs_update {S0} (fu : S0 -> Elem B -> S0 * Elem B * option (Diff B)) (g : U -> U) ord t xs a b p q s :
  Tree t xs -> CurAt xs a p -> CurAt xs b q -> (p < q \/ a = b) -> (forall l, ord l ≡ₚ l) -> upd_sound L fu ->
  (forall s e, evalid L e -> fl F (fu s e).1.2 = map g (fl F e)) ->
  (exists new s' t' xs', update ord t a b fu s = Ok (new, s', t') /\ Tree t' xs' /\
    ft xs' = take p (ft xs) ++ map g (drop p (take q (ft xs))) ++ drop q (ft xs) /\ Keep p xs xs') \/
  (~ Shallow t 7 /\ update ord t a b fu s = Panic).
Proof.
  intros T Ca Cb Hpq Hord Hs Hg. pose proof (tree_nodup L _ _ T) as Hnd.
  destruct (curat_in _ _ _ Ca) as (ea & Ha & Hoa). destruct (curat_in _ _ _ Cb) as (eb & Hb & Hob).
  assert (Hle : cur_le xs a b). { destruct Hpq as [Hpq| ->]; [by eapply curat_le|]. by left. }
  assert (Hpq' : p <= q).
  { destruct Hpq as [?| ->]; [lia|]. destruct Ca as (X1 & e1 & Y1 & E1 & H1 & ->). destruct Cb as (X2 & e2 & Y2 & E2 & H2 & ->).
    rewrite E1 in E2, Hnd. apply (split_fst_unique _ _ _ _ _ _ _ Hnd) in E2 as (-> & _). done. }
  destruct (t_update_full L fu ord t xs a b ea eb s T Ha Hoa Hb Hob Hle Hord Hs) as (A & Z & A1 & M & t2 & E2 & T2 & G2 & S2 & C1 & C2 & HO & HP).
  assert (V : forall l e, (l, e) ∈ xs -> evalid L e) by (intros; by eapply (tree_valid L _ _ _ _ T)).
  destruct (cut_flat L F _ _ _ _ _ _ Hnd V C1 Cb) as (FA & FZ & LA & KA & NA & V1).
  pose proof (cut_curat _ _ _ _ _ _ _ _ Hnd C1 Cb Ca Hpq') as Ca'.
  assert (Hnd1 : NoDup (A ++ Z).*1).
  { eapply cut_nodup; [exact Hnd| |exact C1]. intros n [l e] Hfr Hin. pose proof (tree_old L t xs _ _ T Hin). cbn. lia. }
  destruct (cut_flat L F _ _ _ _ _ _ Hnd1 V1 C2 Ca') as (FA1 & FZ1 & LA1 & KA1 & NA1 & V2).
  assert (FAZ : ft (A ++ Z) = ft xs) by (by rewrite ft_app, FA, FZ, take_drop).
  assert (EM : ft M = drop p (take q (ft xs))).
  { assert (ft M ++ ft Z = drop p (ft xs)) as EM by (by rewrite <- ft_app, FZ1, FAZ).
    rewrite FZ in EM. rewrite <- (take_drop q (ft xs)) in EM at 2. rewrite drop_app_le in EM; [by apply app_inv_tail in EM|].
    rewrite take_length, (ft_len L F) by done. destruct Cb as (X2 & e2 & Y2 & -> & H2 & ->). rewrite tlen_app, tlen_cons. lia. }
  assert (HS : (M ++ Z = [] \/ Shallow t2 9) \/ (M ++ Z <> [] /\ ~ Shallow t2 9)).
  { destruct (decide (length (M ++ Z) = 0)) as [E0|E0]; [left; left; by apply nil_length_inv|].
    destruct (shallow_dec L t2 _ 9 T2) as [?|?]; [intros [_ E]%app_nil; by rewrite E in E0|by left; right|right]. split; [|done].
    intros E. by rewrite E in E0. }
  destruct HS as [HS|[H1 H2]]; [left|right; split; [|by apply HP]; intros S7; exact (H2 (S2 7 S7))].
  destruct (HO HS) as (t' & E' & T' & _). eexists _, _, t', _. split; [exact E'|]. split; [exact T'|]. split.
  - rewrite !ft_app. rewrite (upd_run_flat fu g Hs Hg); [|intros l e Hin; apply (V2 l); clear -Hin; set_solver]. rewrite FA1, FAZ, EM, FZ. done.
  - intros l p1 Hst Hp1. destruct (KA l p1 Hst ltac:(lia)) as (X2 & e2 & Y2 & EX & H2).
    assert (Starts (A ++ Z) l p1) as Hst' by (exists X2, e2, (Y2 ++ Z); by rewrite EX, <- app_assoc).
    destruct (KA1 l p1 Hst' Hp1) as (X3 & e3 & Y3 & E3 & H3). eexists X3, e3, _. split; [|exact H3]. rewrite E3, <- app_assoc. done.
Qed.
(** push appends the units *)
Theorem fs_push t xs x : Tree t xs -> evalid L x -> exists cur t' xs', push t x = Ok (cur, t') /\ Tree t' xs' /\ ft xs' = ft xs ++ fl F x.
Proof.
  intros T Vx. destruct (t_push L t xs x T Vx) as (cur & t' & E & _ & _ & [(X & l & e & e' & -> & Hm & He & T' & _)|(n & _ & T' & _)]).
  - exists cur, t', (X ++ [(l, e')]). split; [done|]. split; [done|]. pose proof (tree_ve L t X l e [] T) as Ve.
    rewrite !ft_app, !ft_cons, (fl_mr L U F e x e' Ve Vx Hm He). unfold ft. cbn. by rewrite !app_nil_r, app_assoc.
  - exists cur, t', (xs ++ [(n, x)]). split; [done|]. split; [done|]. rewrite ft_app, ft_cons. unfold ft. cbn. by rewrite !app_nil_r.
Qed.
End upd.

(** ** RangeNumMap: every entry has positive length *)
Definition RNL : Lawful RNMTrait.
Proof.
  refine (mkLaw RNMTrait (fun e => 0 < re_len e) (fun _ => True) sum_list (fun x d y => Z.of_nat y = (Z.of_nat x + d)%Z) true
    _ _ _ _ _ _ _ _ _ _ _ _ _ _ _ _ _ _ _); cbn [Elem Cache Diff RNMTrait] in *.
  - done.
  - done.
  - done.
  - done.
  - intros l m r _ _. rewrite !sum_list_with_app. cbn. rewrite ?sum_list_with_app. lia.
  - intros c _. cbn. lia.
  - intros c0 cs _ _. cbn. eexists. split; [done|]. intros _. lia.
  - intros c0. cbn. eauto.
  - intros x d y Hd. cbn. f_equal. lia.
  - intros l r x d y Hd. rewrite !sum_list_with_app. cbn. lia.
  - intros l r c _. rewrite !sum_list_with_app. cbn. lia.
  - intros a d1 b d2 c. cbn. lia.
  - intros a b _. cbn. lia.
  - intros e off _ Ho. cbn in *. eexists _, _. split; [done|]. cbn. split_and!; try done; lia.
  - intros e off x _ _ _. cbn. by right.
  - intros a b Va Vb _. cbn in *. eexists. split; [done|]. cbn. split_and!; try done; try intros _; lia.
  - intros a b Va Vb _. cbn in *. eexists. split; [done|]. cbn. split_and!; try done; try intros _; lia.
  - intros e _ Hr. cbn in *. apply bool_decide_eq_true in Hr. done.
  - intros c. cbn. apply Nat.eqb_refl.
Defined.
Definition RNF : Flatten RNL (option Z).
Proof.
  refine (mkFl RNMTrait RNL (option Z) (fun e : Elem RNMTrait => replicate (re_len e) (re_value e)) _ _ _ _ _ _); cbn [Elem RNMTrait].
  - intros e _. apply replicate_length.
  - intros e off a b _ Ho E. cbn in E, Ho. injection E as <- <-. cbn. rewrite take_replicate, drop_replicate. split; [f_equal; lia|done].
  - intros e off x e' _ _ _ E. done.
  - intros a b c Va Vb Hm E. cbn in *. injection E as <-. cbn. apply orb_true_iff in Hm as [Hm%bool_decide_eq_true|Hm%bool_decide_eq_true]; [|lia].
    by rewrite replicate_add, Hm.
  - intros a b c Va Vb Hm E. cbn in *. injection E as <-. cbn. apply orb_true_iff in Hm as [Hm%bool_decide_eq_true|Hm%bool_decide_eq_true]; [|lia].
    by rewrite Nat.add_comm, replicate_add, Hm.
  - intros e Ve Hr. cbn in *. apply bool_decide_eq_true in Hr. lia.
Defined.
Lemma rnl_LenCache : LenCache RNL (fun c => c).
Proof. intros xs _ _. unfold agg, tlen. cbn [summ RNL]. done. Qed.

(** *** specification: arrays of optional numbers *)
Implicit Types (u : list (option Z)) (m : rnm).
(** what an update of [st .. en) first makes sure of: the array reaches [en], with some slack *)
Definition arr_reserve u (en : nat) : list (option Z) :=
  if decide (length u < en) then u ++ replicate (en - length u + 10) None else u.
Definition arr_map (g : option Z -> option Z) u (st en : nat) : list (option Z) :=
  take st u ++ map g (drop st (take en u)) ++ drop en u.
Definition RnmOf m u : Prop := exists xs, Tree RNL m xs /\ ft RNL RNF xs = u.

Lemma rnm_nz m xs : Tree RNL m xs -> NZ xs.
Proof. intros T l e Hin. pose proof (tree_valid RNL m xs l e T Hin) as V. cbn in *. lia. Qed.
Lemma rnm_tlen m xs : Tree RNL m xs -> tlen xs = length (ft RNL RNF xs).
Proof. intros T. symmetry. apply ft_len. intros l e Hin. by apply (tree_valid RNL m xs l e T). Qed.
Lemma rnm_new_ok : RnmOf rnm_new [].
Proof. exists []. split; [apply Tree_new|done]. Qed.
Lemma rnm_len_ok m u : RnmOf m u -> rnm_len m = length u.
Proof.
  intros (xs & T & <-). unfold rnm_len. rewrite (t_root_cache RNL m xs T) by by right. rewrite <- (rnm_tlen m xs T). done.
Qed.
Lemma arr_reserve_len u en : en <= length (arr_reserve u en) /\ length u <= length (arr_reserve u en).
Proof. unfold arr_reserve. case_decide; rewrite ?app_length, ?replicate_length; lia. Qed.
Lemma rnm_reserve_ok m u en : RnmOf m u -> exists m', rnm_reserve m en = Ok m' /\ RnmOf m' (arr_reserve u en).
Proof.
  intros HR. unfold rnm_reserve, arr_reserve. rewrite (rnm_len_ok m u HR). case_decide as Hl; [|by exists m].
  destruct HR as (xs & T & <-). destruct (fs_push RNL RNF m xs (mkRE None (en - length (ft RNL RNF xs) + 10)) T) as (cur & m' & xs' & E & T' & F).
  { cbn. lia. }
  rewrite E. cbn [rbind]. exists m'. split; [done|]. exists xs'. done.
Qed.
(** reading any index, inside or outside *)
Lemma rnm_get_ok m u i : RnmOf m u -> rnm_get m i = Ok (mjoin (u !! i)).
Proof.
  intros (xs & T & <-). unfold rnm_get, query, RNMFinder. destruct (decide (length xs = 0)) as [E|E].
  { apply nil_length_inv in E as ->. pose proof (t_query_empty RNL RNMFinder m i T) as E0. unfold RNMFinder in E0. rewrite E0. done. }
  destruct (t_len_query RNL (fun c => c) m xs i rnl_LenCache T) as (X & l & e & Y & s & Ex & Hx & HY & E1 & _); [by destruct xs|].
  rewrite E1. cbn [rbind qr_found qr_cursor cu_leaf]. assert (VX : forall l e, (l, e) ∈ xs -> evalid RNL e) by (intros; by eapply (tree_valid RNL _ _ _ _ T)).
  case_bool_decide as Hi.
  - assert (get_elem m l = Some e) as ->. { apply (t_get_elem RNL m xs l T). rewrite Ex. clear. set_solver. }
    assert (i < tlen X + rle_len e) as Hlt. { destruct (decide (tlen X + rle_len e <= i)) as [Hle|]; [|lia]. rewrite Ex, (HY Hle), tlen_app, tlen_cons, tlen_nil in Hi. lia. }
    f_equal. rewrite Ex, ft_app, ft_cons. assert (length (ft RNL RNF X) = tlen X) as HlX. { apply ft_len. intros l0 e0 Hin. apply (VX l0). rewrite Ex. clear -Hin. set_solver. }
    rewrite lookup_app_r by lia. rewrite HlX. cbn [fl RNF]. cbn [rle_len RNMTrait] in Hlt. rewrite lookup_app_l by (rewrite replicate_length; lia).
    rewrite lookup_replicate_2 by lia. done.
  - rewrite lookup_ge_None_2; [done|]. rewrite <- (rnm_tlen m xs T). lia.
Qed.
Lemma rnm_upd_ok ord m u st en (fu : unit -> Elem RNMTrait -> unit * Elem RNMTrait * option (Diff RNMTrait)) (g : option Z -> option Z) : (forall l, ord l ≡ₚ l) -> RnmOf m u ->
  st <= en -> en <= length u -> u <> [] ->
  (forall s e, fu s e = (tt, mkRE (g (re_value e)) (re_len e), None)) ->
  exists a b, range RNMFinder m st en = Ok (Some (a, b)) /\
   ((exists new s m', @update RNMTrait unit ord m (qr_cursor a) (qr_cursor b) fu tt = Ok (new, s, m') /\ RnmOf m' (arr_map g u st en)) \/
    (~ Shallow m 7 /\ @update RNMTrait unit ord m (qr_cursor a) (qr_cursor b) fu tt = Panic)).
Proof.
  intros Hord (xs & T & <-) Hse Hen Hne Hfu. rewrite <- (rnm_tlen m xs T) in Hen. assert (Hx : xs <> []) by (intros ->; by apply Hne).
  destruct (len_cur RNL (fun c => c) rnl_LenCache m xs st T Hx) as (ca & sa & Ea & Ca); [lia|].
  destruct (len_cur RNL (fun c => c) rnl_LenCache m xs en T Hx) as (cb & sb & Eb & Cb); [lia|].
  assert (Hor : st < en \/ ca = cb). { destruct (decide (st = en)) as [->|]; [|left; lia]. right. rewrite Ea in Eb. by injection Eb. }
  eexists _, _. split.
  { unfold range. rewrite (t_is_empty RNL m xs T), bool_decide_eq_false_2 by done. cbn [rbind]. unfold query, RNMFinder. rewrite Ea. cbn [rbind ropt]. rewrite Eb. cbn [rbind ropt]. reflexivity. }
  cbn [qr_cursor].
  destruct (fs_update RNL RNF fu g ord m xs ca cb st en tt T Ca Cb Hor Hord) as [(new & s' & m' & xs' & E & T' & F & _)|[? ?]].
  - intros s e s' e' od Ve E. rewrite Hfu in E. injection E as <- <- <-. by split.
  - intros s e _. rewrite Hfu. cbn. symmetry. apply fmap_replicate.
  - left. exists new, s', m'. split; [done|]. exists xs'. by split.
  - by right.
Qed.
Lemma map_const_replicate {A C} (c : C) (l : list A) : map (fun _ => c) l = replicate (length l) c.
Proof. induction l; cbn; f_equal; done. Qed.
(** insert: the entries of the range become [v] *)
Definition arr_fill u (st en : nat) (v : Z) : list (option Z) := take st u ++ replicate (en - st) (Some v) ++ drop en u.
Theorem rnm_insert_ok ord m u st en v : (forall l, ord l ≡ₚ l) -> RnmOf m u -> st <= en -> 0 < en \/ u <> [] ->
  (exists m', rnm_insert ord m st en v = Ok m' /\ RnmOf m' (arr_fill (arr_reserve u en) st en v)) \/
  (rnm_insert ord m st en v = Panic /\ exists m1, rnm_reserve m en = Ok m1 /\ ~ Shallow m1 7).
Proof.
  intros Hord HR Hse Hne. unfold rnm_insert. destruct (rnm_reserve_ok m u en HR) as (m1 & E1 & HR1). rewrite E1. cbn [rbind].
  destruct (arr_reserve_len u en) as [Hl1 Hl2]. set (u1 := arr_reserve u en) in *.
  assert (u1 <> []). { intros E. rewrite E in *. cbn in *. destruct Hne as [?|Hne]; [lia|]. by destruct u; cbn in *; [|lia]. }
  destruct (rnm_upd_ok ord m1 u1 st en (fun s e => (s, mkRE (Some v) (re_len e), None)) (fun _ => Some v) Hord HR1 Hse Hl1) as (a & b & Er & Hu); [done|by intros []|].
  rewrite Er. cbn [rbind]. destruct Hu as [(new & s & m' & -> & HR')|[H7 ->]].
  - left. exists m'. split; [done|]. unfold arr_map in HR'. rewrite map_const_replicate, drop_length, take_length in HR'.
    unfold arr_fill. by rewrite Nat.min_l in HR' by done.
  - right. split; [done|]. by exists m1.
Qed.
(** plus: adds to the entries of the range that have a value *)
Theorem rnm_plus_ok ord m u st en c : (forall l, ord l ≡ₚ l) -> RnmOf m u -> st <= en ->
  (exists m', rnm_plus ord m st en c = Ok m' /\ RnmOf m' (arr_map (fmap (fun x => (x + c)%Z)) (arr_reserve u en) st en)) \/
  (rnm_plus ord m st en c = Panic /\ exists m1, rnm_reserve m en = Ok m1 /\ ~ Shallow m1 7).
Proof.
  intros Hord HR Hse. unfold rnm_plus. destruct (rnm_reserve_ok m u en HR) as (m1 & E1 & HR1). rewrite E1. cbn [rbind].
  destruct (arr_reserve_len u en) as [Hl1 Hl2]. set (u1 := arr_reserve u en) in *. clearbody u1.
  destruct (decide (length u1 = 0)) as [E0|E0].
  - apply nil_length_inv in E0 as ->. left. exists m1. split; [|by unfold arr_map; rewrite !take_nil, !drop_nil].
    destruct HR1 as (xs & T & Ef). assert (xs = []) as ->.
    { pose proof (rnm_tlen m1 xs T) as Hl. rewrite Ef in Hl. cbn in Hl. destruct xs as [|[l e] xs]; [done|]. rewrite tlen_cons in Hl.
      pose proof (rnm_nz m1 _ T l e ltac:(left)). lia. }
    unfold range. rewrite (t_is_empty RNL m1 [] T). done.
  - destruct (rnm_upd_ok ord m1 u1 st en (fun s e => (s, mkRE ((fun x => (x + c)%Z) <$> re_value e) (re_len e), None)) (fmap (fun x => (x + c)%Z)) Hord HR1 Hse Hl1) as (a & b & Er & Hu);
      [by destruct u1|by intros []|].
    rewrite Er. cbn [rbind]. destruct Hu as [(new & s & m' & -> & HR')|[H7 ->]]; [left|right].
    + exists m'. by split.
    + split; [done|]. by exists m1.
Qed.

(** *** iter and drain *)
(** [ps] lists, for the array [u] placed at index [i], the ranges of equal values *)
Definition Describes (i : nat) u (ps : list (nat * nat * Z)) : Prop := forall j v,
  (exists a b, (a, b, v) ∈ ps /\ a <= j < b) <-> i <= j /\ u !! (j - i) = Some (Some v).
(** a list of ranges that starts at [i] and has no gaps, with the values it covers *)
Inductive Gapless : nat -> list (nat * nat * Z) -> list Z -> Prop :=
| ga_nil i : Gapless i [] []
| ga_cons i b v ps w : i < b -> Gapless b ps w -> Gapless i ((i, b, v) :: ps) (replicate (b - i) v ++ w).
Lemma omap_id_replicate (n : nat) (o : option Z) : omap id (replicate n o) = match o with Some v => replicate n v | None => [] end.
Proof. induction n as [|n IH]; cbn; [by destruct o|]. destruct o; cbn; by rewrite IH. Qed.
Lemma rnm_pairs_gapless es : Forall (fun e => 0 < re_len e) es -> forall i,
  Gapless i (rnm_pairs i es) (omap id (concat (map (fl RNF) es))).
Proof.
  induction 1 as [|e es He _ IH]; intros i; [constructor|]. cbn [map concat rnm_pairs]. rewrite omap_app. cbn [fl RNF]. rewrite omap_id_replicate.
  destruct (re_value e) as [v|]; [|apply IH]. replace (replicate (re_len e) v) with (replicate (i + re_len e - i) v) by (f_equal; lia).
  constructor; [lia|apply IH].
Qed.
(** a gapless list describes the array of its own values *)
Lemma gapless_describes i ps w : Gapless i ps w -> forall n, Describes i ((Some <$> w) ++ replicate n None) ps.
Proof.
  induction 1 as [i|i b v ps w Hb G IH]; intros n j x.
  - split; [intros (a & b & []%elem_of_nil & _)|]. intros [_ H]. cbn in H. apply lookup_replicate in H as [? _]. done.
  - specialize (IH n j x). rewrite fmap_app, <- app_assoc. split.
    + intros (a & b' & Hin & Hj). apply elem_of_cons in Hin as [[= -> -> ->]|Hin].
      * split; [lia|]. rewrite lookup_app_l by (rewrite fmap_length, replicate_length; lia). rewrite list_lookup_fmap, lookup_replicate_2 by lia. done.
      * destruct (proj1 IH) as [Hbj Hl]; [by exists a, b'|]. split; [lia|]. rewrite lookup_app_r; rewrite fmap_length, replicate_length; [|lia].
        rewrite <- Hl. f_equal. lia.
    + intros [Hij Hl]. destruct (decide (j < b)) as [Hjb|Hjb].
      * rewrite lookup_app_l in Hl by (rewrite fmap_length, replicate_length; lia). rewrite list_lookup_fmap, lookup_replicate_2 in Hl by lia.
        injection Hl as ->. exists i, b. split; [left|lia].
      * rewrite lookup_app_r in Hl; rewrite fmap_length, replicate_length in *; [|lia]. destruct (proj2 IH) as (a & b' & Hin & Ha).
        { split; [lia|]. rewrite <- Hl. f_equal. lia. }
        exists a, b'. split; [by right|done].
Qed.
Lemma rnm_elems_pos m xs : Tree RNL m xs -> Forall (fun e : rnm_elem => 0 < re_len e) (map snd xs).
Proof. intros T. apply Forall_forall. intros e ([l e'] & -> & Hin)%elem_of_list_fmap. exact (tree_valid RNL m xs l e' T Hin). Qed.
(** iter: the values in order, over ranges without gaps from 0 — the indices of the entries without
    value are skipped *)
Theorem rnm_iter_ok m u : RnmOf m u -> Shallow m 9 -> exists ps, rnm_iter m = Ok ps /\ Gapless 0 ps (omap id u).
Proof.
  intros (xs & T & <-) Sh. unfold rnm_iter. rewrite (t_iter RNL m xs T Sh). cbn [rbind]. eexists. split; [done|].
  pose proof (rnm_pairs_gapless _ (rnm_elems_pos m xs T) 0) as G. by rewrite map_map in G.
Qed.
(** hence right when the entries without value all come last *)
Theorem rnm_iter_full m w n : RnmOf m ((Some <$> w) ++ replicate n None) -> Shallow m 9 ->
  exists ps, rnm_iter m = Ok ps /\ Describes 0 ((Some <$> w) ++ replicate n None) ps.
Proof.
  intros HR Sh. destruct (rnm_iter_ok m _ HR Sh) as (ps & E & G). exists ps. split; [done|]. apply gapless_describes.
  rewrite omap_app, omap_id_replicate, app_nil_r in G. replace (omap id (Some <$> w)) with w in G; [done|].
  clear. induction w; cbn; f_equal; done.
Qed.
Lemma leaves_le {B} (L : Lawful B) (t : btree B) xs : Tree L t xs -> length xs <= anext (leaf_nodes t).
Proof.
  intros T. rewrite <- (fmap_length fst). rewrite <- (seq_length (anext (leaf_nodes t)) 0).
  apply submseteq_length, NoDup_submseteq; [exact (tree_nodup L t xs T)|]. intros l ([l' e] & -> & Hin)%elem_of_list_fmap.
  pose proof (tree_old L t xs l' e T Hin). apply elem_of_seq. cbn. lia.
Qed.
(** drain: removes the range and lists its values *)
Theorem rnm_drain_ok m u st en : RnmOf m u -> st <= en -> en <= length u -> st < length u ->
  (exists ps m', rnm_drain m st en = Ok (ps, m') /\ RnmOf m' (take st u ++ drop en u) /\ Gapless st ps (omap id (drop st (take en u)))) \/
  (rnm_drain m st en = Panic /\ ~ Shallow m 7).
Proof.
  intros (xs & T & <-) Hse Hen Hst. rewrite <- (rnm_tlen m xs T) in Hen, Hst. assert (Hx : xs <> []) by (intros ->; cbn in Hst; lia).
  destruct (len_cur RNL (fun c => c) rnl_LenCache m xs st T Hx) as (ca & sa & Ea & Ca); [lia|].
  destruct (len_cur RNL (fun c => c) rnl_LenCache m xs en T Hx) as (cb & sb & Eb & Cb); [lia|].
  assert (Hor : st < en \/ ca = cb). { destruct (decide (st = en)) as [->|]; [|left; lia]. right. rewrite Ea in Eb. by injection Eb. }
  pose proof (rnm_nz m xs T) as Hn. unfold rnm_drain, query, RNMFinder. rewrite Ea. cbn [rbind]. rewrite Eb. cbn [rbind].
  destruct (fs_fits RNL m xs ca cb st en (bool_decide (st < tlen xs)) (bool_decide (en < tlen xs)) T Hn Ca Cb Hor Hst) as [Fi|[S7 HP]].
  - left. destruct (fs_drain RNL RNF m xs ca cb st en (bool_decide (st < tlen xs)) (bool_decide (en < tlen xs)) T Fi Hn Ca Cb Hor Hst)
      as (M & m' & xs' & Hk & T' & F1 & F2 & _ & N' & HM & VM).
    rewrite Hk. cbn [rbind]. eexists _, m'. split; [done|]. split; [by exists xs'|].
    rewrite take_ge by (pose proof (leaves_le RNL m xs T); lia). rewrite <- F2. by apply rnm_pairs_gapless.
  - right. rewrite HP. done.
Qed.

(** *** histories *)
Inductive mop : Type := MIns (st en : nat) (v : Z) | MPlus (st en : nat) (c : Z) | MDrain (st en : nat).
Definition mop_run (ord : list aidx -> list aidx) (o : mop) m : res rnm :=
  match o with
  | MIns st en v => rnm_insert ord m st en v
  | MPlus st en c => rnm_plus ord m st en c
  | MDrain st en => let? (_, m) := rnm_drain m st en in Ok m
  end.
Fixpoint mrun (ord : list aidx -> list aidx) (os : list mop) m : res rnm :=
  match os with [] => Ok m | o :: os' => let? m := mop_run ord o m in mrun ord os' m end.
(** specification *)
Definition arr_op (o : mop) u : list (option Z) :=
  match o with
  | MIns st en v => arr_fill (arr_reserve u en) st en v
  | MPlus st en c => arr_map (fmap (fun x => (x + c)%Z)) (arr_reserve u en) st en
  | MDrain st en => take st u ++ drop en u
  end.
Fixpoint arr_run (os : list mop) u : list (option Z) := match os with [] => u | o :: os' => arr_run os' (arr_op o u) end.
(** which calls are meant: ranges the right way round; no insertion over 0..0 into an empty map;
    drains inside the array *)
Definition mop_ok (o : mop) u : Prop :=
  match o with
  | MIns st en _ => st <= en /\ (0 < en \/ u <> [])
  | MPlus st en _ => st <= en
  | MDrain st en => st <= en /\ en <= length u /\ st < length u
  end.
Fixpoint mops_ok (os : list mop) u : Prop := match os with [] => True | o :: os' => mop_ok o u /\ mops_ok os' (arr_op o u) end.
(** the map, or the map after reserving room for the call, is too deep *)
Definition TooDeep (o : mop) m : Prop :=
  match o with
  | MIns _ en _ | MPlus _ en _ => exists m1, rnm_reserve m en = Ok m1 /\ ~ Shallow m1 7
  | MDrain _ _ => ~ Shallow m 7
  end.
Lemma mop_run_ok ord o m u : (forall l, ord l ≡ₚ l) -> RnmOf m u -> mop_ok o u ->
  (exists m', mop_run ord o m = Ok m' /\ RnmOf m' (arr_op o u)) \/ (mop_run ord o m = Panic /\ TooDeep o m).
Proof.
  intros Hord HR Ho. destruct o as [st en v|st en c|st en]; cbn [mop_ok mop_run arr_op TooDeep] in *.
  - destruct Ho. by apply rnm_insert_ok.
  - by apply rnm_plus_ok.
  - destruct Ho as (H1 & H2 & H3). destruct (rnm_drain_ok m u st en HR H1 H2 H3) as [(ps & m' & -> & HR' & _)|[-> S7]]; [left|by right].
    exists m'. by split.
Qed.
Theorem mrun_any ord (Hord : forall l, ord l ≡ₚ l) os : forall m u, RnmOf m u -> mops_ok os u ->
  (exists m', mrun ord os m = Ok m' /\ RnmOf m' (arr_run os u)) \/
  (mrun ord os m = Panic /\ exists os1 o os2 m1, os = os1 ++ o :: os2 /\ mrun ord os1 m = Ok m1 /\ RnmOf m1 (arr_run os1 u) /\ TooDeep o m1).
Proof.
  induction os as [|o os IH]; intros m u HR Hf; [left; by exists m|]. destruct Hf as [Ho Hf]. cbn [mrun arr_run].
  destruct (mop_run_ok ord o m u Hord HR Ho) as [(m1 & E0 & HR1)|[E0 HD]]; rewrite E0; cbn [rbind].
  - destruct (IH m1 _ HR1 Hf) as [?|(E & os1 & o' & os2 & m2 & -> & E1 & HR2 & HD)]; [by left|right]. split; [done|].
    exists (o :: os1), o', os2, m2. split; [done|]. cbn [mrun arr_run].
    rewrite E0. done.
  - right. split; [done|]. exists [], o, os, m. done.
Qed.
