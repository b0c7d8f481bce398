(** Visit.v — visit_previous_caches (lib.rs:2598-2633). *)
From Verif Require Export Query.

Section visit.
Context {B : BTreeTrait} (L : Lawful B).
Notation btree := (btree B).
Notation child := (child B).
Implicit Types (t : btree) (c : child) (xs X Y : list (nat * Elem B)).

(** root-first path below a node *)
Inductive dpath t (l : nat) : aidx -> list idx -> Prop :=
| dp_nil : dpath t l (ALeaf l) []
| dp_cons i n c k b suf : a_get (in_nodes t) i = Some n -> n_children n !! k = Some c -> c_arena c = b -> dpath t l b suf ->
    dpath t l (AInt i) (mkIdx b k :: suf).
Lemma rpath_dpath t l r a : rpath t r a -> forall suf, dpath t l a suf ->
  exists suf', rev r ++ suf = mkIdx (root t) 0 :: suf' /\ dpath t l (root t) suf'.
Proof.
  induction 1 as [|i a k p Hp IH Hk]; intros suf Hd.
  - by exists suf.
  - destruct (chs_lookup _ _ _ _ Hk) as (cs & c & Hcs & Hc & Ha). unfold kids in Hcs.
    destruct (a_get (in_nodes t) i) as [n|] eqn:Hn; [|done]. injection Hcs as <-.
    destruct (IH (mkIdx a k :: suf)) as (suf' & E & Hd'); [by econstructor|].
    exists suf'. split; [|done]. cbn [rev]. by rewrite <- app_assoc.
Qed.

Lemma dpath_inv t l i b k suf : dpath t l (AInt i) (mkIdx b k :: suf) -> exists n c, a_get (in_nodes t) i = Some n /\
  n_children n !! k = Some c /\ c_arena c = b /\ dpath t l b suf.
Proof. inversion 1; subst. eauto 10. Qed.
Lemma dpath_inv_nil t l b : dpath t l b [] -> b = ALeaf l.
Proof. by inversion 1. Qed.
Lemma dpath_inv_int t l b x suf : dpath t l b (x :: suf) -> exists m b' k', b = AInt m /\ x = mkIdx b' k'.
Proof. inversion 1; subst. eauto 10. Qed.

Section one.
Context (t : btree) (D : nat) (xs : list (nat * Elem B)) (I : Intact L t D xs) (l : nat) (e : Elem B) (He : (l, e) ∈ xs).
(** a list of caches covering consecutive pieces of [ys] *)
Definition covers (cs : list (Cache B)) (ys : list (nat * Elem B)) : Prop :=
  exists ss, Forall2 (fun (u : Cache B) s => s <> [] /\ u = agg L s) cs ss /\ concat ss = ys.

Definition steps (suf : list idx) : nat := sum_list (map (fun x => S (i_arr x)) suf).

Lemma vpc_ok : forall suf path pre hd i n d ss b k, path = pre ++ hd :: mkIdx b k :: suf ->
  dpath t l (AInt i) (mkIdx b k :: suf) -> a_get (in_nodes t) i = Some n ->
  Forall2 (segm L t d) (n_children n) ss ->
  forall m ci f, ci + m = k -> m + 1 + steps suf <= f ->
  exists cs P R, vpc_f f t path (length pre) ci n = Ok (map NodeCache cs) /\ covers cs P /\
    concat ss = concat (take ci ss) ++ P ++ (l, e) :: R.
Proof using I He.
  induction suf as [|nx suf IH]; intros path pre hd i n d ss b k Hp Hd Hn F.
  all: destruct (dpath_inv _ _ _ _ _ _ Hd) as (n' & c & Hn' & Hc & Hb & Hd'); assert (n' = n) as -> by congruence.
  all: destruct (Forall2_lookup_l _ _ _ _ _ F Hc) as (sk & Hsk & (Hio & Hsn & Hcc)).
  all: assert (path !! S (length pre) = Some (mkIdx b k)) as Hlk by
    (rewrite Hp, lookup_app_r by lia; by replace (S (length pre) - length pre) with 1 by lia).
  all: induction m as [|m IHm]; intros ci f Hm Hf; (destruct f as [|f]; [lia|]); cbn [vpc_f]; rewrite Hlk; cbn [i_arr].
  - (* at the leaf *)
    rewrite decide_True by lia. rewrite decide_False.
    2:{ rewrite Hp, app_length. cbn. lia. }
    exists [], [], (concat (drop (S k) ss)). split_and!; [done|by exists []|].
    assert (ci = k) as -> by lia. rewrite <- (take_drop_middle ss k sk Hsk) at 1. rewrite concat_app. cbn [concat app].
    f_equal. apply dpath_inv_nil in Hd'. assert (sk = [(l, e)]) as ->; [|done].
    rewrite Hb, Hd' in Hio. inversion Hio as [? lf Hlf|]; subst. do 2 f_equal.
    apply (in_leaf _ _ _ _ I) in He. rewrite Hlf in He. by injection He.
  - (* a child to the left *)
    rewrite decide_False by lia. destruct (lookup_lt_is_Some_2 (n_children n) ci) as [c1 Hc1].
    { apply lookup_lt_Some in Hc. lia. }
    unfold vec_get. rewrite Hc1. cbn [ropt rbind]. destruct (IHm (S ci) f) as (cs & P & R & -> & (ps & Fp & <-) & Ec); [lia|lia|].
    cbn [rbind]. destruct (Forall2_lookup_l _ _ _ _ _ F Hc1) as (s1 & Hs1 & (_ & Hsn1 & Hcc1)).
    exists (c_cache c1 :: cs), (s1 ++ concat ps), R. split_and!; [done|exists (s1 :: ps); split; [by constructor|done]|].
    rewrite Ec, (take_S_r _ _ _ Hs1), concat_app. cbn [concat]. rewrite app_nil_r, <- !app_assoc. done.
  - (* descend *)
    rewrite decide_True by lia. rewrite decide_True.
    2:{ rewrite Hp, app_length. cbn. lia. }
    cbn [i_arena]. destruct (dpath_inv_int _ _ _ _ _ Hd') as (m & b' & k' & -> & ->).
    destruct (dpath_inv _ _ _ _ _ _ Hd') as (mn & mc & Hmn & Hmc & Hb' & Hd'').
    cbn [get_internal unwrap_internal rbind]. unfold get_in. rewrite Hmn. cbn [ropt rbind].
    rewrite Hb in Hio. destruct (node_segs L _ _ _ _ _ _ _ I Hmn Hio) as (d' & ms & -> & Fm & <-).
    destruct (IH path (pre ++ [hd]) (mkIdx (AInt m) k) m mn d' ms b' k') with (m := k') (ci := 0) (f := f) as (cs & P & R & E & Hcv & Ec); try done.
    + by rewrite <- app_assoc.
    + unfold steps in *. cbn in Hf |- *. lia.
    + rewrite app_length in E. cbn in E. rewrite Nat.add_1_r in E. rewrite E. exists cs, P, (R ++ concat (drop (S k) ss)).
      split_and!; try done. assert (ci = k) as -> by lia. rewrite <- (take_drop_middle ss k _ Hsk) at 1. rewrite concat_app. cbn [concat].
      f_equal. rewrite Ec. change (take 0 ms) with (@nil (list (nat * Elem B))). cbn [concat app]. by rewrite <- app_assoc.
  - rewrite decide_False by lia. destruct (lookup_lt_is_Some_2 (n_children n) ci) as [c1 Hc1].
    { apply lookup_lt_Some in Hc. lia. }
    unfold vec_get. rewrite Hc1. cbn [ropt rbind]. destruct (IHm (S ci) f) as (cs & P & R & -> & (ps & Fp & <-) & Ec); [lia|lia|].
    cbn [rbind]. destruct (Forall2_lookup_l _ _ _ _ _ F Hc1) as (s1 & Hs1 & (_ & Hsn1 & Hcc1)).
    exists (c_cache c1 :: cs), (s1 ++ concat ps), R. split_and!; [done|exists (s1 :: ps); split; [by constructor|done]|].
    rewrite Ec, (take_S_r _ _ _ Hs1), concat_app. cbn [concat]. rewrite app_nil_r, <- !app_assoc. done.
Qed.
End one.

Theorem t_visit t X l e Y off : Tree L t (X ++ (l, e) :: Y) -> Shallow t 9 ->
  exists cs, visit_previous_caches t (mkCur l off) = Ok (map NodeCache cs ++ [ThisElemAndOffset e off]) /\ covers cs X.
Proof.
  intros T Hs. pose proof T as [D I]. destruct (shallow_OK L t _ 9 ltac:(lia) T Hs) as (H & lv & O & HH & Ec).
  pose proof (ok_wt _ _ _ _ O) as W. pose proof (ok_lk _ _ _ _ O) as K.
  assert ((l, e) ∈ X ++ (l, e) :: Y) as He by (apply elem_of_app; right; left).
  pose proof (tree_el L _ _ _ _ _ T) as Hel.
  destruct (rpath_exists W (ALeaf l)) as [r Hr]; [eexists; exact Hel|].
  pose proof (rpath_len W r _ Hr) as Hlen. cbn in Hlen.
  unfold visit_previous_caches. cbn [cu_leaf]. rewrite (get_path_ok W K r _ Hr) by lia. cbn [rbind].
  destruct (rpath_dpath t l r _ Hr []) as (suf & E & Hd); [constructor|]. rewrite app_nil_r in E. rewrite E.
  cbn [vec_get lookup list_lookup ropt rbind i_arena].
  destruct (in_top _ _ _ _ I) as (rt & rn & Hroot & Hrn & _). rewrite Hroot in *. cbn [get_internal unwrap_internal rbind].
  unfold get_in. rewrite Hrn. cbn [ropt rbind].
  destruct suf as [|x suf]; [by apply dpath_inv_nil in Hd|].
  destruct (dpath_inv_int _ _ _ _ _ Hd) as (m & b & k & Em & ->). injection Em as <-.
  pose proof (in_order _ _ _ _ I) as Hio. rewrite Hroot in Hio.
  destruct (node_segs L _ _ _ _ _ _ _ I Hrn Hio) as (d & ss & -> & F & Ess).
  set (path := mkIdx (AInt rt) 0 :: mkIdx b k :: suf).
  destruct (vpc_ok t _ _ I l e He suf path [] (mkIdx (AInt rt) 0) rt rn d ss b k eq_refl Hd Hrn F k 0
    (S (S (length path) + sum_list (map i_arr path)))) as (cs & P & R & Ev & Hcv & Ex); [lia| |].
  { unfold path, steps. cbn. clear. induction suf as [|y suf IH]; cbn; lia. }
  change (length (@nil idx)) with 0 in Ev. rewrite Ev. cbn [rbind].
  destruct (tree_get_lf L t _ l e T He) as [p Hp]. unfold get_lf in Hp |- *. rewrite Hp. cbn [rbind l_elem].
  exists cs. split; [done|]. rewrite Ess in Ex. change (concat (take 0 ss)) with (@nil (nat * Elem B)) in Ex. cbn [app] in Ex.
  destruct (nodup_split_unique X.*1 Y.*1 P.*1 R.*1 l) as [EX _].
  - pose proof (tree_nodup L _ _ T) as N. by rewrite fmap_app in N.
  - apply (f_equal (fmap fst)) in Ex. by rewrite !fmap_app in Ex.
  - apply app_inj_1 in Ex as [-> _]; [done|]. by rewrite <- (fmap_length fst X), EX, fmap_length.
Qed.

(** consequences: the caches aggregate to the aggregate of what precedes the leaf *)
Lemma covers_agg cs X u v : covers cs X -> (forall l e, (l, e) ∈ X -> evalid L e) -> Forall (cvalid L) u -> Forall (cvalid L) v ->
  summ L (u ++ cs ++ v) = summ L (u ++ ec X ++ v).
Proof.
  intros (ss & F & <-) V Hu Hv. revert u Hu V. induction F as [|c s cs ss [Hs ->] F IH]; intros u Hu V; [done|].
  assert (Vs : Forall (cvalid L) (ec s)).
  { apply Forall_forall. intros y ((l & e) & -> & Hy)%elem_of_list_fmap. apply lw_get, (V l e). cbn. set_solver. }
  cbn [concat app]. rewrite ec_app. unfold agg. fold (ec s).
  assert (Vcs : Forall (cvalid L) cs).
  { clear IH Hu u Vs. assert (V' : forall l e, (l, e) ∈ concat ss -> evalid L e) by (intros l e Hl; apply (V l e); cbn; set_solver). clear V.
    induction F as [|c0 s0 cs ss [Hs0 ->] F IHF]; [constructor|]. constructor.
    - apply lw_summ; [|left; by destruct s0]. apply Forall_forall. intros y ((l & e) & -> & Hy)%elem_of_list_fmap. apply lw_get, (V' l e). cbn. set_solver.
    - apply IHF. intros l e Hl. apply (V' l e). cbn. set_solver. }
  rewrite lw_flat.
  - rewrite (app_assoc u), IH.
    + by rewrite <- !app_assoc.
    + by apply Forall_app.
    + intros l e Hl. apply (V l e). cbn. set_solver.
  - rewrite !Forall_app. done.
  - left. by destruct s.
Qed.
Lemma covers_len get_len cs X : LenCache L get_len -> covers cs X -> (forall l e, (l, e) ∈ X -> evalid L e) ->
  sum_list (map get_len cs) = tlen X.
Proof.
  intros HL (ss & F & <-) V. induction F as [|c s cs ss [Hs ->] F IH]; [done|]. cbn [map concat sum_list sum_list_with].
  rewrite tlen_app, <- IH. 2:{ intros l e Hl. apply (V l e). cbn. set_solver. }
  rewrite HL; [done| |done]. intros l e Hl. apply (V l e). cbn. set_solver.
Qed.
Theorem t_visit_agg t X l e Y off : Tree L t (X ++ (l, e) :: Y) -> Shallow t 9 ->
  exists cs, visit_previous_caches t (mkCur l off) = Ok (map NodeCache cs ++ [ThisElemAndOffset e off]) /\
    summ L (cs ++ [get_elem_cache e]) = agg L (X ++ [(l, e)]).
Proof.
  intros T Hs. destruct (t_visit t X l e Y off T Hs) as (cs & E & Hcv). exists cs. split; [done|].
  assert (V : forall l' e', (l', e') ∈ X ++ (l, e) :: Y -> evalid L e') by (intros l' e'; by apply (tree_valid L t)).
  pose proof (covers_agg cs X [] [get_elem_cache e] Hcv) as G. cbn [app] in G. rewrite G.
  - unfold agg. rewrite map_app. done.
  - intros l' e' H'. apply (V l' e'). set_solver.
  - constructor.
  - constructor; [|constructor]. apply lw_get, (V l e). set_solver.
Qed.
Theorem t_visit_len get_len t X l e Y off : LenCache L get_len -> Tree L t (X ++ (l, e) :: Y) -> Shallow t 9 ->
  exists cs, visit_previous_caches t (mkCur l off) = Ok (map NodeCache cs ++ [ThisElemAndOffset e off]) /\
    sum_list (map get_len cs) = tlen X.
Proof.
  intros HL T Hs. destruct (t_visit t X l e Y off T Hs) as (cs & E & Hcv). exists cs. split; [done|].
  apply covers_len; [done|done|]. intros l' e' H'. apply (tree_valid L t _ l' e' T). set_solver.
Qed.
End visit.
