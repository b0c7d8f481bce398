(** IntWidth.v — cached lengths held in machine integers.

    Rope.v takes [isize] to be unbounded.  Here the cache is an integer of a fixed width that wraps around, as in a build
    without overflow checks; the width is a parameter. *)
From Verif Require Export Hist2 Rope Inst Query.

(** ** the length query needs the caches to be right only for the runs of leaves that occur *)
Section lenon.
Context {B : BTreeTrait} (L : Lawful B) (get_len : Cache B -> nat).
Notation btree := (btree B).
Implicit Types (t : btree) (xs X Y : list (nat * Elem B)).
Definition LenOn xs : Prop := forall X ys Y, X ++ ys ++ Y = xs -> ys <> [] -> get_len (agg L ys) = tlen ys.
Section one.
Context (q : nat) (t : btree) (D : nat) (xs : list (nat * Elem B)) (HL : LenOn xs) (I : Intact L t D xs).
Notation entry := (nat * Elem B)%type.

Lemma scan_ok_on d : forall cs ss i lft lst,
  Forall2 (segm L t d) cs ss -> (forall sc, sc ∈ ss -> sc <> [] -> get_len (agg L sc) = tlen sc) ->
  (exists C1 c C2 S1 sc S2, cs = C1 ++ c :: C2 /\ ss = S1 ++ sc :: S2 /\ length S1 = length C1 /\
     tlen (concat S1) <= lft < tlen (concat S1) + tlen sc /\
     lf_scan get_len cs i lft lst = inl (i + length C1, lft - tlen (concat S1), c)) \/
  (tlen (concat ss) <= lft /\
   lf_scan get_len cs i lft lst =
     inr (match last ss with None => lst | Some sc => lft - (tlen (concat ss) - tlen sc) end)).
Proof using.
  clear HL I xs D q. induction cs as [|c cs IH]; intros ss i lft lst F V; inversion F as [|? sc ? ss' (Hs & Hsn & Hcc) F']; subst.
  - right. split; [cbn [concat]; rewrite tlen_nil; lia|done].
  - cbn [lf_scan]. rewrite Hcc, V; [|left|done].
    destruct (decide (tlen sc <= lft)) as [Hle|Hgt].
    + destruct (IH ss' (S i) (lft - tlen sc) lft F') as [(C1 & c1 & C2 & S1 & s1 & S2 & -> & -> & Hl & Hr & ->)|[Hr ->]].
      * intros s2 He. apply V. by right.
      * left. exists (c :: C1), c1, C2, (sc :: S1), s1, S2. cbn [length concat app]. rewrite tlen_app. split_and!; try done; [lia|lia|lia|].
        f_equal. f_equal. f_equal; lia.
      * right. cbn [concat]. rewrite tlen_app. split; [lia|]. f_equal.
        destruct ss' as [|s2 ss'']; [cbn [last concat]; rewrite tlen_nil; lia|]. change (last (sc :: s2 :: ss'')) with (last (s2 :: ss'')).
        destruct (last (s2 :: ss'')) as [s3|] eqn:E3.
        -- assert (tlen s3 <= tlen (concat (s2 :: ss''))) as Hle3.
           { apply last_Some in E3 as [ss3 E3]. rewrite E3, concat_app, tlen_app. cbn [concat]. rewrite app_nil_r. lia. }
           lia.
        -- by apply last_None in E3.
    + left. exists [], c, cs, [], sc, ss'. cbn [length concat app]. change (tlen []) with 0. split_and!; try done; [lia|lia|]. do 3 f_equal; lia.
Qed.

Notation lf_inv := (lf_inv q t).
Notation lf_place := (lf_place t).
Lemma lf_step_on : @q_step B L (LengthFinder get_len) q t xs lf_inv.
Proof using HL I.
  intros s i n d X ss Y fd Hn Hne F (Hlf & Hq & Hfd & HY & Hpl) Hx.
  assert (V : forall sc, sc ∈ ss -> sc <> [] -> get_len (agg L sc) = tlen sc).
  { intros sc (S1 & S2 & ->)%elem_of_list_split Hsn. apply (HL (X ++ concat S1) sc (concat S2 ++ Y)); [|done].
    rewrite <-Hx, concat_app. cbn [concat]. by rewrite <-!app_assoc. }
  assert (exists c0 cs', n_children n = c0 :: cs') as (c0 & cs' & Ecs) by (destruct (n_children n); [done|eauto]).
  assert (Hpl' : forall k c lft, n_children n !! k = Some c ->
    lf_place (if is_internal (c_arena c0) then mkLF lft (lf_slot s) (Some (raw (c_arena c))) else mkLF lft k (lf_parent s)) (c_arena c)).
  { intros k c lft Hk. rewrite Ecs in Hk, F.
    assert (is_internal (c_arena c) = is_internal (c_arena c0)) as <-.
    { assert (forall c, c ∈ c0 :: cs' -> is_internal (c_arena c) = match d with 0 => false | _ => true end) as G.
      { intros c' Hc'. apply elem_of_list_lookup in Hc' as [j Hj]. destruct (Forall2_lookup_l _ _ _ _ _ F Hj) as (sj & _ & Hs & _).
        by inversion Hs. }
      rewrite (G c), (G c0); [done|left|by eapply elem_of_list_lookup_2]. }
    destruct (c_arena c) as [l|m] eqn:Ea; cbn [is_internal lf_place raw lf_slot lf_parent].
    - exists i, n, c. rewrite Ecs. by split_and!.
    - by right. }
  cbn [q_find LengthFinder]. cbn in s. rewrite (lf_find_eq get_len q s (n_children n) c0 cs' Ecs).
  destruct (scan_ok_on d (n_children n) ss 0 (lf_left s) (lf_left s) F V) as [(C1 & c & C2 & S1 & sc & S2 & Hc & -> & Hl & Hr & ->)|[Hr ->]].
  - assert (n_children n !! length C1 = Some c) as Hk by (rewrite Hc; by apply list_lookup_middle).
    eexists _, true, _, C1, c, C2, S1, sc, S2. split_and!; try done. rewrite andb_true_r. rewrite concat_app, tlen_app in *.
    cbn [concat] in *. rewrite tlen_app in *. unfold Query.lf_inv. rewrite tlen_app. split_and!.
    + destruct (is_internal (c_arena c0)); cbn; lia.
    + lia.
    + intros. apply Hfd. lia.
    + intros Hle. exfalso. lia.
    + by apply Hpl'.
  - destruct (last (n_children n)) as [c|] eqn:El; [|by apply last_None in El; rewrite El in Ecs].
    apply last_Some in El as [C1 El]. cbn [ropt rbind]. rewrite El in F. apply Forall2_app_inv_l in F as (S1 & S2 & F1 & F2 & ->).
    inversion F2 as [|? sc ? ? _ F3]; subst. inversion F3; subst. rewrite last_snoc.
    exists (q - tlen (X ++ concat S1)), false. eexists. exists C1, c, [], S1, sc, [].
    apply Forall2_length in F1. split_and!; try done.
    { f_equal. f_equal. f_equal. f_equal.
      - rewrite El, app_length. cbn. lia.
      - rewrite concat_app, tlen_app in *. cbn [concat] in *. rewrite app_nil_r, ?tlen_app in *. lia. }
    rewrite concat_app, ?tlen_app in *. cbn [concat] in *. rewrite app_nil_r in *. rewrite ?tlen_app in *.
    unfold Query.lf_inv. rewrite tlen_app. split_and!.
    + destruct (is_internal (c_arena c0)); cbn; lia.
    + lia.
    + lia.
    + intros _. cbn. apply HY. lia.
    + replace (length (n_children n) - 1) with (length C1) by (rewrite El, app_length; cbn; lia).
      apply Hpl'. rewrite El. by apply list_lookup_middle.
Qed.
End one.

Theorem t_len_query_on t xs q : LenOn xs -> Tree L t xs -> xs <> [] ->
  exists X l e Y s, xs = X ++ (l, e) :: Y /\ tlen X <= q /\ (tlen X + rle_len e <= q -> Y = []) /\
    query_with_finder_return (LengthFinder get_len) t q =
      Ok (Some (mkQR (mkCur l (q - tlen X)) (bool_decide (q < tlen xs))), s) /\ lf_place t s (ALeaf l).
Proof.
  intros HL [D I] Hne.
  destruct (query_wf_ok L (LengthFinder get_len) q t D xs I (lf_inv q t) (mkLF q 0 None) (lf_step_on q t D xs HL I)) as
    (s & l & e & X & Y & fd & Hx & (Hlf & Hq & Hfd & HY & Hpl) & E); [done| |done|].
  - unfold Query.lf_inv. cbn [lf_left]. rewrite tlen_nil. split_and!; [lia|lia|done|done|].
    destruct (in_top _ _ _ _ I) as (r & rn & Hr & _). rewrite Hr. cbn. by left.
  - exists X, l, e, Y, s. rewrite tlen_cons, tlen_nil, Nat.add_0_r in *. split_and!; try done.
    rewrite E. cbn [q_confirm LengthFinder]. rewrite Hlf. do 5 f_equal.
    rewrite <- Hx, tlen_app, tlen_cons.
    destruct (decide (q < tlen X + rle_len e)) as [Hlt|Hge].
    + rewrite Hfd by done. rewrite !bool_decide_eq_true_2 by lia. done.
    + rewrite HY by lia. rewrite tlen_nil. rewrite !bool_decide_eq_false_2 by lia. by rewrite andb_false_r.
Qed.
Theorem t_len_query_in_on t X l e Y k : LenOn (X ++ (l, e) :: Y) -> Tree L t (X ++ (l, e) :: Y) -> k < rle_len e ->
  query (LengthFinder get_len) t (tlen X + k) = Ok (Some (mkQR (mkCur l k) true)).
Proof.
  intros HL T Hk. destruct (t_len_query_on t _ (tlen X + k) HL T) as (X' & l' & e' & Y' & s & Hx & Hq & HY & E & _); [by destruct X|].
  unfold query. rewrite E. cbn [rbind]. 
  assert (tlen (X ++ (l, e) :: Y) = tlen X + rle_len e + tlen Y) as Ht.
  { rewrite tlen_app, tlen_cons. lia. }
  rewrite bool_decide_eq_true_2 by lia.
  assert (length X' = length X) as HX.
  { destruct (decide (length X' < length X)) as [Hlt|Hge]; [|destruct (decide (length X < length X')) as [Hgt|]; [|lia]]; exfalso.
    - apply app_eq_inv in Hx. destruct Hx as [(k' & E1 & E2)|(k' & E1 & E2)].
      + destruct k' as [|z k']; [rewrite E1, app_nil_r in Hlt; lia|]. cbn in E2. injection E2 as <- EY.
        rewrite E1, tlen_app, tlen_cons in HY. specialize (HY ltac:(lia)). rewrite HY in EY. by destruct k'.
      + subst X'. rewrite app_length in Hlt. lia.
    - apply app_eq_inv in Hx. destruct Hx as [(k' & E1 & E2)|(k' & E1 & E2)].
      + subst X. rewrite app_length in Hgt. lia.
      + destruct k' as [|z k']; [rewrite E1, app_nil_r in Hgt; lia|]. cbn in E2. injection E2 as <- EY.
        rewrite E1, tlen_app, tlen_cons in Hq. lia. }
  apply app_inj_1 in Hx as [-> Hx]; [|done]. injection Hx as <- <- <-. do 4 f_equal. lia.
Qed.
(** what lies below a node is a run of the content *)
Lemma sub_run t d0 xs (I : Intact L t d0 xs) a : Reach t a -> exists d X ys Y, InOrder t a d ys /\ X ++ ys ++ Y = xs.
Proof using.
  induction 1 as [|i n c Hi (d & X & ys & Y & Hio & Hs) Hn Hc].
  - exists d0, [], xs, []. split; [apply (in_order _ _ _ _ I)|by rewrite app_nil_r].
  - destruct (node_segs L t d0 xs i n d ys I Hn Hio) as (d' & ss & -> & F & Hcc). apply elem_of_list_lookup in Hc as [k Hk].
    destruct (Forall2_lookup_l _ _ _ _ _ F Hk) as (sk & Hsk & Hseg & _). apply elem_of_list_split_length in Hsk as (S1 & S2 & -> & _).
    exists d', (X ++ concat S1), sk, (concat S2 ++ Y). split; [done|]. rewrite <-Hs, <-Hcc, concat_app. cbn [concat]. by rewrite <-!app_assoc.
Qed.
End lenon.

(** ** wrapping integers: [h] is 2^63 on a 64-bit machine *)
Section wrap.
Context (h : Z) (Hh : (0 < h)%Z).
Definition wr (x : Z) : Z := ((x + h) mod (2 * h) - h)%Z.
Local Lemma m_pos : (2 * h <> 0)%Z.
Proof using Hh. lia. Qed.
Lemma wr_add_l x y : wr (wr x + y) = wr (x + y).
Proof using Hh.
  unfold wr. f_equal. replace ((x + h) mod (2 * h) - h + y + h)%Z with ((x + h) mod (2 * h) + y)%Z by lia. rewrite Z.add_mod_idemp_l by lia. f_equal. lia.
Qed.
Lemma wr_add_r x y : wr (x + wr y) = wr (x + y).
Proof using Hh. rewrite Z.add_comm, wr_add_l. f_equal. lia. Qed.
Lemma wr_sub_r x y : wr (x - wr y) = wr (x - y).
Proof using Hh.
  unfold wr. f_equal. replace (x - ((y + h) mod (2 * h) - h) + h)%Z with (x + 2 * h - (y + h) mod (2 * h))%Z by lia. rewrite Zminus_mod_idemp_r. f_equal. lia.
Qed.
Lemma wr_wr x : wr (wr x) = wr x.
Proof using Hh. pose proof (wr_add_l x 0) as H. rewrite !Z.add_0_r in H. exact H. Qed.
Lemma wr_small x : (- h <= x < h)%Z -> wr x = x.
Proof using. intros H. unfold wr. rewrite Z.mod_small by lia. lia. Qed.
Lemma wr_range x : (- h <= wr x < h)%Z.
Proof using Hh. unfold wr. pose proof (Z.mod_pos_bound (x + h) (2 * h) ltac:(lia)). lia. Qed.
(** [as usize] *)
Definition us (c : Z) : Z := (c mod (2 * h))%Z.
Lemma us_wr x : us (wr x) = (x mod (2 * h))%Z.
Proof using Hh.
  unfold us, wr. rewrite Zminus_mod_idemp_l. f_equal. lia.
Qed.

(** an [isize]: a number that is its own remainder *)
Definition wint : Type := dsig (fun x => wr x = x).
Definition wi (x : Z) : wint := dexist (wr x) (wr_wr x).
Definition wz (c : wint) : Z := proj1_sig c.
Lemma wz_wi x : wz (wi x) = wr x.
Proof using. done. Qed.
Lemma wz_ok c : wr (wz c) = wz c.
Proof using. apply (proj2_dsig c). Qed.
Lemma wz_inj a b : wz a = wz b -> a = b.
Proof using. intros H. by apply dsig_eq. Qed.
Lemma wi_wz c : wi (wz c) = c.
Proof using. apply wz_inj. rewrite wz_wi. apply wz_ok. Qed.
Lemma wi_eq x y : wr x = wr y -> wi x = wi y.
Proof using. intros H. apply wz_inj. by rewrite !wz_wi. Qed.
Definition wadd (a b : wint) : wint := wi (wz a + wz b).
Definition wsub (a b : wint) : wint := wi (wz a - wz b).
Definition zs (cs : list wint) : Z := zsum (map wz cs).
Lemma zs_app a b : zs (a ++ b) = (zs a + zs b)%Z.
Proof using. unfold zs. by rewrite map_app, zsum_app. Qed.
Lemma zs_cons c b : zs (c :: b) = (wz c + zs b)%Z.
Proof using. done. Qed.
Lemma wsum_ok cs : forall a, fold_left wadd cs (wi a) = wi (a + zs cs).
Proof using Hh.
  induction cs as [|c cs IH]; intros a; cbn [fold_left]; [unfold zs; cbn [map]; by rewrite zsum_nil, Z.add_0_r|].
  unfold wadd at 2. rewrite IH, zs_cons. apply wi_eq. rewrite !wz_wi. rewrite <-Z.add_assoc, wr_add_l. done.
Qed.

Context (CAP : nat).
(** impl BTreeTrait for RopeTrait — rope.rs:276-312, with [isize] of width 2 h that wraps around *)
Definition WRope : BTreeTrait :=
  mkBT gbuf wint wint true
    gb_len
    (fun e p => gb_split CAP e p)
    (gb_can_merge CAP)
    gb_merge_right
    gb_merge_left
    (gb_try_insert CAP)
    gb_can_remove
    (wi 0)
    (fun a b => Z.eqb (wz a) (wz b))
    (fun c cs => let new := fold_left wadd cs (wi 0) in Ok (new, wsub new c))
    (fun c d => Ok (wadd c d))
    wadd
    (fun e => wi (Z.of_nat (gb_len e)))
    (fun c => c)
    wsub.
(** get_len and len — rope.rs:30-41: [as usize] *)
Definition w_get_len (c : wint) : nat := Z.to_nat (us (wz c)).

Definition WFinder : Query WRope := @LengthFinder WRope w_get_len.

Lemma wr_nest2 a x b : wr (a + (wr x + b)) = wr (a + (x + b)).
Proof using Hh. rewrite <-wr_add_r, wr_add_l, wr_add_r. done. Qed.
Definition WLaw : Lawful WRope.
Proof using Hh.
  refine (mkLaw WRope (gwf CAP) (fun _ => True) (fun cs => wi (zs cs)) (fun x d y => y = wadd x d) true
    _ _ _ _ _ _ _ _ _ _ _ _ _ _ _ _ _ _ _); cbn [Elem Cache Diff WRope] in *.
  - done.
  - done.
  - done.
  - done.
  - intros l m r _ _. apply wi_eq. rewrite !zs_app, zs_cons, wz_wi, wr_nest2. done.
  - intros c Hc. rewrite <-(wi_wz c) at 2. apply wi_eq. rewrite zs_cons. f_equal. unfold zs. cbn. lia.
  - intros c0 cs _ _. cbn. rewrite wsum_ok, Z.add_0_l. eexists. split; [done|]. intros _. apply wi_eq. unfold wsub. rewrite !wz_wi, wr_add_r. rewrite <-wr_wr at 1. f_equal. lia.
  - intros c0. cbn. eauto.
  - intros x d y ->. done.
  - intros l r x d y ->. unfold wadd. apply wi_eq. rewrite !zs_app, !zs_cons, !wz_wi, wr_nest2, wr_add_l. f_equal. lia.
  - intros l r c _. cbn. unfold wadd. apply wi_eq. rewrite !zs_app, !zs_cons, wz_wi, wr_add_l. f_equal. lia.
  - intros a d1 b d2 c -> ->. cbn. unfold wadd. apply wi_eq. rewrite !wz_wi, wr_add_l, wr_add_r. f_equal. lia.
  - intros a b _. cbn. rewrite <-(wi_wz a) at 1. unfold wadd, wsub. apply wi_eq. rewrite wz_wi, wr_add_r. f_equal. lia.
  - intros e off W Ho. cbn in Ho. destruct (gb_split_ok CAP e off W) as (l & r & E & Wl & Wr & Vl & Vr); [lia|].
    exists l, r. cbn. split; [done|]. split; [done|]. split; [done|].
    assert (gb_len l = off) as Hl by (rewrite <-(to_vec_length CAP) by done; rewrite Vl, take_length, (to_vec_length CAP) by done; lia).
    assert (gb_len r = gb_len e - off) as Hr by (rewrite <-!(to_vec_length CAP) by done; rewrite Vr, drop_length; done).
    split; [done|]. split; [done|]. apply wi_eq. cbn. rewrite ?Z.add_0_r, wr_add_l, wr_add_r. f_equal. lia.
  - intros e off x W Wx Ho. cbn in *. destruct (decide (gb_len e + gb_len x <= CAP)) as [D|D].
    + left. destruct (gb_try_insert_ok CAP e off x W Wx Ho D) as (g & E & Wg & Vg). exists g. split; [done|]. split; [done|].
      assert (gb_len g = gb_len e + gb_len x) as Hl.
      { rewrite <- !(to_vec_length CAP) by done. rewrite Vg, !app_length, take_length, drop_length. lia. }
      split; [done|]. intros _. unfold wadd. apply wi_eq. rewrite !wz_wi, wr_add_l, wr_add_r. f_equal. lia.
    + right. apply gb_try_insert_err. lia.
  - intros a b Wa Wb Hc. cbn in *. destruct (gb_merge_right_ok CAP a b Wa Wb Hc) as (g & E & Wg & Vg).
    assert (gb_len g = gb_len a + gb_len b) as Hl.
    { rewrite <- !(to_vec_length CAP) by done. by rewrite Vg, app_length. }
    exists g. split_and!; try done; cbn; try intros _; try lia; apply wi_eq; cbn; rewrite ?Z.add_0_r, wr_add_l, wr_add_r; f_equal; lia.
  - intros a b Wa Wb Hc. cbn in *. destruct (gb_merge_left_ok CAP b a Wb Wa Hc) as (g & E & Wg & Vg).
    assert (gb_len g = gb_len a + gb_len b) as Hl.
    { rewrite <- !(to_vec_length CAP) by done. by rewrite Vg, app_length. }
    exists g. split_and!; try done; cbn; try intros _; try lia; apply wi_eq; cbn; rewrite ?Z.add_0_r, wr_add_l, wr_add_r; f_equal; lia.
  - intros e W Hr. split; [done|]. cbn in *. apply (gb_can_remove_spec CAP e W) in Hr.
    rewrite <- (to_vec_length CAP) by done. by rewrite Hr.
  - intros c. cbn. apply Z.eqb_refl.
Defined.
Definition WRopeF : Flatten WLaw nat.
Proof using Hh.
  refine (mkFl WRope WLaw nat to_vec _ _ _ _ _ _); cbn [Elem WRope].
  - intros e W. exact (to_vec_length CAP e W).
  - intros e off a b W Ho E. cbn in Ho, E. destruct (gb_split_ok CAP e off W) as (l & r & E' & _ & _ & Vl & Vr); [lia|].
    rewrite E in E'. by injection E' as -> ->.
  - intros e off x e' W Wx Ho E. cbn in Ho, E. destruct (decide (gb_len e + gb_len x <= CAP)) as [D|D].
    + destruct (gb_try_insert_ok CAP e off x W Wx Ho D) as (g & E' & _ & V). rewrite E in E'. by injection E' as ->.
    + rewrite gb_try_insert_err in E by lia. done.
  - intros a b c Wa Wb Hm E. cbn in Hm, E. destruct (gb_merge_right_ok CAP a b Wa Wb Hm) as (g & E' & _ & V). rewrite E in E'. by injection E' as ->.
  - intros a b c Wa Wb Hm E. cbn in Hm, E. destruct (gb_merge_left_ok CAP b a Wb Wa Hm) as (g & E' & _ & V). rewrite E in E'. by injection E' as ->.
  - intros e W Hr. cbn in Hr. by apply (gb_can_remove_spec CAP e W).
Defined.
Notation entry := (nat * Elem WRope)%type.
(** an aggregate is the total length modulo the width *)
Lemma w_agg (xs : list entry) : wz (agg WLaw xs) = wr (Z.of_nat (tlen xs)).
Proof using.
  unfold agg. cbn [summ WLaw]. rewrite wz_wi. induction xs as [|[l e] xs IH]; [done|]. cbn [map snd]. rewrite zs_cons, tlen_cons.
  rewrite <-wr_add_r, IH. cbn [get_elem_cache WRope rle_len]. rewrite wz_wi, wr_add_l, wr_add_r. f_equal. lia.
Qed.
Lemma w_len (xs : list entry) : w_get_len (agg WLaw xs) = tlen xs mod Z.to_nat (2 * h).
Proof using.
  unfold w_get_len. rewrite w_agg, us_wr, Z2Nat.inj_mod by lia. by rewrite Nat2Z.id.
Qed.
Lemma w_len_on (xs : list entry) : tlen xs < Z.to_nat (2 * h) -> LenOn WLaw w_get_len xs.
Proof using.
  intros Hl X ys Y <- _. rewrite w_len. rewrite !tlen_app in Hl. apply Nat.mod_small. lia.
Qed.
Context (t : btree WRope) (xs : list entry) (T : Tree WLaw t xs).
(** what [len] says: the total length modulo the width, whatever the length *)
Theorem w_root : w_get_len (root_cache t) = tlen xs mod Z.to_nat (2 * h).
Proof using T. rewrite <-w_len. f_equal. destruct T as [D I]. apply (in_root_cache _ _ _ _ I). by right. Qed.
(** every stored length is the true length of what is below it, wrapped; if the total fits, it is the true length *)
Theorem w_caches i n c d ys : a_get (in_nodes t) i = Some n -> c ∈ n_children n -> InOrder t (c_arena c) d ys ->
  wz (c_cache c) = wr (Z.of_nat (tlen ys)) /\ ((Z.of_nat (tlen xs) < h)%Z -> wz (c_cache c) = Z.of_nat (tlen ys) /\ tlen ys <= tlen xs).
Proof using T.
  destruct T as [D I]. intros Hn Hc Hio. pose proof (in_cache _ _ _ _ I _ _ _ _ _ Hn Hc Hio) as E. rewrite E, w_agg. split; [done|]. intros Hl.
  assert (Reach t (c_arena c)) as HR by (eapply rc_child; [apply (in_reach_in _ _ _ _ I)| |]; eauto).
  destruct (sub_run _ _ _ _ I _ HR) as (d2 & X & zs & Y & Hz & Hx). rewrite <-(proj1 (io_det t) _ _ _ Hz _ _ Hio) in *.
  assert (tlen zs <= tlen xs) as Hle by (rewrite <-Hx, !tlen_app; lia). split; [|done]. apply wr_small. lia.
Qed.
(** a position is found exactly if the total length is below the width of [usize] *)
Theorem w_query X l e Y k : xs = X ++ (l, e) :: Y -> tlen xs < Z.to_nat (2 * h) -> k < rle_len e ->
  query WFinder t (tlen X + k) = Ok (Some (mkQR (mkCur l k) true)).
Proof using T. intros -> Hl Hk. apply (t_len_query_in_on WLaw w_get_len t X l e Y k); [by apply w_len_on|done|done]. Qed.
End wrap.
(** after any history of tree operations *)
Theorem w_history h (Hh : (0 < h)%Z) CAP (S0 : Type) (os : list (op2 (WRope h Hh CAP) S0)) : valid_ops2 (WLaw h Hh CAP) bt_new os ->
  exists t xs, run_ops2 os bt_new = Ok t /\ Tree (WLaw h Hh CAP) t xs /\ (Shallow t 9 -> check t = Ok tt) /\
    w_get_len h (root_cache t) = tlen xs mod Z.to_nat (2 * h) /\
    (forall X l e Y k, xs = X ++ (l, e) :: Y -> tlen xs < Z.to_nat (2 * h) -> k < rle_len e ->
      query (WFinder h Hh CAP) t (tlen X + k) = Ok (Some (mkQR (mkCur l k) true))).
Proof.
  intros Hv. destruct (reach2_check (WLaw h Hh CAP) (WRopeF h Hh CAP) os Hv) as (t & xs & E & T & Hc). exists t, xs. split; [done|]. split; [done|].
  split; [intros Hs; apply Hc; [done|by right]|]. split; [exact (w_root h Hh CAP t xs T)|]. intros X l e Y k. apply (w_query h Hh CAP t xs T).
Qed.
