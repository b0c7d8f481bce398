(** Query.v — tree descents guided by a query (lib.rs:873-920) and the length query of
    generic_impl/len_finder.rs. *)
From Verif Require Export Ops2 LenFinder.

Section seg.
Context {B : BTreeTrait} (L : Lawful B).
Notation btree := (btree B).
Notation child := (child B).
Implicit Types (t : btree) (c : child) (cs : list child) (xs : list (nat * Elem B)).

(** a child entry and the content below it *)
Definition segm t d c (s : list (nat * Elem B)) : Prop :=
  InOrder t (c_arena c) d s /\ s <> [] /\ c_cache c = agg L s.
Lemma ios_split t d : forall r xs, InOrders t r d xs -> exists ss, Forall2 (fun a s => InOrder t a d s) r ss /\ concat ss = xs.
Proof.
  induction r as [|a r IH]; intros xs Hx; inversion Hx as [|? ? ? us vs Hu Hv]; subst.
  - exists []. split; [constructor|done].
  - destruct (IH _ Hv) as (ss & F & <-). exists (us :: ss). split; [by constructor|done].
Qed.
Lemma node_segs t D xs i n d ys : Intact L t D xs -> a_get (in_nodes t) i = Some n -> InOrder t (AInt i) d ys ->
  exists d' ss, d = S d' /\ Forall2 (segm t d') (n_children n) ss /\ concat ss = ys.
Proof.
  intros I Hn Hio. inversion Hio as [|? n' d' ? Hn' Hios]; subst. assert (n' = n) as -> by congruence.
  destruct (ios_split _ _ _ _ Hios) as (ss & F & <-). exists d', ss. split_and!; try done.
  assert (forall c s, c ∈ n_children n -> InOrder t (c_arena c) d' s -> segm t d' c s) as G.
  { intros c s Hc Hs. split_and!; [done| |].
    - apply (it_nonempty L _ _ _ I _ _ _ Hs). by apply (it_child_nr L _ _ _ I _ _ _ Hn Hc).
    - by apply (in_cache _ _ _ _ I _ _ _ _ _ Hn Hc Hs). }
  clear Hios Hio Hn Hn'. revert ss F. induction (n_children n) as [|c cs IH]; intros ss F; cbn in F; inversion F; subst; [constructor|].
  constructor; [apply G; [left|done]|]. apply IH; [|done]. intros. apply G; [by right|done].
Qed.
End seg.

Section descent.
Context {B : BTreeTrait} (L : Lawful B) (Q : Query B) (q : QArg Q) (t : btree B) (D : nat) (xs : list (nat * Elem B)) (I : Intact L t D xs).
Notation entry := (nat * Elem B)%type.
(** [P s a X ys Y fd]: the finder state is [s] on entering node [a], whose content is [ys],
    with [X] to its left and [Y] to its right; [fd] is the conjunction of the answers so far *)
Context (P : Qst Q -> aidx -> list entry -> list entry -> list entry -> bool -> Prop).
Definition q_step : Prop := forall s i n d X ss Y fd, a_get (in_nodes t) i = Some n -> n_children n <> [] ->
  Forall2 (segm L t d) (n_children n) ss -> P s (AInt i) X (concat ss) Y fd -> X ++ concat ss ++ Y = xs ->
  exists off f s' C1 c C2 S1 sc S2, n_children n = C1 ++ c :: C2 /\ ss = S1 ++ sc :: S2 /\ length S1 = length C1 /\
    q_find Q s q (n_children n) = Ok (length C1, off, f, s') /\
    P s' (c_arena c) (X ++ concat S1) sc (concat S2 ++ Y) (fd && f).

Lemma query_f_ok : q_step -> forall d f i ys s X Y fd, InOrder t (AInt i) (S d) ys -> ys <> [] -> d < f ->
  P s (AInt i) X ys Y fd -> X ++ ys ++ Y = xs ->
  exists s' l e X' Y' fd', X' ++ (l, e) :: Y' = xs /\ P s' (ALeaf l) X' [(l, e)] Y' fd' /\
    query_f Q f t i s q fd = (let '(off, lf, s'') := q_confirm Q s' q e in Ok (Some (mkQR (mkCur l off) (fd' && lf)), s'')).
Proof using I.
  intros St. induction d as [|d IH]; intros f i ys s X Y fd Hio Hne Hf HP Hx.
  all: destruct f as [|f]; [lia|].
  all: inversion Hio as [|? n d' ? Hn Hios]; subst.
  all: destruct (node_segs L _ _ _ _ _ _ _ I Hn Hio) as (d0 & ss & E & F & Ec); injection E as <-; subst ys.
  all: assert (n_children n <> []) as Hcn by (intros E; rewrite E in F; inversion F; subst; done).
  all: destruct (St s i n _ X ss Y fd Hn Hcn F HP Hx) as (off & fd1 & s' & C1 & c & C2 & S1 & sc & S2 & Hc & -> & Hl & Hq & HP').
  all: cbn [query_f]; unfold get_in; rewrite Hn; cbn [ropt rbind]; rewrite Hq; cbn [rbind]; unfold n_is_empty; rewrite bool_decide_false by done; cbn [negb rassert rbind].
  all: unfold vec_get; rewrite Hc, list_lookup_middle by done; cbn [ropt rbind].
  all: rewrite Hc in F; apply Forall2_app_inv in F as [_ F]; [|done]; inversion F as [|? ? ? ? (Hs & Hsn & _) _]; subst.
  all: rewrite !concat_app in *; cbn [concat] in *.
  all: assert ((X ++ concat S1) ++ sc ++ concat S2 ++ Y = X ++ (concat S1 ++ sc ++ concat S2) ++ Y) as Ex by (by rewrite <- !app_assoc).
  - inversion Hs as [l lf Hlf E|]; subst. unfold get_lf. rewrite Hlf. cbn [ropt rbind].
    rewrite <- E in HP'. exists s', l, (l_elem lf), (X ++ concat S1), (concat S2 ++ Y), (fd && fd1). split_and!; [by rewrite <- Hx|done|done].
  - inversion Hs as [|m mn dm ? Hmn Hms E]; subst. rewrite <- E in HP'. rewrite <- E in Hs.
    eapply (IH f m sc); [exact Hs|done|lia|exact HP'|by rewrite <- Hx].
Qed.

Lemma query_wf_ok s0 : q_step -> q_init Q q = s0 -> P s0 (root t) [] xs [] true -> xs <> [] ->
  exists s' l e X' Y' fd', X' ++ (l, e) :: Y' = xs /\ P s' (ALeaf l) X' [(l, e)] Y' fd' /\
    query_with_finder_return Q t q =
      (let '(off, lf, s'') := q_confirm Q s' q e in Ok (Some (mkQR (mkCur l off) (fd' && lf)), s'')).
Proof using I.
  intros St Hs0 HP Hne. assert (T : Tree L t xs) by (by exists D).
  destruct (Tree_OK L _ _ T) as (H & lv & O & Ex). pose proof (ok_wt _ _ _ _ O) as W.
  unfold query_with_finder_return. rewrite (t_is_empty L t xs T), (bool_decide_eq_false_2 _ Hne). cbn [rbind].
  pose proof (content_cont t H lv W) as Hio. rewrite <- Ex in Hio. rewrite (wt_root_id W) in Hio. rewrite Hs0.
  apply (query_f_ok St H (fuel t) (raw (root t)) xs s0 [] []); [done|done| | |cbn; by rewrite app_nil_r].
  - assert (chs t (raw (root t)) <> []) as Hr.
    { intros He. apply Hne. rewrite Ex. unfold cont. cbn [gen]. rewrite (wt_root_id W). cbn. by rewrite He. }
    pose proof (wt_height_bound W Hr). unfold fuel. lia.
  - by rewrite <- (wt_root_id W).
Qed.
End descent.

(** ** the length query (len_finder.rs) *)
(** total length of a list of entries *)
Definition tlen {B : BTreeTrait} (xs : list (nat * Elem B)) : nat := sum_list (map (fun x => rle_len (snd x)) xs).
Lemma tlen_app {B : BTreeTrait} (xs ys : list (nat * Elem B)) : tlen (xs ++ ys) = tlen xs + tlen ys.
Proof. unfold tlen. rewrite map_app. apply sum_list_with_app. Qed.

Lemma tlen_nil {B : BTreeTrait} : tlen (B := B) [] = 0.
Proof. done. Qed.
Lemma tlen_cons {B : BTreeTrait} l (e : Elem B) xs : tlen ((l, e) :: xs) = rle_len e + tlen xs.
Proof. done. Qed.

Section lenq.
Context {B : BTreeTrait} (L : Lawful B) (get_len : Cache B -> nat).
Notation btree := (btree B).
Implicit Types (t : btree) (xs X Y : list (nat * Elem B)).
(** [get_len] reads the total length off an aggregate: what [UseLengthFinder] asks for *)
Definition LenCache : Prop := forall xs : list (nat * Elem B),
  (forall l e, (l, e) ∈ xs -> evalid L e) -> xs <> [] -> get_len (agg L xs) = tlen xs.

Section one.
Context (HL : LenCache) (q : nat) (t : btree) (D : nat) (xs : list (nat * Elem B)) (I : Intact L t D xs).
Notation entry := (nat * Elem B)%type.

Lemma scan_ok d : forall cs ss i lft lst,
  Forall2 (segm L t d) cs ss -> (forall l e, (l, e) ∈ concat ss -> evalid L e) ->
  (exists C1 c C2 S1 sc S2, cs = C1 ++ c :: C2 /\ ss = S1 ++ sc :: S2 /\ length S1 = length C1 /\
     tlen (concat S1) <= lft < tlen (concat S1) + tlen sc /\
     lf_scan get_len cs i lft lst = inl (i + length C1, lft - tlen (concat S1), c)) \/
  (tlen (concat ss) <= lft /\
   lf_scan get_len cs i lft lst =
     inr (match last ss with None => lst | Some sc => lft - (tlen (concat ss) - tlen sc) end)).
Proof using HL.
  clear I xs D q. induction cs as [|c cs IH]; intros ss i lft lst F V; inversion F as [|? sc ? ss' (Hs & Hsn & Hcc) F']; subst.
  - right. split; [cbn [concat]; rewrite tlen_nil; lia|done].
  - cbn [lf_scan]. rewrite Hcc, HL; [|intros l e He; apply (V l e); cbn; set_solver|done].
    destruct (decide (tlen sc <= lft)) as [Hle|Hgt].
    + destruct (IH ss' (S i) (lft - tlen sc) lft F') as [(C1 & c1 & C2 & S1 & s1 & S2 & -> & -> & Hl & Hr & ->)|[Hr ->]].
      * intros l e He. apply (V l e). cbn. set_solver.
      * left. exists (c :: C1), c1, C2, (sc :: S1), s1, S2. cbn [length concat app]. rewrite tlen_app. split_and!; try done; [lia|lia|lia|].
        f_equal. f_equal. f_equal; lia.
      * right. cbn [concat]. rewrite tlen_app. split; [lia|]. f_equal.
        destruct ss' as [|s2 ss'']; [cbn [last concat]; rewrite tlen_nil; lia|]. change (last (sc :: s2 :: ss'')) with (last (s2 :: ss'')).
        destruct (last (s2 :: ss'')) as [s3|] eqn:E3.
        -- assert (tlen s3 <= tlen (concat (s2 :: ss''))) as Hle3.
           { apply last_Some in E3 as [ss3 E3]. rewrite E3, concat_app, tlen_app. cbn [concat]. rewrite app_nil_r. lia. }
           lia.
        -- by apply last_None in E3.
    + left. exists [], c, cs, [], sc, ss'. cbn [length concat app]. change (tlen []) with 0. split_and!; try done; [lia|lia|]. do 3 f_equal; lia.
Qed.

(** the finder's [parent] and [slot] name the position of the node entered last *)
Definition lf_place (s : lfinder) (a : aidx) : Prop :=
  match a with
  | AInt i => lf_parent s = None /\ a = root t \/ lf_parent s = Some i
  | ALeaf l => exists i n c, a_get (in_nodes t) i = Some n /\ n_children n !! lf_slot s = Some c /\ c_arena c = ALeaf l /\
      (lf_parent s = None /\ AInt i = root t \/ lf_parent s = Some i)
  end.
Definition lf_inv (s : lfinder) (a : aidx) X (ys : list entry) Y (fd : bool) : Prop :=
  lf_left s = q - tlen X /\ tlen X <= q /\ (q < tlen X + tlen ys -> fd = true) /\ (tlen X + tlen ys <= q -> Y = []) /\
  lf_place s a.

Lemma lf_find_eq (s : lfinder) (cs : list (child B)) c0 cs' : cs = c0 :: cs' -> lf_find get_len s q cs =
  match lf_scan get_len cs 0 (lf_left s) (lf_left s) with
  | inl (i, lft, c) =>
      Ok (i, lft, true, if is_internal (c_arena c0) then mkLF lft (lf_slot s) (Some (raw (c_arena c))) else mkLF lft i (lf_parent s))
  | inr lst =>
      let? c := ropt (last cs) in
      Ok (length cs - 1, lst, false,
        if is_internal (c_arena c0) then mkLF lst (lf_slot s) (Some (raw (c_arena c))) else mkLF lst (length cs - 1) (lf_parent s))
  end.
Proof using. by intros ->. Qed.
Lemma lf_step : @q_step B L (LengthFinder get_len) q t xs lf_inv.
Proof using HL I.
  intros s i n d X ss Y fd Hn Hne F (Hlf & Hq & Hfd & HY & Hpl) Hx.
  assert (V : forall l e, (l, e) ∈ concat ss -> evalid L e).
  { intros l e He. apply (in_valid _ _ _ _ I l). rewrite <- Hx. set_solver. }
  assert (exists c0 cs', n_children n = c0 :: cs') as (c0 & cs' & Ecs) by (destruct (n_children n); [done|eauto]).
  assert (Hpl' : forall k c lft, n_children n !! k = Some c ->
    lf_place (if is_internal (c_arena c0) then mkLF lft (lf_slot s) (Some (raw (c_arena c))) else mkLF lft k (lf_parent s)) (c_arena c)).
  { intros k c lft Hk. rewrite Ecs in Hk, F.
    assert (is_internal (c_arena c) = is_internal (c_arena c0)) as <-.
    { assert (forall c, c ∈ c0 :: cs' -> is_internal (c_arena c) = match d with 0 => false | _ => true end) as G.
      { intros c' Hc'. apply elem_of_list_lookup in Hc' as [j Hj]. destruct (Forall2_lookup_l _ _ _ _ _ F Hj) as (sj & _ & Hs & _).
        by inversion Hs. }
      rewrite (G c), (G c0); [done|left|by eapply elem_of_list_lookup_2]. }
    destruct (c_arena c) as [l|m] eqn:Ea; cbn [is_internal lf_place raw lf_slot lf_parent].
    - exists i, n, c. rewrite Ecs. by split_and!.
    - by right. }
  cbn [q_find LengthFinder]. cbn in s. rewrite (lf_find_eq s (n_children n) c0 cs' Ecs).
  destruct (scan_ok d (n_children n) ss 0 (lf_left s) (lf_left s) F V) as [(C1 & c & C2 & S1 & sc & S2 & Hc & -> & Hl & Hr & ->)|[Hr ->]].
  - assert (n_children n !! length C1 = Some c) as Hk by (rewrite Hc; by apply list_lookup_middle).
    eexists _, true, _, C1, c, C2, S1, sc, S2. split_and!; try done. rewrite andb_true_r. rewrite concat_app, tlen_app in *.
    cbn [concat] in *. rewrite tlen_app in *. unfold lf_inv. rewrite tlen_app. split_and!.
    + destruct (is_internal (c_arena c0)); cbn; lia.
    + lia.
    + intros. apply Hfd. lia.
    + intros Hle. exfalso. lia.
    + by apply Hpl'.
  - destruct (last (n_children n)) as [c|] eqn:El; [|by apply last_None in El; rewrite El in Ecs].
    apply last_Some in El as [C1 El]. cbn [ropt rbind]. rewrite El in F. apply Forall2_app_inv_l in F as (S1 & S2 & F1 & F2 & ->).
    inversion F2 as [|? sc ? ? _ F3]; subst. inversion F3; subst. rewrite last_snoc.
    exists (q - tlen (X ++ concat S1)), false. eexists. exists C1, c, [], S1, sc, [].
    apply Forall2_length in F1. split_and!; try done.
    { f_equal. f_equal. f_equal. f_equal.
      - rewrite El, app_length. cbn. lia.
      - rewrite concat_app, tlen_app in *. cbn [concat] in *. rewrite app_nil_r, ?tlen_app in *. lia. }
    rewrite concat_app, ?tlen_app in *. cbn [concat] in *. rewrite app_nil_r in *. rewrite ?tlen_app in *.
    unfold lf_inv. rewrite tlen_app. split_and!.
    + destruct (is_internal (c_arena c0)); cbn; lia.
    + lia.
    + lia.
    + intros _. cbn. apply HY. lia.
    + replace (length (n_children n) - 1) with (length C1) by (rewrite El, app_length; cbn; lia).
      apply Hpl'. rewrite El. by apply list_lookup_middle.
Qed.
End one.

Theorem t_len_query t xs q : LenCache -> Tree L t xs -> xs <> [] ->
  exists X l e Y s, xs = X ++ (l, e) :: Y /\ tlen X <= q /\ (tlen X + rle_len e <= q -> Y = []) /\
    query_with_finder_return (LengthFinder get_len) t q =
      Ok (Some (mkQR (mkCur l (q - tlen X)) (bool_decide (q < tlen xs))), s) /\ lf_place t s (ALeaf l).
Proof.
  intros HL [D I] Hne.
  destruct (query_wf_ok L (LengthFinder get_len) q t D xs I (lf_inv q t) (mkLF q 0 None) (lf_step HL q t D xs I)) as
    (s & l & e & X & Y & fd & Hx & (Hlf & Hq & Hfd & HY & Hpl) & E); [done| |done|].
  - unfold lf_inv. cbn [lf_left]. rewrite tlen_nil. split_and!; [lia|lia|done|done|].
    destruct (in_top _ _ _ _ I) as (r & rn & Hr & _). rewrite Hr. cbn. by left.
  - exists X, l, e, Y, s. rewrite tlen_cons, tlen_nil, Nat.add_0_r in *. split_and!; try done.
    rewrite E. cbn [q_confirm LengthFinder]. rewrite Hlf. do 5 f_equal.
    rewrite <- Hx, tlen_app, tlen_cons.
    destruct (decide (q < tlen X + rle_len e)) as [Hlt|Hge].
    + rewrite Hfd by done. rewrite !bool_decide_eq_true_2 by lia. done.
    + rewrite HY by lia. rewrite tlen_nil. rewrite !bool_decide_eq_false_2 by lia. by rewrite andb_false_r.
Qed.
Theorem t_len_query_in t X l e Y k : LenCache -> Tree L t (X ++ (l, e) :: Y) -> k < rle_len e ->
  query (LengthFinder get_len) t (tlen X + k) = Ok (Some (mkQR (mkCur l k) true)).
Proof.
  intros HL T Hk. destruct (t_len_query t _ (tlen X + k) HL T) as (X' & l' & e' & Y' & s & Hx & Hq & HY & E & _); [by destruct X|].
  unfold query. rewrite E. cbn [rbind]. 
  assert (tlen (X ++ (l, e) :: Y) = tlen X + rle_len e + tlen Y) as Ht.
  { rewrite tlen_app, tlen_cons. lia. }
  rewrite bool_decide_eq_true_2 by lia.
  assert (length X' = length X) as HX.
  { destruct (decide (length X' < length X)) as [Hlt|Hge]; [|destruct (decide (length X < length X')) as [Hgt|]; [|lia]]; exfalso.
    - apply app_eq_inv in Hx. destruct Hx as [(k' & E1 & E2)|(k' & E1 & E2)].
      + destruct k' as [|z k']; [rewrite E1, app_nil_r in Hlt; lia|]. cbn in E2. injection E2 as <- EY.
        rewrite E1, tlen_app, tlen_cons in HY. specialize (HY ltac:(lia)). rewrite HY in EY. by destruct k'.
      + subst X'. rewrite app_length in Hlt. lia.
    - apply app_eq_inv in Hx. destruct Hx as [(k' & E1 & E2)|(k' & E1 & E2)].
      + subst X. rewrite app_length in Hgt. lia.
      + destruct k' as [|z k']; [rewrite E1, app_nil_r in Hgt; lia|]. cbn in E2. injection E2 as <- EY.
        rewrite E1, tlen_app, tlen_cons in Hq. lia. }
  apply app_inj_1 in Hx as [-> Hx]; [|done]. injection Hx as <- <- <-. do 4 f_equal. lia.
Qed.
Theorem t_len_query_end t X l e : LenCache -> Tree L t (X ++ [(l, e)]) -> 
  forall k, rle_len e <= k -> query (LengthFinder get_len) t (tlen X + k) = Ok (Some (mkQR (mkCur l k) false)).
Proof.
  intros HL T k Hk. destruct (t_len_query t _ (tlen X + k) HL T) as (X' & l' & e' & Y' & s & Hx & Hq & HY & E & _); [by destruct X|].
  unfold query. rewrite E. cbn [rbind].
  assert (tlen (X ++ [(l, e)]) = tlen X + rle_len e) as Ht. { rewrite tlen_app, tlen_cons, tlen_nil. lia. }
  rewrite bool_decide_eq_false_2 by lia.
  assert (Y' = []) as ->.
  { apply HY. rewrite Hx, tlen_app, tlen_cons in Ht. lia. }
  apply app_inj_tail in Hx as [<- Hx]. injection Hx as <- <-. do 4 f_equal. lia.
Qed.
Lemma t_query_empty (Q : Query B) t q : Tree L t [] -> query_with_finder_return Q t q = Ok (None, q_init Q q).
Proof. intros T. unfold query_with_finder_return. rewrite (t_is_empty L t [] T). done. Qed.
End lenq.
