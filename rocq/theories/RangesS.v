(** RangesS.v — update_leaves_with_arg_in_ranges with closures that keep a state and may panic. *)
From Verif Require Export Ranges Unwind.

Section model.
Context {B : BTreeTrait} {A S0 : Type} (fu : S0 -> Elem B -> A -> (S0 * Elem B) + Elem B).
Notation btree := (btree B).
Notation Elem := (Elem B).
Notation range_arg := (nat * nat * A)%type.

(** The closure [f: impl FnMut(&mut B::Elem, &A)] of lib.rs:1399: [inl (s', e')] is a call that returns, [inr e'] one that
    panics and leaves [e'] behind its argument.  The loops over [group.iter()], lib.rs:1439-1443, 1450-1454, 1462-1466: *)
Fixpoint apply_u (p : range_arg -> bool) (g : list range_arg) (s : S0) (e : Elem) : (S0 * Elem) + Elem :=
  match g with
  | [] => inl (s, e)
  | r :: g' =>
      if p r then match fu s e (snd r) with inl (s, e) => apply_u p g' s e | inr e => inr e end
      else apply_u p g' s e
  end.
(** lib.rs:1427-1431, with the two assertions before each call *)
Fixpoint apply_whole (len : nat) (g : list range_arg) (s : S0) (e : Elem) : res ((S0 * Elem) + Elem) :=
  match g with
  | [] => Ok (inl (s, e))
  | (a, b, x) :: g' =>
      let? _ := rassert (bool_decide (a = 0)) in
      let? _ := rassert (bool_decide (b = len)) in
      match fu s e x with inl (s, e) => apply_whole len g' s e | inr e => Ok (inr e) end
  end.
(** lib.rs:1446-1459.  A panic drops [elem], [next_elem] and [new_elems]. *)
Fixpoint ranges_middle_u (g : list range_arg) (s : S0) (elem : Elem) (lasti : nat) (sp : list nat)
  : res ((S0 * list Elem * Elem) + unit) :=
  match sp with
  | [] => Ok (inl (s, [], elem))
  | ix :: sp' =>
      let? (e1, nxt) := e_split elem (ix - lasti) in
      match apply_u (fun '(a, b, _) => bool_decide (a <= lasti) && bool_decide (ix <= b)) g s e1 with
      | inr _ => Ok (inr tt)
      | inl (s, e1) =>
          let? r := ranges_middle_u g s nxt ix sp' in
          match r with inl (s, r, lst) => Ok (inl (s, e1 :: r, lst)) | inr _ => Ok (inr tt) end
      end
  end.
(** lib.rs:1410-1476 for one leaf: [inl (s', elem in place, elements to insert after it)], or [inr elem]: the closure has panicked
    and [elem] is what the leaf holds *)
Definition ranges_leaf_u (s : S0) (e0 : Elem) (g : list range_arg) : res ((S0 * Elem * list Elem) + Elem) :=
  let len := rle_len e0 in
  let sp := foldl (fun s '(a, b, _) => bset_insert b (bset_insert a s)) [] g in
  let sp := filter (fun x => x <> 0 /\ x <> len) sp in
  match sp with
  | [] =>
      let? r := apply_whole len g s e0 in
      match r with inl (s, e) => Ok (inl (s, e, [])) | inr e => Ok (inr e) end
  | first :: sp' =>
      let? (e1, rest) := e_split e0 first in
      match apply_u (fun '(a, _, _) => bool_decide (a = 0)) g s e1 with
      | inr e1 => Ok (inr e1)
      | inl (s, e1) =>
          let? m := ranges_middle_u g s rest first sp' in
          match m with
          | inr _ => Ok (inr e1)
          | inl (s, mid, lst) =>
              match apply_u (fun '(_, b, _) => bool_decide (b = len)) g s lst with
              | inr _ => Ok (inr e1)
              | inl (s, lst) => Ok (inl (s, e1, mid ++ [lst]))
              end
          end
      end
  end.
(** lib.rs:1405-1476.  A panic drops [new_elems_at_cursor] and [dirty_map]; [inr t]: the tree left behind *)
Fixpoint ranges_groups_u (t : btree) (gs : list (nat * list range_arg)) (s : S0)
  (dm : gmap aidx (Diff B)) (ne : list (cursor * list Elem))
  : res ((S0 * btree * gmap aidx (Diff B) * list (cursor * list Elem)) + btree) :=
  match gs with
  | [] => Ok (inl (s, t, dm, ne))
  | (l, g) :: gs' =>
      let? lf := get_lf t l in
      let old_cache := get_elem_cache (l_elem lf) in
      let? r := ranges_leaf_u s (l_elem lf) g in
      match r with
      | inr e1 => Ok (inr (set_lf t l (with_elem lf e1)))
      | inl (s, e1, new) =>
          let t := set_lf t l (with_elem lf e1) in
          let ne := match new with [] => ne | _ => ne ++ [(mkCur l (rle_len e1), new)] end in
          let dm := <[ALeaf l := sub_cache (get_elem_cache e1) old_cache]> dm in
          ranges_groups_u t gs' s dm ne
      end
  end.
(** update_leaves_with_arg_in_ranges — lib.rs:1396-1503.  [ordL]: the order of the leaves under [LeafIndex]'s [Ord], which
    depends on the reuse of arena slots; any permutation of the groups. *)
Definition update_ranges_u (ordL : list (nat * list range_arg) -> list (nat * list range_arg)) (ord : list aidx -> list aidx)
  (ord2 : list (cursor * list Elem) -> list (cursor * list Elem))
  (t : btree) (args : list (nat * range_arg)) (s : S0) : res ((S0 * list nat * btree) + btree) :=
  let? r := ranges_groups_u t (ordL (group_by_leaf (sort_by_leaf args))) s ∅ [] in
  match r with
  | inr t => Ok (inr t)
  | inl (s, t, dm, ne) =>
      let? t := update_dirty_cache_map ord t dm in
      let? (nl, t) := ranges_insert_all t (ord2 ne) [] in
      Ok (inl (s, nl, t))
  end.

(** ** specification *)
(** the calls with the arguments [l], one after the other *)
Fixpoint calls (l : list A) (s : S0) (e : Elem) : (S0 * Elem) + Elem :=
  match l with [] => inl (s, e) | a :: l' => match fu s e a with inl (s, e) => calls l' s e | inr e => inr e end end.
(** the arguments of the ranges that cover the offsets from [st] to [st + n] *)
Definition covering (g : list range_arg) (st n : nat) : list A := map snd (filter (fun r => fst (fst r) <= st /\ st + n <= snd (fst r)) g).
(** the pieces [ps], the first one starting at offset [st], from left to right; [inr out]: a call has panicked, [out] are the
    pieces at that moment *)
Fixpoint paint_u (g : list range_arg) (st : nat) (s : S0) (ps : list Elem) : (S0 * list Elem) + list Elem :=
  match ps with
  | [] => inl (s, [])
  | p :: ps' =>
      match calls (covering g st (rle_len p)) s p with
      | inr p' => inr (p' :: ps')
      | inl (s, p') => match paint_u g (st + rle_len p) s ps' with inl (s, r) => inl (s, p' :: r) | inr r => inr (p' :: r) end
      end
  end.
(** the leaves one after the other, each with its ranges and its pieces *)
Fixpoint paint_all (s : S0) (js : list (nat * (list range_arg * list Elem))) : (S0 * list (nat * list Elem)) + list (nat * list Elem) :=
  match js with
  | [] => inl (s, [])
  | (l, (g, ps)) :: js' =>
      match paint_u g 0 s ps with
      | inr out => inr [(l, out)]
      | inl (s, out) => match paint_all s js' with inl (s, r) => inl (s, (l, out) :: r) | inr r => inr ((l, out) :: r) end
      end
  end.
End model.

(** a closure without state that never panics: the model of C31 *)
Section total.
Context {B : BTreeTrait} {A S0 : Type} (fu : Elem B -> A -> Elem B).
Notation fs := (fun (s : S0) e a => inl (s, fu e a) : (S0 * Elem B) + Elem B).
Lemma apply_u_total p g (s : S0) : forall e, apply_u fs p g s e = inl (s, apply_args fu p g e).
Proof. unfold apply_args. induction g as [|r g IH]; intros e; [done|]. cbn [apply_u foldl]. destruct (p r); apply IH. Qed.
Lemma apply_whole_total len g (s : S0) : forall e, apply_whole fs len g s e =
  (let? _ := rassert (forallb (fun '(a, b, _) => bool_decide (a = 0) && bool_decide (b = len)) g) in Ok (inl (s, apply_args fu (fun _ => true) g e))).
Proof.
  unfold apply_args. induction g as [|[[a b] x] g IH]; intros e; [done|]. cbn [apply_whole forallb foldl].
  destruct (bool_decide (a = 0)); [|done]. destruct (bool_decide (b = len)); [|done]. cbn [rassert rbind andb snd]. apply IH.
Qed.
Lemma middle_u_total g (s : S0) : forall sp e lasti, ranges_middle_u fs g s e lasti sp =
  (let? (r, lst) := ranges_middle fu g e lasti sp in Ok (inl (s, r, lst))).
Proof.
  induction sp as [|ix sp IH]; intros e lasti; [done|]. cbn [ranges_middle_u ranges_middle]. destruct (e_split e (ix - lasti)) as [[e1 nxt]| |]; cbn [rbind]; [|done|done].
  rewrite apply_u_total, IH. by destruct (ranges_middle fu g nxt ix sp) as [[r lst]| |].
Qed.
Lemma leaf_u_total (s : S0) e g : ranges_leaf_u fs s e g = (let? (e1, new) := ranges_leaf fu e g in Ok (inl (s, e1, new))).
Proof.
  unfold ranges_leaf_u, ranges_leaf. destruct (filter _ _) as [|first sp].
  - rewrite apply_whole_total. by destruct (forallb _ g).
  - destruct (e_split e first) as [[e1 rest]| |]; cbn [rbind]; [|done|done]. rewrite apply_u_total, middle_u_total.
    destruct (ranges_middle fu g rest first sp) as [[mid lst]| |]; cbn [rbind]; [|done|done]. by rewrite apply_u_total.
Qed.
Lemma groups_u_total (s : S0) : forall gs t dm ne, ranges_groups_u fs t gs s dm ne = (let? (t, dm, ne) := ranges_groups fu t gs dm ne in Ok (inl (s, t, dm, ne))).
Proof.
  induction gs as [|[l g] gs IH]; intros t dm ne; [done|]. cbn [ranges_groups_u ranges_groups]. destruct (get_lf t l) as [lf| |]; cbn [rbind]; [|done|done].
  rewrite leaf_u_total. destruct (ranges_leaf fu (l_elem lf) g) as [[e1 new]| |]; cbn [rbind]; [|done|done]. apply IH.
Qed.
Theorem ranges_u_total ord ord2 (t : btree B) args (s : S0) :
  update_ranges_u fs (fun l => l) ord ord2 t args s = (let? (nl, t') := update_leaves_with_arg_in_ranges fu ord ord2 t args in Ok (inl (s, nl, t'))).
Proof.
  unfold update_ranges_u, update_leaves_with_arg_in_ranges. rewrite groups_u_total. destruct (ranges_groups fu t _ ∅ []) as [[[t1 dm] ne]| |]; cbn [rbind]; [|done|done].
  destruct (update_dirty_cache_map ord t1 dm) as [t2| |]; cbn [rbind]; [|done|done]. by destruct (ranges_insert_all t2 (ord2 ne) []) as [[nl t3]| |].
Qed.
End total.

Section stateful.
Context {B : BTreeTrait} (L : Lawful B) {U : Type} (F : Flatten L U) {A S0 : Type} (fu : S0 -> Elem B -> A -> (S0 * Elem B) + Elem B).
Notation btree := (btree B).
Notation Elem := (Elem B).
Notation Tree := (Tree L).
Notation fl := (fl F).
Notation ft := (ft L F).
Notation rg := (nat * nat * A)%type.
Implicit Types (t : btree) (g : list rg) (e : Elem) (ps : list Elem) (xs : list (nat * Elem)) (s : S0).

(** the closure leaves valid elements behind, also when it panics *)
Definition keeps_valid : Prop := forall s e a, evalid L e -> match fu s e a with inl (_, e') => evalid L e' | inr e' => evalid L e' end.
(** [e] is cut exactly at the ends of the ranges in [g] *)
Definition CutAt g e ps : Prop := Forall (evalid L) ps /\ concat (map fl ps) = fl e /\
  forall k, k ∈ ends 0 ps <-> k = rle_len e \/ (Ranges.bound g k /\ k <> 0).

Lemma apply_u_calls p g st n : (forall r, r ∈ g -> p r = true <-> fst (fst r) <= st /\ st + n <= snd (fst r)) -> forall s e, apply_u fu p g s e = calls fu (covering g st n) s e.
Proof.
  unfold covering. induction g as [|r g IH]; intros Hp s e; [done|]. cbn [apply_u]. rewrite filter_cons. pose proof (Hp r ltac:(left)) as Hr.
  assert (forall s e, apply_u fu p g s e = calls fu (map snd (filter (fun r : rg => fst (fst r) <= st /\ st + n <= snd (fst r)) g)) s e) as IH' by (intros; apply IH; intros; apply Hp; by right).
  destruct (decide _) as [Hd|Hd].
  - rewrite (proj2 Hr Hd). cbn [map calls]. destruct (fu s e (snd r)) as [[s1 e1]|e1]; [apply IH'|done].
  - destruct (p r) eqn:Ep; [destruct Hd; by apply Hr|]. apply IH'.
Qed.
Lemma apply_whole_calls len g : (forall r, r ∈ g -> fst (fst r) = 0 /\ snd (fst r) = len) -> forall s e, apply_whole fu len g s e = Ok (calls fu (covering g 0 len) s e).
Proof.
  unfold covering. induction g as [|[[a b] x] g IH]; intros Hp s e; [done|]. cbn [apply_whole]. destruct (Hp (a, b, x) ltac:(left)) as [Ha Hb]. cbn [fst snd] in Ha, Hb.
  rewrite filter_cons, decide_True by (cbn [fst snd]; lia). rewrite !bool_decide_true by done. cbn [rassert rbind map calls snd].
  destruct (fu s e x) as [[s1 e1]|e1]; [|done]. apply IH. intros. apply Hp. by right.
Qed.
Lemma paint_u_app g ps qs : forall st s, paint_u fu g st s (ps ++ qs) =
  match paint_u fu g st s ps with
  | inl (s1, o1) => match paint_u fu g (st + plen ps) s1 qs with inl (s2, o2) => inl (s2, o1 ++ o2) | inr o2 => inr (o1 ++ o2) end
  | inr o => inr (o ++ qs)
  end.
Proof.
  induction ps as [|p ps IH]; intros st s; cbn [paint_u app].
  - unfold plen. cbn. rewrite Nat.add_0_r. by destruct (paint_u fu g st s qs) as [[? ?]|?].
  - destruct (calls fu _ s p) as [[s1 p']|p']; [|done]. rewrite IH. destruct (paint_u fu g (st + rle_len p) s1 ps) as [[s2 o1]|o]; [|done].
    replace (st + plen (p :: ps)) with (st + rle_len p + plen ps) by (unfold plen; cbn; lia).
    by destruct (paint_u fu g (st + rle_len p + plen ps) s2 qs) as [[? ?]|?].
Qed.
Lemma calls_valid l : keeps_valid -> forall s e, evalid L e -> match calls fu l s e with inl (_, e') => evalid L e' | inr e' => evalid L e' end.
Proof.
  intros K. induction l as [|a l IH]; intros s e V; [done|]. cbn [calls]. pose proof (K s e a V) as Ka. destruct (fu s e a) as [[s1 e1]|e1]; [by apply IH|done].
Qed.
Lemma paint_u_valid g ps : keeps_valid -> forall st s, Forall (evalid L) ps -> match paint_u fu g st s ps with inl (_, o) => Forall (evalid L) o | inr o => Forall (evalid L) o end.
Proof.
  intros K. induction ps as [|p ps IH]; intros st s HF; [constructor|]. apply Forall_cons in HF as [Hp HF]. cbn [paint_u].
  pose proof (calls_valid (covering g st (rle_len p)) K s p Hp) as Hc. destruct (calls fu _ s p) as [[s1 p']|p']; [|by constructor].
  specialize (IH (st + rle_len p) s1 HF). destruct (paint_u fu g (st + rle_len p) s1 ps) as [[s2 o]|o]; by constructor.
Qed.
Lemma paint_u_len g ps : forall st s, match paint_u fu g st s ps with inl (_, o) => length o = length ps | inr o => length o = length ps end.
Proof.
  induction ps as [|p ps IH]; intros st s; [done|]. cbn [paint_u]. destruct (calls fu _ s p) as [[s1 p']|p']; [|done].
  specialize (IH (st + rle_len p) s1). destruct (paint_u fu g (st + rle_len p) s1 ps) as [[s2 o]|o]; cbn; by f_equal.
Qed.

Lemma middle_u_ok g len : forall sp e lasti, evalid L e -> StronglySorted lt sp -> Forall (fun x => lasti < x < len) sp -> rle_len e = len - lasti -> lasti < len ->
  exists ps lst, (forall s, ranges_middle_u fu g s e lasti sp = Ok (match paint_u fu g lasti s ps with inl (s', o) => inl (s', o, lst) | inr _ => inr tt end)) /\
    Forall (evalid L) ps /\ evalid L lst /\
    concat (map fl ps) ++ fl lst = fl e /\ ends lasti ps = sp /\ lasti + plen ps + rle_len lst = len.
Proof.
  induction sp as [|ix sp IH]; intros e lasti Ve HS HF Hl Hll.
  { exists [], e. cbn. split_and!; try done; unfold plen; cbn; lia. }
  apply Forall_cons in HF as [Hx HF]. inversion HS as [|? ? HS' HF']; subst. cbn [ranges_middle_u].
  destruct (lw_split _ L e (ix - lasti) Ve) as (e1 & e2 & E & V1 & V2 & L1 & L2 & _); [lia|]. rewrite E. cbn [rbind].
  destruct (fl_split L U F e (ix - lasti) e1 e2 Ve ltac:(lia) E) as [F1 F2].
  destruct (IH e2 ix V2 HS') as (ps & lst & Em & H1 & H2 & H3 & H4 & H5); [|lia|lia|].
  { rewrite Forall_forall in HF, HF' |- *. intros y Hy. specialize (HF y Hy). specialize (HF' y Hy). lia. }
  exists (e1 :: ps), lst. split_and!.
  - intros s. cbn [paint_u]. rewrite (apply_u_calls _ g lasti (rle_len e1)).
    2: { intros [[a b] y] _. cbn [fst snd]. rewrite andb_true_iff, !bool_decide_eq_true. rewrite L1. lia. }
    destruct (calls fu _ s e1) as [[s1 e1']|e1']; [|done]. rewrite Em. cbn [rbind]. rewrite L1. replace (lasti + (ix - lasti)) with ix by lia.
    by destruct (paint_u fu g ix s1 ps) as [[s2 o]|o].
  - by constructor.
  - done.
  - cbn [map concat]. rewrite <- app_assoc, H3, F1, F2. by rewrite take_drop.
  - cbn [ends]. rewrite L1. replace (lasti + (ix - lasti)) with ix by lia. by rewrite H4.
  - unfold plen in *. change (sum_list (map rle_len (e1 :: ps))) with (rle_len e1 + sum_list (map rle_len ps)). lia.
Qed.
Lemma leaf_u_ok g e : evalid L e -> g <> [] -> in_leaf_ranges g e ->
  exists ps, CutAt g e ps /\ ps <> [] /\
    forall s, ranges_leaf_u fu s e g = Ok (match paint_u fu g 0 s ps with inl (s', o) => inl (s', hd e o, tl o) | inr o => inr (hd e o) end).
Proof.
  intros Ve Hg HR. unfold ranges_leaf_u. destruct (bset_ok g [] (SSorted_nil _)) as [Hs0 Hb0]. fold (bset g []).
  set (sp := filter _ (bset g [])). assert (Hs : StronglySorted lt sp) by (by apply filter_sorted).
  assert (Hb : forall k, k ∈ sp <-> Ranges.bound g k /\ k <> 0 /\ k <> rle_len e).
  { intros k. unfold sp. rewrite elem_of_list_filter, Hb0. split; [intros (H1 & [Hx|H2]); [by apply elem_of_nil in Hx|tauto]|tauto]. }
  assert (Hbl : forall k, Ranges.bound g k -> k <= rle_len e). { intros k (r & Hr & Hk). specialize (HR r Hr). lia. }
  destruct sp as [|first sp'] eqn:Esp.
  - assert (Hall : forall r, r ∈ g -> fst (fst r) = 0 /\ snd (fst r) = rle_len e).
    { intros r Hr. pose proof (HR r Hr) as Hx. assert (Hn : forall k, Ranges.bound g k -> k = 0 \/ k = rle_len e).
      { intros k Hk. destruct (decide (k = 0)); [by left|]. destruct (decide (k = rle_len e)); [by right|]. exfalso. assert (k ∈ @nil nat) as He by (by apply Hb). by apply elem_of_nil in He. }
      split.
      - destruct (Hn (fst (fst r))) as [?|?]; [exists r; tauto|done|lia].
      - destruct (Hn (snd (fst r))) as [?|?]; [exists r; tauto|lia|done]. }
    exists [e]. split; [|split; [done|]].
    + split_and!; [by constructor|cbn; by rewrite app_nil_r|].
      intros k. cbn [ends]. rewrite elem_of_list_singleton. split; [by left|]. intros [?|[(r & Hr & Hk) Hz]]; [done|]. destruct (Hall r Hr) as [H1 H2]. rewrite H1, H2 in Hk. destruct Hk; [done|done].
    + intros s. rewrite (apply_whole_calls _ g Hall). cbn [rbind paint_u]. by destruct (calls fu _ s e) as [[s1 e1]|e1].
  - assert (HFi : 0 < first < rle_len e). { pose proof (proj1 (Hb first) ltac:(left)) as (H1 & H2 & H3). specialize (Hbl _ H1). lia. }
    inversion Hs as [|? ? Hs' HF]; subst.
    destruct (lw_split _ L e first Ve HFi) as (p1 & rest & E & V1 & V2 & L1 & L2 & _). rewrite E. cbn [rbind].
    destruct (fl_split L U F e first p1 rest Ve HFi E) as [F1 F2].
    destruct (middle_u_ok g (rle_len e) sp' rest first V2 Hs') as (ps & lst & Em & H1 & H2 & H3 & H4 & H5); [|lia|lia|].
    { rewrite Forall_forall in HF |- *. intros y Hy. specialize (HF y Hy). pose proof (proj1 (Hb y) ltac:(by right)) as (Hy1 & Hy2 & Hy3). specialize (Hbl _ Hy1). lia. }
    assert (Hend : forall z, z ∈ first :: sp' -> z <= first + plen ps).
    { intros z Hz. assert (Hz' : z ∈ first :: ends first ps) by (by rewrite H4). clear -Hz'. revert Hz'. generalize first. induction ps as [|p ps IH]; intros f Hz; cbn [ends] in Hz.
      - apply elem_of_list_singleton in Hz as ->. lia.
      - unfold plen. change (sum_list (map rle_len (p :: ps))) with (rle_len p + plen ps). apply elem_of_cons in Hz as [->|Hz]; [lia|]. specialize (IH _ Hz). lia. }
    exists (p1 :: ps ++ [lst]). split; [|split; [done|]].
    + split_and!.
      * constructor; [done|]. apply Forall_app. split; [done|by constructor].
      * cbn [map concat]. rewrite map_app, concat_app. cbn [map concat]. rewrite app_nil_r, H3, F1, F2. apply take_drop.
      * intros k. cbn [ends Nat.add]. rewrite L1, ends_app, H4. cbn [ends]. rewrite H5. change (first :: sp' ++ [rle_len e]) with ((first :: sp') ++ [rle_len e]).
        rewrite elem_of_app, elem_of_list_singleton, Hb. destruct (decide (k = rle_len e)); tauto.
    + intros s. cbn [paint_u]. rewrite (apply_u_calls _ g 0 (rle_len p1)).
      2: { intros [[a b] y] Hr. pose proof (HR _ Hr) as Hx. cbn [fst snd] in Hx |- *. rewrite bool_decide_eq_true, L1. split; [|lia]. intros ->. split; [lia|]. cbn [Nat.add].
        destruct (decide (b = rle_len e)) as [->|Hbe]; [lia|]. assert (b ∈ first :: sp') as [->|Hin]%elem_of_cons. { apply Hb. split; [|lia]. exists (0, b, y). split; [done|by right]. } { lia. }
        rewrite Forall_forall in HF. specialize (HF b Hin). lia. }
      destruct (calls fu _ s p1) as [[s1 p1']|p1']; [|done]. rewrite Em. cbn [rbind Nat.add]. rewrite L1, paint_u_app.
      destruct (paint_u fu g first s1 ps) as [[s2 o]|o]; [|done]. cbn [paint_u].
      rewrite (apply_u_calls _ g (first + plen ps) (rle_len lst)).
      2: { intros [[a b] y] Hr. pose proof (HR _ Hr) as Hx. cbn [fst snd] in Hx |- *. rewrite bool_decide_eq_true. split; [|lia]. intros ->. split; [|lia].
        destruct (decide (a = 0)); [lia|]. apply Hend, Hb. split; [|lia]. exists (a, rle_len e, y). split; [done|by left]. }
      by destruct (calls fu _ s2 lst) as [[s3 l']|l'].
Qed.

Notation pnd := (list (cursor * list Elem)).
Implicit Types (ne : pnd).
Notation idf := (fun e (_ : unit) => e) (only parsing).
Lemma pend_none0 ne l : l ∉ pkeys ne -> pend ne l = [].
Proof. exact (pend_none L idf (fun _ _ V => V) ne l). Qed.
Lemma pend_perm0 ne ne' l : NoDup (pkeys ne) -> ne' ≡ₚ ne -> pend ne' l = pend ne l.
Proof. exact (pend_perm L idf (fun _ _ V => V) ne ne' l). Qed.
(** the work of one leaf: its ranges and its pieces *)
Definition JOK t (js : list (nat * (list rg * list Elem))) : Prop := forall l g ps, (l, (g, ps)) ∈ js ->
  exists e, el t l = Some e /\ CutAt g e ps /\ ps <> [] /\
    forall s, ranges_leaf_u fu s e g = Ok (match paint_u fu g 0 s ps with inl (s', o) => inl (s', hd e o, tl o) | inr o => inr (hd e o) end).
Lemma jobs t (gs : list (nat * list rg)) :
  (forall l g, (l, g) ∈ gs -> g <> [] /\ exists e, el t l = Some e /\ evalid L e /\ in_leaf_ranges g e) ->
  exists js, map (fun j => (fst j, fst (snd j))) js = gs /\ JOK t js.
Proof.
  induction gs as [|[l g] gs IH]; intros HG.
  { exists []. split; [done|]. intros ? ? ? Hx. by apply elem_of_nil in Hx. }
  destruct IH as (js & <- & Hj); [intros; apply HG; by right|]. destruct (HG l g ltac:(left)) as (Hg & e & He & Ve & HR).
  destruct (leaf_u_ok g e Ve Hg HR) as (ps & Hcut & Hps & Elf). exists ((l, (g, ps)) :: js). split; [done|].
  intros l' g' ps' [[= -> -> ->]|Hin]%elem_of_cons; [by exists e|by apply (Hj l' g' ps')].
Qed.
Lemma groups_u_ok : keeps_valid -> forall (js : list (nat * (list rg * list Elem))) t dm ne s, NoDup js.*1 -> JOK t js ->
  let gs := map (fun j => (fst j, fst (snd j))) js in
  match paint_all fu s js with
  | inl (s', outs) => outs.*1 = js.*1 /\ exists t' dm' ne', ranges_groups_u fu t gs s dm ne = Ok (inl (s', t', dm', ne ++ ne')) /\
      SH t t' /\ in_nodes t' = in_nodes t /\
      (forall l, l ∉ js.*1 -> el t' l = el t l /\ dm' !! ALeaf l = dm !! ALeaf l) /\ (forall m, dm' !! AInt m = dm !! AInt m) /\
      (forall l out, (l, out) ∈ outs -> exists e e1, el t l = Some e /\ el t' l = Some e1 /\ evalid L e1 /\
         out = e1 :: pend ne' l /\ dm' !! ALeaf l = Some (sub_cache (get_elem_cache e1) (get_elem_cache e))) /\
      (forall c es, (c, es) ∈ ne' -> cu_leaf c ∈ js.*1 /\ Forall (evalid L) es /\ exists e1, el t' (cu_leaf c) = Some e1 /\ cu_offset c = rle_len e1) /\
      NoDup (pkeys ne')
  | inr W => exists t', ranges_groups_u fu t gs s dm ne = Ok (inr t') /\ SH t t' /\ in_nodes t' = in_nodes t /\ root_cache t' = root_cache t /\
      (forall l out, (l, out) ∈ W -> l ∈ js.*1 /\ exists e1 r, out = e1 :: r /\ el t' l = Some e1 /\ evalid L e1) /\
      (forall l, l ∉ W.*1 -> el t' l = el t l)
  end.
Proof.
  intros KV. induction js as [|[l [g ps]] js IH]; intros t dm ne s Hnd HJ; cbn zeta.
  { cbn [paint_all map]. split; [done|]. exists t, dm, []. rewrite app_nil_r.
    split_and!; try done; intros ? ? Hx; by apply elem_of_nil in Hx. }
  cbn [fmap list_fmap fst] in Hnd. apply NoDup_cons in Hnd as [Hl Hnd]. destruct (HJ l g ps ltac:(left)) as (e & He & Hcut & Hps & Elf).
  cbn [ranges_groups_u map fst snd]. destruct (proj1 (el_llnk t l)) as [p Hp]; [rewrite He; eauto|]. rewrite (get_lf_proj _ _ _ _ He Hp). cbn [rbind l_elem].
  rewrite Elf. cbn [rbind paint_all].
  pose proof (paint_u_valid g ps KV 0 s (proj1 Hcut)) as HV. pose proof (paint_u_len g ps 0 s) as HL.
  assert (HS : forall e1, SH t (set_lf t l (with_elem (mkLeaf e p) e1))).
  { intros e1. constructor; try done. intros z. rewrite llnk_set_lf. case_decide; [subst; by rewrite Hp|done]. }
  destruct (paint_u fu g 0 s ps) as [[s1 out]|out] eqn:Ep; (destruct out as [|e1 new]; [destruct ps; done|]); cbn [hd tl].
  2: { eexists. split; [reflexivity|]. split; [apply HS|]. split; [done|]. split; [done|]. apply Forall_cons in HV as [V1 _]. split.
    - intros l' out' [= -> ->]%elem_of_list_singleton. split; [left|]. exists e1, new. split; [done|]. rewrite el_set_lf, decide_True by done. done.
    - intros l' Hl'. rewrite el_set_lf, decide_False; [done|]. intros ->. apply Hl'. left. }
  apply Forall_cons in HV as [V1 VN]. clear HL.
  set (t1 := set_lf t l (with_elem (mkLeaf e p) e1)). pose proof (HS e1) as S1. fold t1 in S1.
  assert (Hel1 : forall z, el t1 z = if decide (l = z) then Some e1 else el t z) by (intros z; unfold t1; by rewrite el_set_lf).
  set (nw := match new with [] => [] | _ => [(mkCur l (rle_len e1), new)] end : pnd).
  assert (Enw : match new with [] => ne | _ => ne ++ [(mkCur l (rle_len e1), new)] end = ne ++ nw). { unfold nw. destruct new; [by rewrite app_nil_r|done]. }
  rewrite Enw.
  specialize (IH t1 (<[ALeaf l := sub_cache (get_elem_cache e1) (get_elem_cache e)]> dm) (ne ++ nw) s1 Hnd). cbn zeta in IH.
  assert (HJ1 : JOK t1 js).
  { intros l' g' ps' Hin. destruct (HJ l' g' ps' ltac:(by right)) as (e' & He' & Hv). exists e'. rewrite Hel1, decide_False; [done|]. intros ->. apply Hl. by apply (elem_of_list_fmap_1 fst) in Hin. }
  specialize (IH HJ1). destruct (paint_all fu s1 js) as [[s2 outs]|W].
  - destruct IH as (Eo & t' & dm' & ne' & E & S' & I' & HO & HM & HI & HN & HK). split; [cbn; by f_equal|].
    exists t', dm', (nw ++ ne'). rewrite E, <- app_assoc. split; [done|].
    assert (Hlk : l ∉ pkeys ne'). { intros Hx. unfold pkeys in Hx. apply elem_of_list_fmap in Hx as ([c es] & Ec & Hx). destruct (HN c es Hx) as (Hc & _). cbn [fst] in Ec. rewrite <- Ec in Hc. done. }
    assert (Hpn : forall z, pend (nw ++ ne') z = (if decide (l = z) then new else []) ++ pend ne' z).
    { intros z. unfold nw. destruct new; [cbn; by case_decide|]. cbn [app]. rewrite pend_cons. cbn [cu_leaf]. done. }
    split_and!.
    + by eapply SH_trans.
    + by rewrite I'.
    + intros z Hz. cbn [fmap list_fmap fst] in Hz. destruct (HO z ltac:(set_solver)) as [-> ->]. rewrite Hel1, decide_False by set_solver. split; [done|]. rewrite lookup_insert_ne; [done|]. set_solver.
    + intros m. rewrite HM. by rewrite lookup_insert_ne.
    + intros z oz [[= -> ->]|Hin]%elem_of_cons.
      * destruct (HO l Hl) as [Ho1 Ho2]. exists e, e1. rewrite Ho1, Ho2, Hel1, decide_True by done. rewrite lookup_insert. rewrite Hpn, decide_True, pend_none0, app_nil_r by done. done.
      * assert (z <> l) as Hzl. { intros ->. apply Hl. rewrite <- Eo. by apply (elem_of_list_fmap_1 fst) in Hin. }
        destruct (HI z oz Hin) as (ez & e1z & Hz1 & Hz2 & Hz3 & Hz4 & Hz5). rewrite Hel1, decide_False in Hz1 by done. exists ez, e1z. rewrite Hpn, decide_False by done. done.
    + intros c es [Hin|Hin]%elem_of_app.
      * unfold nw in Hin. destruct new as [|n0 new0] eqn:En; [by apply elem_of_nil in Hin|]. apply elem_of_list_singleton in Hin as [= -> ->]. cbn [cu_leaf cu_offset fmap list_fmap fst]. split; [left|]. split; [done|].
        exists e1. destruct (HO l Hl) as [-> _]. rewrite Hel1, decide_True by done. done.
      * destruct (HN c es Hin) as (H1 & H2 & H3). split; [by right|done].
    + unfold pkeys. rewrite map_app. fold (pkeys ne'). unfold nw. destruct new; [done|]. cbn [map app fst cu_leaf]. by constructor.
  - destruct IH as (t' & E & S' & I' & R' & HW & HO). exists t'. split; [exact E|]. split; [by eapply SH_trans|]. split; [by rewrite I'|]. split; [by rewrite R'|].
    assert (HlW : l ∉ W.*1). { intros ([l0 o0] & -> & Hw)%elem_of_list_fmap. destruct (HW _ _ Hw) as [Hx _]. done. }
    split.
    + intros z oz [[= -> ->]|Hin]%elem_of_cons.
      * split; [left|]. exists e1, new. split; [done|]. rewrite (HO l HlW), Hel1, decide_True by done. done.
      * destruct (HW z oz Hin) as [Hx Hy]. split; [by right|done].
    + intros z Hz. cbn [fmap list_fmap fst] in Hz. rewrite HO by set_solver. rewrite Hel1, decide_False by set_solver. done.
Qed.

Theorem t_ranges_u ordL ord ord2 t xs (args : list (nat * rg)) s : keeps_valid -> Tree t xs -> xs <> [] -> @USE_DIFF B = true ->
  (forall l, ordL l ≡ₚ l) -> (forall l, ord l ≡ₚ l) -> (forall l, ord2 l ≡ₚ l) ->
  (forall l r, (l, r) ∈ args -> exists e, (l, e) ∈ xs /\ fst (fst r) < snd (fst r) <= rle_len e) ->
  exists js : list (nat * (list rg * list Elem)), NoDup js.*1 /\ (forall l, l ∈ js.*1 <-> l ∈ args.*1) /\
    (forall l g ps, (l, (g, ps)) ∈ js -> g = of_key l args /\ exists e, (l, e) ∈ xs /\ CutAt g e ps) /\
    match paint_all fu s js with
    | inl (s', outs) => outs.*1 = js.*1 /\ exists nl t' Rs, update_ranges_u fu ordL ord ord2 t args s = Ok (inl (s', nl, t')) /\ Tree t' (concat Rs) /\
        Forall2 (fun x R => (forall out, (fst x, out) ∈ outs -> ft R = concat (map fl out)) /\ (fst x ∉ outs.*1 -> ft R = fl (snd x)) /\
          fst x ∈ R.*1 /\ (forall z, z ∈ R.*1 -> z = fst x \/ z ∈ nl)) xs Rs /\
        (forall z, z ∈ nl -> z ∈ (concat Rs).*1)
    | inr W => exists t' u ys, update_ranges_u fu ordL ord ord2 t args s = Ok (inr t') /\
        Forall2 (fun x y => fst y = fst x /\ (forall out, (fst x, out) ∈ W -> head out = Some (snd y)) /\ (fst x ∉ W.*1 -> snd y = snd x)) xs ys /\
        Tree u ys /\ SameButCaches u t' /\ in_nodes t' = in_nodes t /\ root_cache t' = root_cache t
    end.
Proof.
  intros KV T Hne HD HoL Hord Hord2 Hargs.
  set (gs := ordL (group_by_leaf (sort_by_leaf args))). pose proof (HoL (group_by_leaf (sort_by_leaf args))) as HP. fold gs in HP.
  destruct (group_keys (sort_by_leaf args) (sort_by_leaf_sorted args)) as (G1 & G2 & G3 & _ & G5).
  assert (G1' : NoDup gs.*1) by (by rewrite HP).
  assert (G2' : forall k g, (k, g) ∈ gs -> g = of_key k args /\ g <> []). { intros k g Hk. rewrite HP in Hk. destruct (G2 k g Hk) as [-> ?]. split; [by rewrite sort_by_leaf_key|done]. }
  assert (Hof : forall k r, r ∈ of_key k args -> (k, r) ∈ args).
  { intros k r Hr. unfold of_key in Hr. apply elem_of_list_fmap in Hr as ([k' r'] & -> & Hr). apply elem_of_list_filter in Hr as [Hk Hr]. cbn in Hk. by subst. }
  assert (Hof2 : forall k r, (k, r) ∈ args -> r ∈ of_key k args).
  { intros k r Hr. unfold of_key. apply elem_of_list_fmap. exists (k, r). split; [done|]. by apply elem_of_list_filter. }
  assert (Hkeys : forall k, k ∈ gs.*1 <-> k ∈ args.*1).
  { intros k. split.
    - intros ([k' g] & -> & Hk)%elem_of_list_fmap. destruct (G2' k' g Hk) as [Eg Hg]. destruct g as [|r g]; [done|]. apply elem_of_list_fmap. exists (k', r). split; [done|]. apply Hof. rewrite <- Eg. left.
    - intros ([k' r] & -> & Hk)%elem_of_list_fmap. cbn [fst]. destruct (decide (k' ∈ gs.*1)) as [?|Hn]; [done|]. exfalso. rewrite HP in Hn. apply G3 in Hn. rewrite sort_by_leaf_key in Hn.
      apply Hof2 in Hk. rewrite Hn in Hk. by apply elem_of_nil in Hk. }
  destruct (jobs t gs) as (js & Ejs & HJ).
  { intros l g Hin. destruct (G2' l g Hin) as [Eg Hg]. split; [done|]. destruct g as [|r g]; [done|].
    assert (Hr : (l, r) ∈ args) by (apply Hof; rewrite <- Eg; left). destruct (Hargs l r Hr) as (e & He & _). exists e. split; [by apply (tree_in L _ _ _ _ T)|]. split; [by eapply (tree_valid L)|].
    intros r' Hr'. rewrite Eg in Hr'. apply Hof in Hr'. destruct (Hargs l r' Hr') as (e' & He' & Hb). assert (e' = e) as ->; [|done].
    apply (tree_in L _ _ _ _ T) in He, He'. congruence. }
  assert (Hjk : js.*1 = gs.*1). { rewrite <- Ejs. change (map ?f js) with (f <$> js). rewrite <- list_fmap_compose. done. }
  exists js. split; [by rewrite Hjk|]. split; [intros l; by rewrite Hjk|]. split.
  { intros l g ps Hin. assert ((l, g) ∈ gs) as Hg. { rewrite <- Ejs. apply elem_of_list_fmap. by exists (l, (g, ps)). }
    split; [by apply G2'|]. destruct (HJ l g ps Hin) as (e & He & Hc & _). exists e. split; [|done]. by apply (tree_in L _ _ _ _ T). }
  pose proof (groups_u_ok KV js t ∅ [] s ltac:(by rewrite Hjk) HJ) as HG. cbn zeta in HG. rewrite Ejs in HG. unfold update_ranges_u. fold gs.
  destruct (paint_all fu s js) as [[s' outs]|W].
  - destruct HG as (Eo & t1 & dm & ne & -> & S1 & I1 & HO & HM & HI & HN & HK). split; [done|]. cbn [rbind app] in *.
    destruct (prep_core L idf (fun _ _ V => V) (fun l _ out => (l, out) ∈ outs) js.*1 ord t xs t1 dm ne T Hne HD Hord) as (t2 & ys & -> & T2 & HN2 & HF & _).
    { constructor; [done|done| | | |done].
      - intros l Hl. destruct (HO l Hl) as [-> ->]. by rewrite lookup_empty.
      - intros m. by rewrite HM, lookup_empty.
      - intros l Hl. rewrite <- Eo in Hl. apply elem_of_list_fmap in Hl as ([l' out] & -> & Hl). cbn [fst]. destruct (HI l' out Hl) as (e & e1 & H1 & H2 & H3 & -> & H5).
        exists e, e1. done. }
    cbn [rbind]. destruct (ranges_insert_all_ok L F idf (fun _ _ V => V) (ord2 ne) t2 ys [] T2) as (nl & t' & Rs & -> & T' & HRs & Hnl & _).
    { unfold pkeys. rewrite Hord2. exact HK. }
    { intros c es Hin. rewrite Hord2 in Hin. by destruct (HN2 c es Hin) as (_ & H3 & H4). }
    cbn [rbind app]. exists nl, t', Rs. split; [done|]. split; [exact T'|]. split; [|exact Hnl].
    assert (Hnd : NoDup outs.*1) by (by rewrite Eo, Hjk).
    clear -HF HRs Hnd Eo HK Hord2. revert Rs HRs. induction HF as [|[l e] [l' e'] xs ys (El & HIn & HOut) _ IH]; intros Rs HRs; [inversion HRs; constructor|].
    inversion HRs as [|? R ? Rs' (A1 & A2 & A3) HRs']; subst. cbn [fst snd] in *. subst l'. constructor; [|by apply IH].
    cbn [fst snd]. rewrite (pend_perm0 ne (ord2 ne) l HK (Hord2 ne)) in A1. split_and!; [| |done|done].
    + intros out Hout. assert (l ∈ js.*1) as Hl by (rewrite <- Eo; by apply (elem_of_list_fmap_1 fst) in Hout). specialize (HIn Hl).
      assert (out = e' :: pend ne l) as ->; [|done]. clear -Hnd Hout HIn. induction outs as [|[k o] outs IH]; [by apply elem_of_nil in Hout|].
      cbn [fmap list_fmap fst] in Hnd. apply NoDup_cons in Hnd as [Hk Hnd]. apply elem_of_cons in Hout. apply elem_of_cons in HIn.
      destruct Hout as [E1|Hout], HIn as [E2|HIn]; [congruence| | |by apply IH].
      * injection E1 as -> ->. destruct Hk. by apply (elem_of_list_fmap_1 fst) in HIn.
      * injection E2 as -> <-. destruct Hk. by apply (elem_of_list_fmap_1 fst) in Hout.
    + intros Hl. rewrite Eo in Hl. destruct (HOut Hl) as [-> Epn]. rewrite Epn in A1. cbn in A1. by rewrite app_nil_r in A1.
  - destruct HG as (t' & -> & S' & I' & R' & HW & HO). cbn [rbind].
    set (ys := map (fun x => (fst x, default (snd x) (el t' (fst x)))) xs).
    assert (Hin : forall l e, (l, e) ∈ xs -> exists e', el t' l = Some e').
    { intros l e Hx. apply (tree_in L _ _ _ _ T) in Hx. destruct (proj2 (SH_el _ _ S' l)) as [e' He']; [rewrite Hx; eauto|eauto]. }
    destruct (t_repair L t xs t' ys T S') as (u & Tu & Su).
    { unfold ys. change (map ?f xs) with (f <$> xs). rewrite <- list_fmap_compose. done. }
    { intros l e Hl. unfold ys in Hl. apply elem_of_list_fmap in Hl as ([l0 e0] & [= -> ->] & Hl). cbn [fst snd]. destruct (Hin _ _ Hl) as [e' He']. rewrite He'. cbn [default]. split; [done|].
      destruct (decide (l0 ∈ W.*1)) as [Hw|Hw].
      - apply elem_of_list_fmap in Hw as ([l1 o1] & -> & Hw). cbn [fst] in *. destruct (HW _ _ Hw) as (_ & e1 & r & _ & E1 & V1). rewrite E1 in He'. injection He' as <-. exact V1.
      - rewrite (HO _ Hw) in He'. pose proof (tree_valid L _ _ _ _ T Hl) as V. apply (tree_in L _ _ _ _ T) in Hl. rewrite Hl in He'. injection He' as <-. exact V. }
    exists t', u, ys. split; [done|]. split; [|done]. unfold ys.
    assert (Hsub : forall x, x ∈ xs -> x ∈ xs) by done. revert Hsub. generalize xs at 1 3 4. intros zs Hsub. induction zs as [|[l e] zs IH]; [constructor|].
    cbn [map]. constructor; [|apply IH; intros; apply Hsub; by right]. cbn [fst snd]. split; [done|]. split.
    + intros out Hout. destruct (HW _ _ Hout) as (_ & e1 & r & -> & -> & _). done.
    + intros Hw. rewrite (HO _ Hw). rewrite (proj2 (tree_in L _ _ _ _ T) (Hsub (l, e) ltac:(left))). done.
Qed.
End stateful.

(** a closure that never panics *)
Section nopanic.
Context {B : BTreeTrait} (L : Lawful B) {U : Type} (F : Flatten L U) {A S0 : Type} (f : S0 -> Elem B -> A -> S0 * Elem B).
Notation fs := (fun s e a => inl (f s e a) : (S0 * Elem B) + Elem B).
Notation rg := (nat * nat * A)%type.
Lemma calls_never l : forall s e, exists r, calls fs l s e = inl r.
Proof. induction l as [|a l IH]; intros s e; [by eexists|]. cbn [calls]. destruct (f s e a) as [s1 e1]. apply IH. Qed.
Lemma paint_never g ps : forall st s, exists r, paint_u fs g st s ps = inl r.
Proof.
  induction ps as [|p ps IH]; intros st s; [by eexists|]. cbn [paint_u]. destruct (calls_never (covering g st (rle_len p)) s p) as [[s1 p'] ->].
  destruct (IH (st + rle_len p) s1) as [[s2 r] ->]. by eexists.
Qed.
Lemma all_never js : forall s, exists r, paint_all fs s js = inl r.
Proof.
  induction js as [|[l [g ps]] js IH]; intros s; [by eexists|]. cbn [paint_all]. destruct (paint_never g ps 0 s) as [[s1 o] ->].
  destruct (IH s1) as [[s2 r] ->]. by eexists.
Qed.
Theorem t_ranges_state ordL ord ord2 (t : btree B) xs (args : list (nat * rg)) s : (forall s e a, evalid L e -> evalid L (snd (f s e a))) -> Tree L t xs -> xs <> [] -> @USE_DIFF B = true ->
  (forall l, ordL l ≡ₚ l) -> (forall l, ord l ≡ₚ l) -> (forall l, ord2 l ≡ₚ l) ->
  (forall l r, (l, r) ∈ args -> exists e, (l, e) ∈ xs /\ fst (fst r) < snd (fst r) <= rle_len e) ->
  exists (js : list (nat * (list rg * list (Elem B)))) s' outs nl t' Rs, NoDup js.*1 /\ (forall l, l ∈ js.*1 <-> l ∈ args.*1) /\
    (forall l g ps, (l, (g, ps)) ∈ js -> g = of_key l args /\ exists e, (l, e) ∈ xs /\ CutAt L F g e ps) /\
    paint_all fs s js = inl (s', outs) /\ outs.*1 = js.*1 /\
    update_ranges_u fs ordL ord ord2 t args s = Ok (inl (s', nl, t')) /\ Tree L t' (concat Rs) /\
    Forall2 (fun x R => (forall out, (fst x, out) ∈ outs -> ft L F R = concat (map (fl F) out)) /\ (fst x ∉ outs.*1 -> ft L F R = fl F (snd x)) /\
      fst x ∈ R.*1 /\ (forall z, z ∈ R.*1 -> z = fst x \/ z ∈ nl)) xs Rs /\
    (forall z, z ∈ nl -> z ∈ (concat Rs).*1).
Proof.
  intros KV T Hne HD HoL Ho Ho2 Ha. destruct (t_ranges_u L F fs ordL ord ord2 t xs args s) as (js & H1 & H2 & H3 & HM); try done.
  { intros s0 e a V. specialize (KV s0 e a V). by destruct (f s0 e a). }
  destruct (all_never js s) as [[s' outs] E]. rewrite E in HM. destruct HM as (Eo & nl & t' & Rs & HM).
  exists js, s', outs, nl, t', Rs. done.
Qed.
End nopanic.
