(** Lazy.v — the lazy iterators step by step: [next] calls on the iterators of iter (lib.rs:1581-1610),
    iter_range (1719-1768, over iter::Iter, src/iter.rs:6-12, 290-322) and iter_with_filter
    (2650-2678).  BTree.v runs them to exhaustion; here each [next] is a function on the
    iterator's state, and the two agree. *)
From Verif Require Export Filter Pos.

(** ** an iterator is a state and a [next]; the results of the first [k] calls *)
Fixpoint nexts {S E : Type} (next : S -> res (option E * S)) (k : nat) (s : S) : res (list (option E) * S) :=
  match k with
  | 0 => Ok ([], s)
  | S k' => let? (o, s) := next s in let? (os, s) := nexts next k' s in Ok (o :: os, s)
  end.
(** the [i]-th call returns the [i]-th item of [es], and [None] from then on *)
Definition Yields {S E : Type} (next : S -> res (option E * S)) (s : S) (es : list E) : Prop :=
  forall k, exists s', nexts next k s = Ok (map (fun i => es !! i) (seq 0 k), s').
Lemma yields_by {S E} (next : S -> res (option E * S)) (Rl : S -> list E -> Prop) :
  (forall s es, Rl s es -> exists s', next s = Ok (head es, s') /\ Rl s' (tail es)) -> forall s es, Rl s es -> Yields next s es.
Proof.
  intros Hs s es H k. revert s es H. induction k as [|k IH]; intros s es H; [by exists s|].
  destruct (Hs s es H) as (s1 & E1 & H1). destruct (IH s1 (tail es) H1) as (s2 & E2). exists s2. cbn [nexts]. rewrite E1. cbn [rbind]. rewrite E2. cbn [rbind].
  cbn [seq map]. rewrite <- seq_shift, map_map. do 3 f_equal; [by destruct es|]. apply map_ext. intros i. by destruct es.
Qed.

(** ** the model *)
Section model.
Context {B : BTreeTrait}.
Notation btree := (btree B).
Notation child := (child B).
Notation Elem := (Elem B).
Notation Cache := (Cache B).

(** the variables captured by the closure of [iter]: [path] and [iter] — lib.rs:1582-1587 *)
Record iter_st : Type := mkIt { it_path : list idx; it_rest : list child }.
Definition iter_start (t : btree) : res iter_st :=
  let? o := first_path t in
  let path := removelast (default [] o) in
  let ix := default (mkIdx (root t) 0) (last path) in
  let? n := get_internal t (i_arena ix) in
  Ok (mkIt path (n_children n)).
(** the closure passed to from_fn — lib.rs:1588-1609; the [loop] runs on fuel *)
Fixpoint iter_next_f (f : nat) (t : btree) (s : iter_st) : res (option Elem * iter_st) :=
  if decide (it_path s = []) then Ok (None, s)
  else match it_rest s with
  | c :: cs => let? lf := get_leaf t (c_arena c) in Ok (Some (l_elem lf), mkIt (it_path s) cs)
  | [] =>
      let? o := next_sibling t (it_path s) in
      match o with
      | None => Ok (None, s)
      | Some path =>
          match f with
          | 0 => OutOfFuel
          | S f' =>
              let? ix := ropt (last path) in
              let? n := get_internal t (i_arena ix) in
              iter_next_f f' t (mkIt path (n_children n))
          end
      end
  end.
Definition iter_next (t : btree) : iter_st -> res (option Elem * iter_st) := iter_next_f (fuel t) t.

(** iter::Iter — src/iter.rs:6-12 (the tree is a parameter; of the end path only the last entry is read) *)
Record leaf_it : Type := mkLI { li_path : list idx; li_end : option idx; li_done : bool }.
(** Iterator::next for Iter — src/iter.rs:304-321; the path in the item is only used for its last entry *)
Definition leaf_next (t : btree) (s : leaf_it) : res (option (nat * leafn B) * leaf_it) :=
  if li_done s then Ok (None, s)
  else
    let d1 := bool_decide (li_end s = last (li_path s)) in
    let? lst := ropt (last (li_path s)) in
    let? o := next_sibling t (li_path s) in
    let? l := unwrap_leaf (i_arena lst) in
    let? lf := get_lf t l in
    match o with
    | None => Ok (Some (l, lf), mkLI (li_path s) (li_end s) true)
    | Some p => Ok (Some (l, lf), mkLI p (li_end s) d1)
    end.
(** the closure of filter_map in _iter_range — lib.rs:1747-1767 *)
Definition slice_of (st en : cursor) (inclusive : bool) (x : nat * leafn B) : option (elem_slice (B := B)) :=
  let '(l, lf) := x in
  if bool_decide (cu_leaf en = l) && bool_decide (cu_offset en = 0) && negb inclusive then None
  else Some (mkES (mkCur l 0) (l_elem lf)
         (if decide (cu_leaf st = l) then Some (cu_offset st) else None)
         (if decide (cu_leaf en = l) then Some (cu_offset en) else None)).
(** Iterator::next of filter_map: calls the inner iterator until the closure accepts *)
Fixpoint filter_map_f {S E E' : Type} (f : nat) (next : S -> res (option E * S)) (g : E -> option E') (s : S) : res (option E' * S) :=
  match f with
  | 0 => OutOfFuel
  | S f' =>
      let? (o, s) := next s in
      match o with
      | None => Ok (None, s)
      | Some x => match g x with Some y => Ok (Some y, s) | None => filter_map_f f' next g s end
      end
  end.
(** iter_range / _iter_range up to the first [next] — lib.rs:1719-1746 *)
Definition range_start_ (t : btree) (st en : cursor) : res leaf_it :=
  let? ps := get_path t (ALeaf (cu_leaf st)) in
  let? pe := get_path t (ALeaf (cu_leaf en)) in
  Ok (mkLI ps (last pe) false).
Definition range_next (t : btree) (st en : cursor) (inclusive : bool) : leaf_it -> res (option (elem_slice (B := B)) * leaf_it) :=
  filter_map_f (S (S (anext (leaf_nodes t)))) (leaf_next t) (slice_of st en inclusive).
(** the bounds as cursors — lib.rs:1723-1732 *)
Definition range_bounds (t : btree) (a b : bound) : res (cursor * cursor * bool) :=
  let? st := match a with
             | Included c => Ok c
             | Excluded _ => Panic
             | Unbounded => let? o := start_cursor t in ropt o
             end in
  let? (inc, en) := match b with
             | Included c => Ok (true, c)
             | Excluded c => Ok (false, c)
             | Unbounded => let? o := end_cursor t in let? c := ropt o in Ok (true, c)
             end in
  Ok (st, en, inc).

(** the closure of iter_with_filter — lib.rs:2656-2677; state: the queue and the state of the FnMut *)
Section filter.
  Context {S0 R : Type} (r0 : R) (radd : R -> R -> R) (fu : S0 -> Cache -> S0 * (bool * R)).
  Fixpoint iwf_next_f (f : nat) (t : btree) (st : list (aidx * R) * S0) : res (option (R * Elem) * (list (aidx * R) * S0)) :=
    match st with
    | ([], s) => Ok (None, ([], s))
    | ((x, r) :: queue, s) =>
        match x with
        | ALeaf l => let? lf := get_lf t l in Ok (Some (r, l_elem lf), (queue, s))
        | AInt i =>
            match f with
            | 0 => OutOfFuel
            | S f' =>
                let? n := get_in t i in
                let '(s, q) := iwf_children radd fu (n_children n) s r in
                iwf_next_f f' t (queue ++ q, s)
            end
        end
    end.
  Definition iwf_start (t : btree) (s : S0) : list (aidx * R) * S0 := ([(root t, r0)], s).
  Definition iwf_next (t : btree) : list (aidx * R) * S0 -> res (option (R * Elem) * (list (aidx * R) * S0)) :=
    iwf_next_f (S (total_children t)) t.
End filter.
End model.

(** ** stepping agrees with running to exhaustion *)
Section lazy.
Context {B : BTreeTrait}.
Notation btree := (btree B).
Notation child := (child B).
Notation Elem := (Elem B).
Notation Cache := (Cache B).
Implicit Types (t : btree).

Definition It t (s : iter_st (B := B)) (es : list Elem) : Prop := exists f es1 es2, f <= fuel t /\ it_path s <> [] /\ elems_of_children t (it_rest s) = Ok es1 /\ es = es1 ++ es2 /\
  ((next_sibling t (it_path s) = Ok None /\ es2 = []) \/ exists p, next_sibling t (it_path s) = Ok (Some p) /\ iter_f f t p = Ok es2).
Lemma it_open t f p es : f <= fuel t -> p <> [] -> iter_f f t p = Ok es ->
  exists ix n, last p = Some ix /\ get_internal t (i_arena ix) = Ok n /\ exists es1 es2 f', f = S f' /\ elems_of_children t (n_children n) = Ok es1 /\ es = es1 ++ es2 /\
  ((next_sibling t p = Ok None /\ es2 = []) \/ exists p', next_sibling t p = Ok (Some p') /\ iter_f f' t p' = Ok es2).
Proof.
  intros Hf Hp E. destruct f as [|f]; [done|]. cbn [iter_f] in E.
  destruct (last p) as [ix|]; [|done]. cbn [ropt rbind] in E. destruct (get_internal t (i_arena ix)) as [n| |] eqn:En; cbn [rbind] in E; try done.
  destruct (elems_of_children t (n_children n)) as [es1| |] eqn:E1; cbn [rbind] in E; try done.
  destruct (next_sibling t p) as [[p'|]| |] eqn:Es; cbn [rbind] in E; try done.
  - destruct (iter_f f t p') as [es2| |] eqn:E2; cbn [rbind] in E; try done. injection E as <-. exists ix, n. split_and!; try done. exists es1, es2, f. split_and!; try done. right. by exists p'.
  - injection E as <-. exists ix, n. split_and!; try done. exists es1, [], f. rewrite app_nil_r. split_and!; try done. by left.
Qed.
Lemma next_sib_nonnil t p p' : next_sibling t p = Ok (Some p') -> p' <> [].
Proof.
  unfold next_sibling. intros E ->. destruct (next_sibling_rev t (rev p)) as [[q|]| |] eqn:Eq; cbn in E; try done. injection E as E.
  apply (f_equal (@rev idx)) in E. rewrite rev_involutive in E. cbn in E. subst q.
  destruct (rev p) as [|x [|y r]]; [done|done|]. cbn [next_sibling_rev] in Eq. destruct (get_internal t (i_arena y)) as [pn| |]; cbn [rbind] in Eq; try done.
  destruct (n_children pn !! S (i_arr x)); [done|]. match type of Eq with rbind ?e _ = _ => destruct e as [[q'|]| |] end; cbn [rbind] in Eq; try done.
  destruct (head q'); cbn [ropt rbind] in Eq; try done. destruct (get_internal t (i_arena i)); cbn [rbind] in Eq; try done. destruct (vec_get _ 0); cbn [rbind] in Eq; done.
Qed.
Lemma next_eq F t p (cs : list child) : p <> [] -> iter_next_f F t (mkIt p cs) =
  match cs with
  | c :: cs' => let? lf := get_leaf t (c_arena c) in Ok (Some (l_elem lf), mkIt p cs')
  | [] => let? o := next_sibling t p in match o with
      | None => Ok (None, mkIt p cs)
      | Some path => match F with 0 => OutOfFuel | S f' => let? ix := ropt (last path) in let? n := get_internal t (i_arena ix) in iter_next_f f' t (mkIt path (n_children n)) end
      end
  end.
Proof. intros Hp. destruct F; cbn [iter_next_f it_path it_rest]; (rewrite decide_False; [|exact Hp]); by destruct cs. Qed.
Lemma it_step t : forall f s es1 es2 F, f <= F -> F <= fuel t -> it_path s <> [] -> elems_of_children t (it_rest s) = Ok es1 ->
  ((next_sibling t (it_path s) = Ok None /\ es2 = []) \/ exists p, next_sibling t (it_path s) = Ok (Some p) /\ iter_f f t p = Ok es2) ->
  exists s', iter_next_f F t s = Ok (head (es1 ++ es2), s') /\ It t s' (tail (es1 ++ es2)).
Proof.
  induction f as [|f IH]; intros [p cs] es1 es2 F Hf HF Hp E1 H2; cbn [it_path it_rest] in *; rewrite (next_eq F t p cs Hp).
  all: destruct cs as [|c cs]; cbn [elems_of_children] in E1.
  - injection E1 as <-. destruct H2 as [[E2 ->]|(p' & E2 & E3)]; [|done]. exists (mkIt p []). rewrite E2. cbn [rbind app head tail]. split; [done|].
    exists 0, [], []. split_and!; try done; [cbn; lia|by left].
  - destruct (get_leaf t (c_arena c)) as [lf| |]; cbn [rbind] in E1 |- *; try done.
    destruct (elems_of_children t cs) as [es| |] eqn:E2; cbn [rbind] in E1; try done. injection E1 as <-.
    exists (mkIt p cs). split; [done|]. cbn [tail app]. exists 0, es, es2. split_and!; try done. lia.
  - injection E1 as <-. destruct H2 as [[E2 ->]|(p' & E2 & E3)].
    { exists (mkIt p []). rewrite E2. cbn [rbind app head tail]. split; [done|]. exists 0, [], []. split_and!; try done; [cbn; lia|by left]. }
    rewrite E2. cbn [rbind app]. pose proof (next_sib_nonnil _ _ _ E2) as Hp'. destruct F as [|F]; [lia|].
    destruct (it_open t (S f) p' es2) as (ix & n & El & En & es1' & es2' & f' & Ef & E1' & -> & H2'); [lia|done|done|].
    rewrite El. cbn [ropt rbind]. rewrite En. cbn [rbind]. injection Ef as <-. apply (IH (mkIt p' (n_children n)) es1' es2' F); try done; lia.
  - destruct (get_leaf t (c_arena c)) as [lf| |]; cbn [rbind] in E1 |- *; try done.
    destruct (elems_of_children t cs) as [es| |] eqn:E2; cbn [rbind] in E1; try done. injection E1 as <-.
    exists (mkIt p cs). split; [done|]. cbn [tail app]. exists (S f), es, es2. split_and!; try done. lia.
Qed.
Lemma iter_yields t es : iter t = Ok es -> exists s, iter_start t = Ok s /\ Yields (iter_next t) s es.
Proof.
  unfold iter, iter_start. intros E. destruct (first_path t) as [[p|]| |]; cbn [rbind] in E |- *; try done.
  - destruct (decide (removelast p = [])) as [Ep|Ep].
    { rewrite Ep in E. by cbn in E. }
    destruct (it_open t _ _ _ ltac:(reflexivity) Ep E) as (ix & n & El & En & es1 & es2 & f' & Ef & E1 & -> & H2).
    unfold default, id. rewrite El. rewrite En. cbn [rbind].
    exists (mkIt (removelast p) (n_children n)). split; [done|]. apply (yields_by _ (It t)).
    + intros s es (f & e1 & e2 & Hf & Hp & He & -> & H). unfold iter_next. by apply (it_step t f s e1 e2).
    + exists f', es1, es2. split_and!; try done. lia.
  - cbn [removelast default]. change (last []) with (@None idx). cbn [default i_arena].
    destruct (get_internal t (root t)) as [n| |]; cbn [rbind] in E |- *; try done. injection E as <-. eexists. split; [done|].
    apply (yields_by _ (fun s es => es = [] /\ it_path s = [])); [|done]. intros s es [-> Hs]. exists s. split; [|done].
    unfold iter_next. destruct (fuel t); cbn [iter_next_f]; by rewrite decide_True.
Qed.

(** *** iter_range *)
Definition LI t (s : leaf_it) (ls : list (nat * leafn B)) : Prop :=
  (li_done s = true /\ ls = []) \/ (li_done s = false /\ exists f, leaf_iter_f f t (li_path s) (li_end s) = Ok ls).
Lemma leaf_step t s ls : LI t s ls -> exists s', leaf_next t s = Ok (head ls, s') /\ LI t s' (tail ls).
Proof.
  intros [[Hd ->]|[Hd (f & E)]]; unfold leaf_next; rewrite Hd; [exists s; split; [done|by left]|].
  destruct f as [|f]; [done|]. cbn [leaf_iter_f] in E. destruct (last (li_path s)) as [lst|] eqn:El; [|done]. cbn [ropt rbind] in E |- *.
  destruct (next_sibling t (li_path s)) as [o| |]; cbn [rbind] in E |- *; try done.
  destruct (unwrap_leaf (i_arena lst)) as [l| |]; cbn [rbind] in E |- *; try done.
  destruct (get_lf t l) as [lf| |]; cbn [rbind] in E |- *; try done.
  destruct (bool_decide (li_end s = Some lst)) eqn:Eb; [injection E as <-|].
  - destruct o as [p|]; eexists; (split; [done|]); left; done.
  - destruct o as [p|].
    + destruct (leaf_iter_f f t p (li_end s)) as [r| |] eqn:Er; cbn [rbind] in E; try done. injection E as <-. eexists. split; [done|]. right. split; [done|]. by exists f.
    + injection E as <-. eexists. split; [done|]. by left.
Qed.
Lemma filter_map_step {S E E'} (next : S -> res (option E * S)) (g : E -> option E') (Rl : S -> list E -> Prop) :
  (forall s es, Rl s es -> exists s', next s = Ok (head es, s') /\ Rl s' (tail es)) ->
  forall f es s, Rl s es -> length es < f -> exists s' es', filter_map_f f next g s = Ok (head (omap g es), s') /\ Rl s' es' /\ tail (omap g es) = omap g es' /\ length es' <= length es.
Proof.
  intros Hs. induction f as [|f IH]; intros es s HR Hl; [lia|]. cbn [filter_map_f]. destruct (Hs s es HR) as (s1 & -> & H1). cbn [rbind].
  destruct es as [|x es]; cbn [head tail omap list_omap length] in *; [by exists s1, []|]. destruct (g x) as [y|] eqn:Eg; [exists s1, es; split_and!; try done; lia|].
  destruct (IH es s1 H1 ltac:(lia)) as (s2 & es2 & -> & H2 & H3 & H4). exists s2, es2. split_and!; try done. lia.
Qed.
Lemma filter_map_yields {S E E'} (next : S -> res (option E * S)) (g : E -> option E') (Rl : S -> list E -> Prop) f :
  (forall s es, Rl s es -> exists s', next s = Ok (head es, s') /\ Rl s' (tail es)) ->
  forall s es, Rl s es -> length es < f -> Yields (filter_map_f f next g) s (omap g es).
Proof.
  intros Hs s es HR Hl. apply (yields_by _ (fun s out => exists es, Rl s es /\ length es < f /\ out = omap g es)); [|by exists es].
  intros s1 out (es1 & H1 & Hl1 & ->). destruct (filter_map_step next g Rl Hs f es1 s1 H1 Hl1) as (s2 & es2 & E2 & H2 & H3 & H4).
  exists s2. split; [done|]. exists es2. split_and!; try done. lia.
Qed.
Lemma leaf_iter_len t : forall f p e ls, leaf_iter_f f t p e = Ok ls -> length ls <= f.
Proof.
  induction f as [|f IH]; intros p e ls E; [done|]. cbn [leaf_iter_f] in E. destruct (last p); [|done]. cbn [ropt rbind] in E.
  destruct (next_sibling t p) as [o| |]; cbn [rbind] in E; try done. destruct (unwrap_leaf _) as [l| |]; cbn [rbind] in E; try done.
  destruct (get_lf t l); cbn [rbind] in E; try done. destruct (bool_decide _); [injection E as <-; cbn; lia|].
  destruct o as [p'|]; [|injection E as <-; cbn; lia]. destruct (leaf_iter_f f t p' e) eqn:Er; cbn [rbind] in E; try done. injection E as <-. apply IH in Er. cbn. lia.
Qed.
Lemma range_yields t a b out : iter_range t a b = Ok out ->
  exists st en inc s, range_bounds t a b = Ok (st, en, inc) /\ range_start_ t st en = Ok s /\ Yields (range_next t st en inc) s out.
Proof.
  unfold iter_range, range_bounds. intros E. match type of E with rbind ?e _ = _ => destruct e as [st| |] end; cbn [rbind] in E |- *; try done.
  match type of E with rbind ?e _ = _ => destruct e as [[inc en]| |] end; cbn [rbind] in E |- *; try done.
  exists st, en, inc. unfold iter_range_ in E. unfold range_start_. destruct (get_path t (ALeaf (cu_leaf st))) as [ps| |]; cbn [rbind] in E |- *; try done.
  destruct (get_path t (ALeaf (cu_leaf en))) as [pe| |]; cbn [rbind] in E |- *; try done.
  destruct (leaf_iter_f (S (anext (leaf_nodes t))) t ps (last pe)) as [ls| |] eqn:El; cbn [rbind] in E; try done. injection E as <-.
  eexists. split; [done|]. split; [done|]. 
  change (Yields (range_next t st en inc) (mkLI ps (last pe) false) (omap (slice_of st en inc) ls)). apply (filter_map_yields _ _ (LI t)).
  - apply leaf_step.
  - right. split; [done|]. by eexists.
  - apply leaf_iter_len in El. lia.
Qed.

(** *** iter_with_filter, with a stateful filter *)
Section filter.
Context {S0 R : Type} (r0 : R) (radd : R -> R -> R) (fu : S0 -> Cache -> S0 * (bool * R)).
Definition IW t (F : nat) (st : list (aidx * R) * S0) (out : list (R * Elem)) : Prop := exists f s', f <= F /\ iwf_f radd fu f t st.1 st.2 = Ok (s', out).
Lemma iwf_step t F : forall f q s s' out, f <= F -> iwf_f radd fu f t q s = Ok (s', out) ->
  exists st, iwf_next_f radd fu F t (q, s) = Ok (head out, st) /\ exists f', f' <= f /\ iwf_f radd fu f' t st.1 st.2 = Ok (s', tail out).
Proof.
  revert F. induction F as [|F IH]; intros f q s s' out Hf E.
  - destruct q as [|[x r] q]; [destruct f; cbn in E; injection E as <- <-; exists ([], s); (split; [done|]); exists 0; (split; [lia|done])|].
    destruct f; [done|lia].
  - destruct q as [|[x r] q]; [destruct f; cbn in E; injection E as <- <-; exists ([], s); (split; [done|]); exists 0; (split; [lia|done])|].
    destruct f as [|f]; [done|]. cbn [iwf_f] in E. cbn [iwf_next_f]. destruct x as [l|i].
    + destruct (get_lf t l) as [lf| |]; cbn [rbind] in E |- *; try done. destruct (iwf_f radd fu f t q s) as [[s1 o]| |] eqn:E1; cbn [rbind] in E; try done.
      injection E as <- <-. exists (q, s). split; [done|]. exists f. split; [lia|done].
    + destruct (get_in t i) as [n| |]; cbn [rbind] in E |- *; try done. destruct (iwf_children radd fu (n_children n) s r) as [s1 q1].
      destruct (IH f (q ++ q1) s1 s' out ltac:(lia) E) as (st & E1 & f' & Hf' & E2). exists st. split; [done|]. exists f'. split; [lia|done].
Qed.
Lemma iwf_yields t s s' out : iter_with_filter r0 radd fu t s = Ok (s', out) -> Yields (iwf_next radd fu t) (iwf_start r0 t s) out.
Proof.
  intros E. apply (yields_by _ (IW t (S (total_children t)))).
  - intros [q s1] o (f & s2 & Hf & E1). cbn [fst snd] in E1. destruct (iwf_step t _ f q s1 s2 o Hf E1) as (st & E2 & f' & Hf' & E3).
    exists st. split; [done|]. exists f', s2. split; [lia|done].
  - exists (S (total_children t)), s'. split; [done|]. exact E.
Qed.
End filter.
End lazy.

(** ** a stateful filter: the calls of the closure and the result, level by level *)
Section state.
Context {B : BTreeTrait} (L : Lawful B) {S0 R : Type} (r0 : R) (radd : R -> R -> R) (fu : S0 -> Cache B -> S0 * (bool * R)).
Notation btree := (btree B).
Notation child := (child B).
Implicit Types (t : btree) (cs : list child) (s : S0) (r : R) (q : list (aidx * R)).

(** the closure is asked about the children from left to right; an accepted child gets the offset
    [r] of its node plus what the closure returned for the children left of it *)
Inductive Asked : list child -> S0 -> R -> S0 -> list (aidx * R) -> Prop :=
| asked_nil s r : Asked [] s r s []
| asked_cons c cs s r s1 b nr s2 q : fu s (c_cache c) = (s1, (b, nr)) -> Asked cs s1 (radd r nr) s2 q ->
    Asked (c :: cs) s r s2 (if b : bool then (c_arena c, r) :: q else q).
(** the nodes of a level from left to right *)
Inductive Row t : list (aidx * R) -> S0 -> S0 -> list (aidx * R) -> Prop :=
| row_nil s : Row t [] s s []
| row_cons i n r q s s1 q1 s2 q2 : a_get (in_nodes t) i = Some n -> Asked (n_children n) s r s1 q1 -> Row t q s1 s2 q2 ->
    Row t ((AInt i, r) :: q) s s2 (q1 ++ q2).
(** the levels from top to bottom; the last level are the accepted leaves *)
Inductive Levels t : list (aidx * R) -> S0 -> S0 -> list (R * Elem B) -> Prop :=
| lv_leaves q s out : Forall2 (fun y o => exists l lf, y = (ALeaf l, fst o) /\ a_get (leaf_nodes t) l = Some lf /\ snd o = l_elem lf) q out -> Levels t q s s out
| lv_row q s s1 q1 s2 out : Row t q s s1 q1 -> Levels t q1 s1 s2 out -> Levels t q s s2 out.

Lemma asked_ok cs : forall s r, Asked cs s r (fst (iwf_children radd fu cs s r)) (snd (iwf_children radd fu cs s r)).
Proof.
  induction cs as [|c cs IH]; intros s r; cbn; [constructor|]. destruct (fu s (c_cache c)) as [s1 [b nr]] eqn:E.
  specialize (IH s1 (radd r nr)). destruct (iwf_children radd fu cs s1 (radd r nr)) as [s2 q]. cbn in *. by eapply asked_cons.
Qed.
Lemma asked_elem cs s r s' q : Asked cs s r s' q -> forall y, y ∈ q -> exists c, c ∈ cs /\ c_arena c = fst y.
Proof.
  induction 1 as [|c cs s r s1 b nr s2 q E _ IH]; intros y Hy; [by apply elem_of_nil in Hy|].
  destruct b; [apply elem_of_cons in Hy as [->|Hy]; [exists c; split; [left|done]|]|]; destruct (IH y Hy) as (c' & ? & ?); exists c'; (split; [by right|done]).
Qed.
Lemma asked_sum t n cs s r s' q : Asked cs s r s' q -> sum_list (map (fun y => szn t n (fst y)) q) <= sum_list (map (szn t n) (map c_arena cs)).
Proof. induction 1 as [|c cs s r s1 b nr s2 q E _ IH]; cbn; [lia|]. destruct b; cbn in *; lia. Qed.
Lemma drive t H lv : WT NoE t H lv -> forall n q s f, (forall y, y ∈ q -> live t (fst y) /\ alv lv (fst y) = n) ->
  sum_list (map (fun y => szn t n (fst y)) q) <= f ->
  exists q0 s0 f0, (forall y, y ∈ q0 -> live t (fst y) /\ alv lv (fst y) = 0) /\ length q0 <= f0 <= f /\
    iwf_f radd fu f t q s = iwf_f radd fu f0 t q0 s0 /\ iwf_next_f radd fu f t (q, s) = iwf_next_f radd fu f0 t (q0, s0) /\
    forall out, Levels t q0 s0 s0 out -> Levels t q s s0 out.
Proof.
  intros W. induction n as [|n IHn]; intros q s f Hq Hf.
  - exists q, s, f. split_and!; try done. etrans; [|exact Hf]. clear. induction q as [|y q IH]; [done|].
    cbn [map length]. change (sum_list (?a :: ?l)) with (a + sum_list l). cbn [szn] in *. lia.
  - assert (forall q1 q2 s f, (forall y, y ∈ q1 -> live t (fst y) /\ alv lv (fst y) = S n) -> (forall y, y ∈ q2 -> live t (fst y) /\ alv lv (fst y) = n) ->
      sum_list (map (fun y => szn t (S n) (fst y)) q1) + sum_list (map (fun y => szn t n (fst y)) q2) <= f ->
      exists q3 s3 f3, f3 <= f /\ Row t q1 s s3 q3 /\ (forall y, y ∈ q3 -> live t (fst y) /\ alv lv (fst y) = n) /\
        sum_list (map (fun y => szn t n (fst y)) q2) + sum_list (map (fun y => szn t n (fst y)) q3) <= f3 /\
        iwf_f radd fu f t (q1 ++ q2) s = iwf_f radd fu f3 t (q2 ++ q3) s3 /\
        iwf_next_f radd fu f t (q1 ++ q2, s) = iwf_next_f radd fu f3 t (q2 ++ q3, s3)) as G.
    { clear q s f Hq Hf. induction q1 as [|[x r] q1 IH1]; intros q2 s f H1 H2 Hf.
      - exists [], s, f. rewrite app_nil_r. cbn [app]. split_and!; try done; [constructor|by intros y Hy%elem_of_nil|]. cbn in *. lia.
      - destruct f as [|f]; [cbn in Hf; lia|]. destruct (H1 (x, r)) as [Hl Hx]; [left|]. cbn in Hl, Hx. destruct x as [l|i]; [done|].
        cbn [app iwf_f iwf_next_f]. destruct (live_get_in t i Hl) as [nd Hg]. rewrite Hg. cbn [rbind]. pose proof (get_in_inv _ _ _ Hg) as [Hk _].
        assert (a_get (in_nodes t) i = Some nd) as Ha by (unfold get_in in Hg; destruct (a_get (in_nodes t) i); cbn in Hg; congruence).
        pose proof (asked_ok (n_children nd) s r) as HA. destruct (iwf_children radd fu (n_children nd) s r) as [s1 qn]. cbn [fst snd] in HA.
        rewrite <- app_assoc.
        assert (forall y, y ∈ qn -> live t (fst y) /\ alv lv (fst y) = n) as Hqn.
        { intros y Hy. destruct (asked_elem _ _ _ _ _ HA y Hy) as (c & Hc & <-). destruct (achs_wt W (AInt i) (c_arena c)) as [? ?].
          - cbn. rewrite (chs_kids _ _ _ Hk). by apply elem_of_list_fmap_1.
          - split; [done|]. cbn in *. lia. }
        pose proof (asked_sum t n _ _ _ _ _ HA) as HS.
        destruct (IH1 (q2 ++ qn) s1 f) as (q3 & s3 & f3 & Hf3 & HR & H3 & Hs3 & E1 & E2).
        + intros y Hy. apply H1. by right.
        + intros y [Hy|Hy]%elem_of_app; [by apply H2|by apply Hqn].
        + rewrite map_app, sum_app. cbn [map] in Hf. change (sum_list (?a :: ?l)) with (a + sum_list l) in Hf. cbn [fst szn achs] in Hf.
          rewrite (chs_kids _ _ _ Hk) in Hf. cbn [szn]. lia.
        + rewrite <- app_assoc in E1, E2. exists (qn ++ q3), s3, f3. split_and!; [lia|by eapply row_cons| |rewrite map_app, sum_app in Hs3 |- *; lia|done|done].
          intros y [Hy|Hy]%elem_of_app; [by apply Hqn|by apply H3]. }
    destruct (G q [] s f Hq ltac:(by intros y Hy%elem_of_nil)) as (q3 & s3 & f3 & Hf3 & HR & H3 & Hs3 & E1 & E2).
    { cbn [map]. change (sum_list []) with 0. lia. }
    rewrite app_nil_r in E1, E2. cbn [app map] in *. change (sum_list []) with 0 in Hs3.
    destruct (IHn q3 s3 f3 H3 ltac:(lia)) as (q0 & s0 & f0 & H0 & Hf0 & E3 & E4 & HL). exists q0, s0, f0. split_and!; try done; try lia; try congruence.
    intros out Ho. eapply lv_row; [exact HR|]. by apply HL.
Qed.
Lemma leaves_run t s : forall q f, (forall y, y ∈ q -> exists l, fst y = ALeaf l /\ is_Some (el t l)) -> length q <= f ->
  exists out, iwf_f radd fu f t q s = Ok (s, out) /\ Levels t q s s out /\ exists q', iwf_next_f radd fu f t (q, s) = Ok (head out, (q', s)).
Proof.
  intros q f Hq Hf. assert (exists out, iwf_f radd fu f t q s = Ok (s, out) /\ Forall2 (fun y o => exists l lf, y = (ALeaf l, fst o) /\ a_get (leaf_nodes t) l = Some lf /\ snd o = l_elem lf) q out /\
    exists q', iwf_next_f radd fu f t (q, s) = Ok (head out, (q', s))) as (out & ? & ? & ?); [|exists out; split_and!; try done; by apply lv_leaves].
  revert f Hf. induction q as [|[x r] q IH]; intros f Hf; [exists []; destruct f; (split_and!; [done|constructor|by exists []])|]. destruct f as [|f]; [cbn in Hf; lia|].
  destruct (Hq (x, r)) as (l & El & Hl); [left|]. cbn in El. subst x. destruct (live_get_lf t l Hl) as [lf Hg].
  assert (a_get (leaf_nodes t) l = Some lf) as Ha by (unfold get_lf in Hg; destruct (a_get (leaf_nodes t) l); cbn in Hg; congruence).
  destruct (IH ltac:(intros y Hy; apply Hq; by right) f ltac:(cbn in Hf; lia)) as (out & E & HF & _). exists ((r, l_elem lf) :: out).
  cbn [iwf_f iwf_next_f]. rewrite Hg. cbn [rbind]. rewrite E. cbn [rbind]. split_and!; [done| |by exists q]. constructor; [|done]. exists l, lf. done.
Qed.
Theorem t_filter_state t xs s : Tree L t xs ->
  exists s' out, iter_with_filter r0 radd fu t s = Ok (s', out) /\ Levels t [(root t, r0)] s s' out /\
    (exists q, iwf_next radd fu t (iwf_start r0 t s) = Ok (head out, (q, s'))) /\ Yields (iwf_next radd fu t) (iwf_start r0 t s) out.
Proof.
  intros T. destruct (Tree_OK L _ _ T) as (H & lv & O & _). pose proof (ok_wt _ _ _ _ O) as W.
  destruct (drive t H lv W (S H) [(root t, r0)] s (S (total_children t))) as (q0 & s0 & f0 & H0 & Hf & E1 & E2 & HL).
  - intros y ->%elem_of_list_singleton. cbn [fst]. split; [apply (root_live W)|apply (alv_root W)].
  - cbn [map fst]. change (sum_list [szn t (S H) (root t)]) with (szn t (S H) (root t) + 0). pose proof (szn_root t H lv W). lia.
  - destruct (leaves_run t s0 q0 f0) as (out & E3 & HLv & q' & E4); [|lia|].
    { intros y Hy. destruct (H0 y Hy) as [H1 H2]. destruct (fst y) as [l|i] eqn:Ey; [exists l; done|]. cbn in H2. pose proof (wt_lv W i H1). lia. }
    assert (iter_with_filter r0 radd fu t s = Ok (s0, out)) as E by (unfold iter_with_filter; congruence).
    exists s0, out. split_and!; [done|by apply HL|exists q'; unfold iwf_next, iwf_start; congruence|by eapply iwf_yields].
Qed.
End state.

(** ** on intact trees *)
Section tree.
Context {B : BTreeTrait} (L : Lawful B).
Notation btree := (btree B).
Implicit Types (t : btree) (xs : list (nat * Elem B)).
Theorem t_iter_lazy t xs : Tree L t xs -> Shallow t 9 -> exists s, iter_start t = Ok s /\ Yields (iter_next t) s (map snd xs).
Proof. intros T Sh. apply iter_yields. by apply (t_iter L). Qed.
Theorem t_iter_lazy_deep t xs : Tree L t xs -> ~ Shallow t 9 -> iter_start t = Panic.
Proof.
  intros T Hns. destruct (Tree_OK L _ _ T) as (H & lv & O & Hc). pose proof (ok_wt _ _ _ _ O) as W.
  assert (9 < S H) as HH.
  { destruct (decide (9 < S H)); [done|]. exfalso. apply Hns. exists (S H), (cont t H). split; [|lia]. by eapply content_cont. }
  assert (xs <> []) as Hne.
  { intros ->. apply Hns. exists 1, []. split; [|lia].
    pose proof (OK_relevel L t H lv O (cont_nil t H lv W (eq_sym Hc))) as O0.
    rewrite <- (cont_tree L _ _ _ _ O0 T). by eapply content_cont, ok_wt. }
  assert (chs t (raw (root t)) <> []) as Hr.
  { intros He. apply Hne. rewrite Hc. unfold cont. cbn [gen]. rewrite (wt_root_id W). cbn. by rewrite He. }
  unfold iter_start, first_path. unfold get_internal at 1. rewrite (wt_root_id W). cbn [unwrap_internal rbind].
  destruct (live_get_in t _ (wt_root_live W)) as [nd Hg]. rewrite Hg. cbn [rbind]. apply get_in_inv in Hg as [Hk _].
  unfold n_is_empty. rewrite bool_decide_eq_false_2.
  2:{ intros Hx. rewrite (chs_kids _ _ _ Hk), Hx in Hr. done. }
  rewrite <- (wt_root_id W). rewrite (first_path_f_panic t H lv (S H) W); [done|apply (root_live W)|apply (alv_root W)| |cbn; lia|cbn; lia|].
  - pose proof (wt_height_bound W Hr). unfold fuel. lia.
  - left. rewrite (wt_root_id W). done.
Qed.
Theorem t_range_lazy t X la ea M lb eb Y oa ob : Tree L t (X ++ (la, ea) :: M ++ (lb, eb) :: Y) -> Shallow t 9 ->
  let mid := map (fun x => mkES (mkCur (fst x) 0) (snd x) None None) M in
  let first := mkES (mkCur la 0) ea (Some oa) None in
  let last := mkES (mkCur lb 0) eb None (Some ob) in
  exists s, range_start_ t (mkCur la oa) (mkCur lb ob) = Ok s /\
    Yields (range_next t (mkCur la oa) (mkCur lb ob) true) s (first :: mid ++ [last]) /\
    Yields (range_next t (mkCur la oa) (mkCur lb ob) false) s (first :: mid ++ (if decide (ob = 0) then [] else [last])).
Proof.
  intros T Sh mid first last. destruct (t_iter_range L t X la ea M lb eb Y oa ob T Sh) as [E1 E2].
  destruct (range_yields _ _ _ _ E1) as (st & en & inc & s & Eb & Es & Hy). cbn in Eb. injection Eb as <- <- <-.
  destruct (range_yields _ _ _ _ E2) as (st & en & inc & s2 & Eb & Es2 & Hy2). cbn in Eb. injection Eb as <- <- <-.
  rewrite Es in Es2. injection Es2 as <-. exists s. done.
Qed.
Theorem t_range_lazy_one t X l e Y oa ob : Tree L t (X ++ (l, e) :: Y) -> Shallow t 9 ->
  let it := mkES (mkCur l 0) e (Some oa) (Some ob) in
  exists s, range_start_ t (mkCur l oa) (mkCur l ob) = Ok s /\
    Yields (range_next t (mkCur l oa) (mkCur l ob) true) s [it] /\
    Yields (range_next t (mkCur l oa) (mkCur l ob) false) s (if decide (ob = 0) then [] else [it]).
Proof.
  intros T Sh it. destruct (t_iter_range_one L t X l e Y oa ob T Sh) as [E1 E2].
  destruct (range_yields _ _ _ _ E1) as (st & en & inc & s & Eb & Es & Hy). cbn in Eb. injection Eb as <- <- <-.
  destruct (range_yields _ _ _ _ E2) as (st & en & inc & s2 & Eb & Es2 & Hy2). cbn in Eb. injection Eb as <- <- <-.
  rewrite Es in Es2. injection Es2 as <-. exists s. done.
Qed.
(** unbounded ranges *)
Theorem t_range_lazy_all t xs : Tree L t xs -> xs <> [] -> Shallow t 9 ->
  exists st en inc s r, range_bounds t Unbounded Unbounded = Ok (st, en, inc) /\ range_start_ t st en = Ok s /\
    Yields (range_next t st en inc) s r /\ map (fun s => (cu_leaf (es_cursor s), es_elem s)) r = xs.
Proof.
  intros T Hne Sh. destruct (t_iter_range_full L t xs T Hne Sh) as (r & E & Hr & _).
  destruct (range_yields _ _ _ _ E) as (st & en & inc & s & Eb & Es & Hy). exists st, en, inc, s, r. done.
Qed.
End tree.
