(** BTree.v — transcription of [impl BTree<B>] (/repo/src/lib.rs).

    Conventions, valid for the whole file (see also Base.v, Trait.v):
    - [debug_assert!]s are modelled as assertions (debug semantics); integers are unbounded.
    - Closures that are [FnMut] thread an explicit state of type [S]; closures are
      total (a panicking closure is not modelled).
    - Loops / recursions that follow parent or child links run on fuel [fuel t]. *)
From Verif Require Export Trait.

Section model.
Context {B : BTreeTrait}.
Notation btree := (btree B).
Notation node := (node B).
Notation leafn := (leafn B).
Notation child := (child B).
Notation Elem := (Elem B).
Notation Cache := (Cache B).
Notation Diff := (Diff B).

(** ** Arena access *)

(** More steps than any chain of parent links in a tree can have (model only). *)
Definition fuel (t : btree) : nat := S (S (anext (in_nodes t))).

(** get_internal / get_internal_mut — lib.rs:1945-1948, 1966-1969 (raw form: in_nodes.get(i).unwrap()) *)
Definition get_in (t : btree) (i : nat) : res node := ropt (a_get (in_nodes t) i).
Definition get_internal (t : btree) (a : aidx) : res node :=
  let? i := unwrap_internal a in get_in t i.
(** get_leaf / get_leaf_mut — lib.rs:1950-1953, 1971-1974 *)
Definition get_lf (t : btree) (i : nat) : res leafn := ropt (a_get (leaf_nodes t) i).
Definition get_leaf (t : btree) (a : aidx) : res leafn :=
  let? i := unwrap_leaf a in get_lf t i.
(** writing through the references returned by [get_mut] *)
Definition set_in (t : btree) (i : nat) (n : node) : btree :=
  mkTree (a_set (in_nodes t) i n) (leaf_nodes t) (root t) (root_cache t).
Definition set_lf (t : btree) (i : nat) (l : leafn) : btree :=
  mkTree (in_nodes t) (a_set (leaf_nodes t) i l) (root t) (root_cache t).
Definition ins_in (t : btree) (n : node) : nat * btree :=
  (anext (in_nodes t),
   mkTree (snd (a_insert (in_nodes t) n)) (leaf_nodes t) (root t) (root_cache t)).
Definition ins_lf (t : btree) (l : leafn) : nat * btree :=
  (anext (leaf_nodes t),
   mkTree (in_nodes t) (snd (a_insert (leaf_nodes t) l)) (root t) (root_cache t)).
Definition rem_in (t : btree) (i : nat) : btree :=
  mkTree (a_remove (in_nodes t) i) (leaf_nodes t) (root t) (root_cache t).
Definition rem_lf (t : btree) (i : nat) : btree :=
  mkTree (in_nodes t) (a_remove (leaf_nodes t) i) (root t) (root_cache t).
Definition set_root_cache (t : btree) (c : Cache) : btree :=
  mkTree (in_nodes t) (leaf_nodes t) (root t) c.
Definition set_root (t : btree) (r : aidx) : btree :=
  mkTree (in_nodes t) (leaf_nodes t) r (root_cache t).

Definition with_children (n : node) (cs : list child) : node :=
  mkNode (n_parent n) (n_slot n) cs.
Definition with_parent (n : node) (p : option aidx) : node :=
  mkNode p (n_slot n) (n_children n).
Definition with_slot (n : node) (s : nat) : node :=
  mkNode (n_parent n) s (n_children n).
Definition with_elem (l : leafn) (e : Elem) : leafn := mkLeaf e (l_parent l).
Definition with_lparent (l : leafn) (p : nat) : leafn := mkLeaf (l_elem l) p.

(** ** Node — lib.rs:410-460.  [u8::MAX] is 255 (the slot of a parentless node). *)
Definition U8_MAX : nat := 255.
Definition node_new : node := mkNode None U8_MAX [].                       (* 412-418 *)
Definition is_full (n : node) : bool := bool_decide (12 <= length (n_children n)). (* 421 *)
Definition is_lack (n : node) : bool := bool_decide (length (n_children n) < 6).   (* 426 *)
Definition n_is_empty (n : node) : bool := bool_decide (n_children n = []) . (* 436 *)
Definition is_child_leaf (n : node) : bool :=                              (* 441-447 *)
  match n_children n with [] => true | c :: _ => is_leaf (c_arena c) end.
Definition calc_cache (n : node) (c : Cache) (d : option Diff) : res (Cache * Diff) := (* 451-459 *)
  match d with
  | Some inner => let? c' := apply_cache_diff c inner in Ok (c', inner)
  | None => calc_cache_internal c (map c_cache (n_children n))
  end.

(** [children[i].cache = c]: panics when out of range *)
Definition set_child_cache (cs : list child) (i : nat) (c : Cache) : res (list child) :=
  let? ch := vec_get cs i in Ok (<[i := mkChild (c_arena ch) c]> cs).
(** [apply_cache_diff(&mut children[i].cache, d)] *)
Definition apply_child_cache (cs : list child) (i : nat) (d : Diff) : res (list child) :=
  let? ch := vec_get cs i in
  let? c := apply_cache_diff (c_cache ch) d in
  Ok (<[i := mkChild (c_arena ch) c]> cs).

(** BTree::new — lib.rs:478-487; clear — 2428-2430 *)
Definition bt_new : btree :=
  let (r, a) := a_insert (a_new (A := node)) node_new in
  mkTree a a_new (AInt r) cache_default.
Definition clear (t : btree) : btree := bt_new.
(** node_len — lib.rs:492-494 *)
Definition node_len (t : btree) : nat := a_len (in_nodes t) + a_len (leaf_nodes t).
(** is_empty — lib.rs:2438-2440 *)
Definition is_empty (t : btree) : res bool :=
  let? r := get_internal t (root t) in Ok (n_is_empty r).

(** alloc_new_leaf — lib.rs:669-672; alloc_leaf_child — 570-584 *)
Definition alloc_leaf_child (t : btree) (data : Elem) (parent : nat) : child * btree :=
  let (i, t') := ins_lf t (mkLeaf data parent) in
  (mkChild (ALeaf i) (get_elem_cache data), t').

(** get_leaf_slot — lib.rs:862-868.  [unwrap_leaf] panics on an internal child
    met before the leaf. *)
Fixpoint leaf_slot_from (cs : list child) (l : nat) (i : nat) : res nat :=
  match cs with
  | [] => Panic
  | c :: cs' =>
      let? x := unwrap_leaf (c_arena c) in
      if decide (x = l) then Ok i else leaf_slot_from cs' l (S i)
  end.
Definition get_leaf_slot (l : nat) (p : node) : res nat := leaf_slot_from (n_children p) l 0.

(** update_children_parent_slot_from — lib.rs:1881-1896.  The temporary [take] of the
    parent's children is not modelled (it is restored before anything can read it). *)
Fixpoint set_slots (t : btree) (cs : list child) (i : nat) : res btree :=
  match cs with
  | [] => Ok t
  | c :: cs' =>
      let? m := unwrap_internal (c_arena c) in
      let? n := get_in t m in
      set_slots (set_in t m (with_slot n i)) cs' (S i)
  end.
Definition update_children_parent_slot_from (t : btree) (p : aidx) (index : nat) : res btree :=
  let? pn := get_internal t p in
  if bool_decide (length (n_children pn) <= index) || is_child_leaf pn then Ok t
  else set_slots t (drop index (n_children pn)) index.

(** The loop of split_node (lib.rs:1837-1845) and split_root (1932-1940): make [p] the
    parent of [cs], numbering internal children from [i]. *)
Fixpoint re_parent_all (t : btree) (cs : list child) (p : nat) (i : nat) : res btree :=
  match cs with
  | [] => Ok t
  | c :: cs' =>
      match c_arena c with
      | AInt m =>
          let? n := get_in t m in
          re_parent_all (set_in t m (mkNode (Some (AInt p)) i (n_children n))) cs' p (S i)
      | ALeaf l =>
          let? lf := get_lf t l in
          re_parent_all (set_lf t l (with_lparent lf p)) cs' p (S i)
      end
  end.

(** split_node — lib.rs:1807-1856 (called with [at = None] only).  Returns
    (node_parent, node_parent_slot, this_cache, right_child). *)
Definition split_node (t : btree) (x : aidx)
  : res (option aidx * nat * Cache * child * btree) :=
  let? i := unwrap_internal x in
  let? n := get_in t i in
  let sp := length (n_children n) / 2 in
  let right_children := drop sp (n_children n) in
  let? lc := delete_range (n_children n) sp (length (n_children n)) in
  let t := set_in t i (with_children n lc) in
  let (ri, t) := ins_in t (mkNode (n_parent n) U8_MAX []) in
  let? nd := get_in t i in
  let? (this_cache, _) := calc_cache nd cache_default None in
  let? t := re_parent_all t right_children ri 0 in
  let? r := get_in t ri in
  let r := with_children r right_children in
  let t := set_in t ri r in
  let? (right_cache, _) := calc_cache r cache_default None in
  Ok (n_parent n, n_slot n, this_cache, mkChild (AInt ri) right_cache, t).

(** split_root — lib.rs:1899-1943 *)
Definition split_root (t : btree) (new_cache : Cache) (right : child) : res btree :=
  let root_idx := root t in
  let? ri := unwrap_internal (c_arena right) in
  let? rn := get_in t ri in
  let t := set_in t ri (mkNode (Some root_idx) 1 (n_children rn)) in
  let? r := unwrap_internal root_idx in
  let? root_n := get_in t r in
  let t := set_in t r (mkNode None 0 []) in
  let left_node := mkNode (Some root_idx) 0 (n_children root_n) in
  let left_children := n_children root_n in
  let (li, t) := ins_in t left_node in
  let left := mkChild (AInt li) new_cache in
  let? rt := get_in t r in
  let? cs := vec_push 12 (n_children rt) left in
  let? cs := vec_push 12 cs right in
  let rt := with_children rt cs in
  let t := set_in t r rt in
  let? (cache, _) := calc_cache rt (root_cache t) None in
  let? t := re_parent_all t left_children li 0 in
  Ok (set_root_cache t cache).

(** split / split_at — lib.rs:1790-1805; inner_insert_node — 1859-1878 *)
Fixpoint split_f (f : nat) (t : btree) (x : aidx) : res btree :=
  match f with
  | 0 => OutOfFuel
  | S f' =>
      let? (np, slot, this_cache, right_child, t) := split_node t x in
      match np with
      | Some p =>
          let? pi := unwrap_internal p in
          let? pn := get_in t pi in
          let? cs := set_child_cache (n_children pn) slot this_cache in
          let? cs := vec_insert 12 cs (S slot) right_child in
          let pn := with_children pn cs in
          let full := is_full pn in
          let t := set_in t pi pn in
          let? t := update_children_parent_slot_from t p (S slot) in
          if full then split_f f' t p else Ok t
      | None => split_root t this_cache right_child
      end
  end.
Definition split (t : btree) (x : aidx) : res btree := split_f (fuel t) t x.

(** next_same_level_in_node — lib.rs:2338-2368 (internal part, then full) *)
Fixpoint next_int_f (f : nat) (t : btree) (x : nat) : res (option aidx) :=
  match f with
  | 0 => OutOfFuel
  | S f' =>
      let? n := get_in t x in
      match n_parent n with
      | None => Ok None
      | Some p =>
          let? pi := unwrap_internal p in
          let? pn := get_in t pi in
          match n_children pn !! S (n_slot n) with
          | Some c => Ok (Some (c_arena c))
          | None =>
              let? o := next_int_f f' t pi in
              match o with
              | None => Ok None
              | Some q => let? qn := get_internal t q in Ok (c_arena <$> head (n_children qn))
              end
          end
      end
  end.
Definition next_same_level_in_node (t : btree) (x : aidx) : res (option aidx) :=
  match x with
  | AInt i => next_int_f (fuel t) t i
  | ALeaf l =>
      let? lf := get_lf t l in
      let? pn := get_in t (l_parent lf) in
      let? index := get_leaf_slot l pn in
      match n_children pn !! S index with
      | Some c => Ok (Some (c_arena c))
      | None =>
          let? o := next_int_f (fuel t) t (l_parent lf) in
          match o with
          | None => Ok None
          | Some q =>
              let? qn := get_internal t q in
              let? c := ropt (head (n_children qn)) in Ok (Some (c_arena c))
          end
      end
  end.

(** prev_same_level_in_node — lib.rs:2370-2401 *)
Fixpoint prev_int_f (f : nat) (t : btree) (x : nat) : res (option aidx) :=
  match f with
  | 0 => OutOfFuel
  | S f' =>
      let? n := get_in t x in
      match n_parent n with
      | None => Ok None
      | Some p =>
          let? pi := unwrap_internal p in
          let? pn := get_in t pi in
          match n_slot n with
          | S s => let? c := vec_get (n_children pn) s in Ok (Some (c_arena c))
          | 0 =>
              let? o := prev_int_f f' t pi in
              match o with
              | None => Ok None
              | Some q => let? qn := get_internal t q in Ok (c_arena <$> last (n_children qn))
              end
          end
      end
  end.
Definition prev_same_level_in_node (t : btree) (x : aidx) : res (option aidx) :=
  match x with
  | AInt i => prev_int_f (fuel t) t i
  | ALeaf l =>
      let? lf := get_lf t l in
      let? pn := get_in t (l_parent lf) in
      let? index := get_leaf_slot l pn in
      match index with
      | S s => let? c := vec_get (n_children pn) s in Ok (Some (c_arena c))
      | 0 =>
          let? o := prev_int_f (fuel t) t (l_parent lf) in
          match o with
          | None => Ok None
          | Some q =>
              let? qn := get_internal t q in
              let? c := ropt (last (n_children qn)) in Ok (Some (c_arena c))
          end
      end
  end.

(** next_elem / prev_elem — lib.rs:2404-2418 *)
Definition to_cursor (o : option aidx) : res (option cursor) :=
  match o with
  | None => Ok None
  | Some x => let? l := unwrap_leaf x in Ok (Some (mkCur l 0))
  end.
Definition next_elem (t : btree) (c : cursor) : res (option cursor) :=
  let? o := next_same_level_in_node t (ALeaf (cu_leaf c)) in to_cursor o.
Definition prev_elem (t : btree) (c : cursor) : res (option cursor) :=
  let? o := prev_same_level_in_node t (ALeaf (cu_leaf c)) in to_cursor o.

(** SplitInfo — lib.rs:2975-2981 *)
Record split_info : Type := mkSI {
  si_new_pos : option cursor; si_left : option nat;
  si_parent : nat; si_slot : nat; si_new_leaf : option aidx }.

(** position(|x| x.arena.unwrap() == leaf) — lib.rs:595-599 (raw comparison) *)
Definition raw_position (cs : list child) (l : nat) : option nat :=
  find_index (fun c => bool_decide (raw (c_arena c) = l)) cs.

(** split_leaf_if_needed — lib.rs:589-667 *)
Fixpoint split_leaf_f (f : nat) (t : btree) (pos : cursor) : res (split_info * btree) :=
  match f with
  | 0 => OutOfFuel
  | S f' =>
      let? lf := get_lf t (cu_leaf pos) in
      let pi := l_parent lf in
      let? pn := get_in t pi in
      let? slot := ropt (raw_position (n_children pn) (cu_leaf pos)) in
      let? lft :=
        match slot with
        | 0 => Ok None
        | S s => let? c := vec_get (n_children pn) s in Ok (Some (raw (c_arena c)))
        end in
      if decide (cu_offset pos = 0) then
        Ok (mkSI (Some pos) lft pi slot None, t)
      else if decide (cu_offset pos = rle_len (l_elem lf)) then
        let? np :=
          match n_children pn !! S slot with
          | Some c => Ok (Some (mkCur (raw (c_arena c)) 0))
          | None => next_elem t pos
          end in
        Ok (mkSI np lft pi (S slot) None, t)
      else
        let? _ := rassert (bool_decide (cu_offset pos < rle_len (l_elem lf))) in
        if decide (12 <= length (n_children pn) + 1) then
          let? t := split t (AInt pi) in
          split_leaf_f f' t pos
        else
          let? (e1, e2) := e_split (l_elem lf) (cu_offset pos) in
          let t := set_lf t (cu_leaf pos) (with_elem lf e1) in
          let (nl, t) := ins_lf t (mkLeaf e2 pi) in
          let? cs := set_child_cache (n_children pn) slot (get_elem_cache e1) in
          let? cs := vec_insert 12 cs (S slot) (mkChild (ALeaf nl) (get_elem_cache e2)) in
          let t := set_in t pi (with_children pn cs) in
          Ok (mkSI (Some (mkCur nl 0)) lft pi (S slot) (Some (ALeaf nl)), t)
  end.
(** the recursive call happens at most once on a well-formed tree *)
Definition split_leaf_if_needed (t : btree) (pos : cursor) : res (split_info * btree) :=
  split_leaf_f 3 t pos.

(** recursive_update_cache_with_diff — lib.rs:2275-2287 *)
Fixpoint ruc_diff_f (f : nat) (t : btree) (x : aidx) (d : Diff) : res btree :=
  match f with
  | 0 => OutOfFuel
  | S f' =>
      let? n := get_internal t x in
      match n_parent n with
      | Some p =>
          let? pi := unwrap_internal p in
          let? pn := get_in t pi in
          let? cs := apply_child_cache (n_children pn) (n_slot n) d in
          ruc_diff_f f' (set_in t pi (with_children pn cs)) p d
      | None =>
          let? c := apply_cache_diff (root_cache t) d in
          Ok (set_root_cache t c)
      end
  end.
Definition recursive_update_cache_with_diff (t : btree) (x : aidx) (d : Diff) : res btree :=
  ruc_diff_f (fuel t) t x d.

(** one step of [this.calc_cache(&mut parent.children[this_arr].cache, None)], with the
    [get2_mut] of lib.rs:1956-1961 (panics when both indices are equal) *)
Definition calc_into_parent (t : btree) (pi i : nat) (n : node) (d : option Diff)
  : res (Diff * btree) :=
  let? _ := rassert (negb (bool_decide (pi = i))) in
  let? pn := get_in t pi in
  let? ch := vec_get (n_children pn) (n_slot n) in
  let? (c, d) := calc_cache n (c_cache ch) d in
  Ok (d, set_in t pi (with_children pn (<[n_slot n := mkChild (c_arena ch) c]> (n_children pn)))).

(** the [while] loop of recursive_update_cache — lib.rs:2256-2263 *)
Fixpoint ruc_loop_f (f : nat) (t : btree) (i : nat) : res btree :=
  match f with
  | 0 => OutOfFuel
  | S f' =>
      let? n := get_in t i in
      match n_parent n with
      | Some p =>
          let? pi := unwrap_internal p in
          let? (_, t) := calc_into_parent t pi i n None in
          ruc_loop_f f' t pi
      | None => Ok t
      end
  end.

(** lib.rs:2266-2272; update_root_cache — 1505-1510 *)
Definition calc_root (t : btree) (d : option Diff) : res btree :=
  let? r := get_internal t (root t) in
  let? (c, _) := calc_cache r (root_cache t) d in
  Ok (set_root_cache t c).
Definition update_root_cache (t : btree) : res btree := calc_root t None.

(** [children.iter_mut().find(|x| x.arena.unwrap_leaf() == index).unwrap().cache = cache] *)
Definition set_leaf_cache (cs : list child) (l : nat) (c : Cache) : res (list child) :=
  let? i := leaf_slot_from cs l 0 in set_child_cache cs i c.

(** recursive_update_cache — lib.rs:2220-2273 *)
Definition recursive_update_cache (t : btree) (x : aidx) (can_use_diff : bool) (d : option Diff)
  : res btree :=
  let? (i, t) :=
    match x with
    | ALeaf l =>
        let? lf := get_lf t l in
        let? pn := get_in t (l_parent lf) in
        let? cs := set_leaf_cache (n_children pn) l (get_elem_cache (l_elem lf)) in
        Ok (l_parent lf, set_in t (l_parent lf) (with_children pn cs))
    | AInt i => Ok (i, t)
    end in
  match can_use_diff, d with
  | true, Some d => recursive_update_cache_with_diff t (AInt i) d
  | true, None =>
      let? n := get_in t i in
      match n_parent n with
      | Some p =>
          let? pi := unwrap_internal p in
          let? (d, t) := calc_into_parent t pi i n None in
          recursive_update_cache_with_diff t p d
      | None => calc_root t None
      end
  | false, _ =>
      let? t := ruc_loop_f (fuel t) t i in
      calc_root t None
  end.

(** SplittedLeaves::push / push_option — lib.rs:280-292 *)
Definition sl_push (s : list nat) (a : aidx) : res (list nat) := vec_push 2 s (raw a).
Definition sl_push_option (s : list nat) (a : option aidx) : res (list nat) :=
  match a with Some a => sl_push s a | None => Ok s end.

(** insert_by_path — lib.rs:510-568 *)
Definition insert_by_path (t : btree) (cur : cursor) (data : Elem)
  : res (cursor * list nat * btree) :=
  let index := cu_leaf cur in
  let? lf := get_lf t index in
  let cache_diff :=
    if USE_DIFF (b := B) then Some (new_cache_to_diff (get_elem_cache data)) else None in
  let? ti := try_insert (l_elem lf) (cu_offset cur) data in
  let? (ans, sl, pidx, full, t) :=
    match ti with
    | inl e' => Ok (cur, [], l_parent lf, false, set_lf t index (with_elem lf e'))
    | inr data =>
        if bool_decide (cu_offset cur = 0) && can_merge data (l_elem lf) then
          let? e' := merge_left (l_elem lf) data in
          Ok (mkCur index 0, [], l_parent lf, false, set_lf t index (with_elem lf e'))
        else if bool_decide (cu_offset cur = rle_len (l_elem lf)) && can_merge (l_elem lf) data then
          let? e' := merge_right (l_elem lf) data in
          Ok (mkCur index (rle_len (l_elem lf)), [], l_parent lf, false,
              set_lf t index (with_elem lf e'))
        else
          let? (si, t) := split_leaf_if_needed t cur in
          let (ch, t) := alloc_leaf_child t data (si_parent si) in
          let? sl := sl_push_option [] (si_new_leaf si) in
          let? pn := get_in t (si_parent si) in
          let? cs := vec_insert 12 (n_children pn) (si_slot si) ch in
          let pn := with_children pn cs in
          let t := set_in t (si_parent si) pn in
          Ok (mkCur (raw (c_arena ch)) 0, sl, si_parent si, is_full pn, t)
    end in
  let? t := recursive_update_cache t (ALeaf index) (USE_DIFF (b := B)) cache_diff in
  let? t := if (full : bool) then split t (AInt pidx) else Ok t in
  Ok (ans, sl, t).

(** first_leaf — lib.rs:1676-1690; last_leaf — 1692-1706 *)
Fixpoint first_leaf_f (f : nat) (t : btree) (i : nat) : res (option nat) :=
  match f with
  | 0 => OutOfFuel
  | S f' =>
      let? n := get_in t i in
      match head (n_children n) with
      | None => Ok None
      | Some c => match c_arena c with ALeaf l => Ok (Some l) | AInt m => first_leaf_f f' t m end
      end
  end.
Definition first_leaf (t : btree) : res (option nat) :=
  let? r := unwrap_internal (root t) in first_leaf_f (fuel t) t r.
Fixpoint last_leaf_f (f : nat) (t : btree) (i : nat) : res (option nat) :=
  match f with
  | 0 => OutOfFuel
  | S f' =>
      let? n := get_in t i in
      match last (n_children n) with
      | None => Ok None
      | Some c => match c_arena c with ALeaf l => Ok (Some l) | AInt m => last_leaf_f f' t m end
      end
  end.
Definition last_leaf (t : btree) : res (option nat) :=
  let? r := unwrap_internal (root t) in last_leaf_f (fuel t) t r.

(** push — lib.rs:2466-2520 *)
Definition push (t : btree) (elem : Elem) : res (cursor * btree) :=
  let cache := get_elem_cache elem in
  let? emp := is_empty t in
  let? (ans, upd, pidx, full, t) :=
    if (emp : bool) then
      let? r := unwrap_internal (root t) in
      let (ch, t) := alloc_leaf_child t elem r in
      let? pn := get_in t r in
      let? cs := vec_push 12 (n_children pn) ch in
      Ok (mkCur (raw (c_arena ch)) 0, root t, root t, false, set_in t r (with_children pn cs))
    else
      let? ol := last_leaf t in
      let? l := ropt ol in
      let? lf := get_lf t l in
      if can_merge (l_elem lf) elem then
        let? e' := merge_right (l_elem lf) elem in
        Ok (mkCur l (rle_len (l_elem lf)), ALeaf l, AInt (l_parent lf), false,
            set_lf t l (with_elem lf e'))
      else
        let p := l_parent lf in
        let (ch, t) := alloc_leaf_child t elem p in
        let? pn := get_in t p in
        let? cs := vec_push 12 (n_children pn) ch in
        let pn := with_children pn cs in
        Ok (mkCur (raw (c_arena ch)) 0, AInt p, AInt p, is_full pn, set_in t p pn) in
  let? t := recursive_update_cache t upd (USE_DIFF (b := B))
              (if USE_DIFF (b := B) then Some (new_cache_to_diff cache) else None) in
  let? t := if (full : bool) then split t pidx else Ok t in
  Ok (ans, t).

(** prepend — lib.rs:2522-2562 *)
Definition prepend (t : btree) (elem : Elem) : res (cursor * btree) :=
  let? ol := first_leaf t in
  match ol with
  | None =>
      let? r := unwrap_internal (root t) in
      let (ch, t) := alloc_leaf_child t elem r in
      let? pn := get_in t r in
      let? cs := vec_push 12 (n_children pn) ch in
      Ok (mkCur (raw (c_arena ch)) 0, set_in t r (with_children pn cs))
  | Some l =>
      let? lf := get_lf t l in
      let p := l_parent lf in
      let? (ans, full, t) :=
        if can_merge elem (l_elem lf) then
          let? e' := merge_left (l_elem lf) elem in
          Ok (mkCur l 0, false, set_lf t l (with_elem lf e'))
        else
          let (ch, t) := alloc_leaf_child t elem p in
          let? pn := get_in t p in
          let? cs := vec_insert 12 (n_children pn) 0 ch in
          let pn := with_children pn cs in
          Ok (mkCur (raw (c_arena ch)) 0, is_full pn, set_in t p pn) in
      let? t := recursive_update_cache t (ALeaf l) (USE_DIFF (b := B)) None in
      let? t := if (full : bool) then split t (AInt p) else Ok t in
      Ok (ans, t)
  end.

(** query / query_with_finder_return — lib.rs:873-920 *)
Fixpoint query_f (Q : Query B) (f : nat) (t : btree) (i : nat) (s : Qst Q) (q : QArg Q) (found : bool)
  : res (option qresult * Qst Q) :=
  match f with
  | 0 => OutOfFuel
  | S f' =>
      let? n := get_in t i in
      let? (ix, _, fd, s) := q_find Q s q (n_children n) in
      let? _ := rassert (negb (n_is_empty n)) in              (* debug_assert!, 894 *)
      let found := found && fd in
      let? c := vec_get (n_children n) ix in
      match c_arena c with
      | AInt m => query_f Q f' t m s q found
      | ALeaf l =>
          let? lf := get_lf t l in
          match q_confirm Q s q (l_elem lf) with
          | (off, lfound, s) => Ok (Some (mkQR (mkCur l off) (found && lfound)), s)
          end
      end
  end.
Definition query_with_finder_return (Q : Query B) (t : btree) (q : QArg Q)
  : res (option qresult * Qst Q) :=
  let s := q_init Q q in
  let? emp := is_empty t in
  if (emp : bool) then Ok (None, s)
  else let? r := Ok (raw (root t)) in query_f Q (fuel t) t r s q true.
Definition query (Q : Query B) (t : btree) (q : QArg Q) : res (option qresult) :=
  let? (r, _) := query_with_finder_return Q t q in Ok r.

(** insert — lib.rs:499-508 *)
Definition insert (Q : Query B) (t : btree) (q : QArg Q) (data : Elem)
  : res (cursor * list nat * btree) :=
  let? r := query Q t q in
  match r with
  | None => let? (c, t) := push t data in Ok (c, [], t)
  | Some r => insert_by_path t (qr_cursor r) data
  end.

(** range — lib.rs:1708-1717 *)
Definition range (Q : Query B) (t : btree) (a b : QArg Q) : res (option (qresult * qresult)) :=
  let? emp := is_empty t in
  if (emp : bool) then Ok None
  else
    let? ra := query Q t a in let? ra := ropt ra in
    let? rb := query Q t b in let? rb := ropt rb in
    Ok (Some (ra, rb)).

(** purge — lib.rs:2289-2306.  The fuel is the number of stack pops that can occur:
    one for the start plus one per child entry of any internal node. *)
Fixpoint purge_f (f : nat) (t : btree) (stack : list aidx) : res btree :=
  match stack with
  | [] => Ok t
  | x :: stack =>
      match f with
      | 0 => OutOfFuel
      | S f' =>
          match x with
          | ALeaf l => purge_f f' (rem_lf t l) stack
          | AInt i =>
              match a_get (in_nodes t) i with
              | None => purge_f f' t stack
              | Some n => purge_f f' (rem_in t i) (rev (map c_arena (n_children n)) ++ stack)
              end
          end
      end
  end.
Definition total_children (t : btree) : nat :=
  map_fold (fun _ (n : node) acc => length (n_children n) + acc) 0 (amap (in_nodes t)).
Definition purge (t : btree) (x : aidx) : res btree :=
  purge_f (S (total_children t)) t [x].

(** reset_children_parent_pointer — lib.rs:2183-2198 *)
Fixpoint reset_pp (t : btree) (cs : list child) (p : nat) : res btree :=
  match cs with
  | [] => Ok t
  | c :: cs' =>
      match c_arena c with
      | AInt m => let? n := get_in t m in reset_pp (set_in t m (with_parent n (Some (AInt p)))) cs' p
      | ALeaf l => let? lf := get_lf t l in reset_pp (set_lf t l (with_lparent lf p)) cs' p
      end
  end.
Definition reset_children_parent_pointer (t : btree) (p : aidx) : res btree :=
  let? pi := unwrap_internal p in
  let? pn := get_in t pi in reset_pp t (n_children pn) pi.

(** try_reduce_levels — lib.rs:2159-2181 *)
Fixpoint reduce_f (f : nat) (t : btree) (reduced : bool) : res (bool * btree) :=
  match f with
  | 0 => OutOfFuel
  | S f' =>
      let? r := unwrap_internal (root t) in
      let? rn := get_in t r in
      match n_children rn with
      | [c] =>
          match c_arena c with
          | ALeaf _ => Ok (reduced, t)
          | AInt m =>
              let? cn := get_in t m in
              let t := rem_in t m in
              let? _ := get_in t r in
              reduce_f f' (set_in t r cn) true
          end
      | _ => Ok (reduced, t)
      end
  end.
Definition try_reduce_levels (t : btree) : res btree :=
  let? (reduced, t) := reduce_f (fuel t) t false in
  if (reduced : bool) then
    let? r := unwrap_internal (root t) in
    let? rn := get_in t r in
    let t := set_in t r (mkNode None U8_MAX (n_children rn)) in
    reset_children_parent_pointer t (root t)
  else Ok t.

(** pair_neighbor — lib.rs:2200-2216 *)
Definition pair_neighbor (t : btree) (x : aidx) : res (option (idx * idx)) :=
  let? n := get_internal t x in
  let? p := ropt (n_parent n) in
  let? pn := get_internal t p in
  match n_slot n with
  | 0 => Ok ((fun c => (mkIdx x 0, mkIdx (c_arena c) 1)) <$> n_children pn !! 1)
  | S s => Ok ((fun c => (mkIdx (c_arena c) s, mkIdx x (S s))) <$> n_children pn !! s)
  end.

(** re_parent map of handle_lack_single_layer — entries (child, parent, slot) in the
    order of insertion, a later entry for the same child overrides an earlier one; applied
    in that order (the iteration order of the FxHashMap is irrelevant: distinct keys). *)
Fixpoint apply_re_parent (t : btree) (m : list (aidx * nat * nat)) : res btree :=
  match m with
  | [] => Ok t
  | (AInt i, p, s) :: m' =>
      let? n := get_in t i in
      apply_re_parent (set_in t i (mkNode (Some (AInt p)) s (n_children n))) m'
  | (ALeaf l, p, s) :: m' =>
      let? lf := get_lf t l in
      apply_re_parent (set_lf t l (with_lparent lf p)) m'
  end.
Definition re_entries (cs : list child) (p : nat) (from : nat) : list (aidx * nat * nat) :=
  imap (fun i c => (c_arena c, p, from + i)) cs.

(** handle_lack_single_layer — lib.rs:1996-2157; returns [parent_lack].
    Simplification: the two [mem::take]s of the parent's entry caches (2018-2019) are
    reads, both entries are overwritten or removed before being read again. *)
Definition handle_lack_single_layer (t : btree) (x : aidx) : res (option aidx * btree) :=
  if decide (root t = x) then
    let? t := try_reduce_levels t in Ok (None, t)
  else
    let? xi := unwrap_internal x in
    let? n := get_in t xi in
    let? p := ropt (n_parent n) in
    let? pi := unwrap_internal p in
    let? pn := get_in t pi in
    let? c0 := vec_get (n_children pn) (n_slot n) in
    let? _ := rassert (bool_decide (c_arena c0 = x)) in         (* debug_assert_eq!, 2005 *)
    match n_children n with
    | [] =>
        let slot := n_slot n in
        let? (_, cs) := vec_remove (n_children pn) slot in
        let t := set_in t pi (with_children pn cs) in
        let t := rem_in t xi in
        let? t := update_children_parent_slot_from t p slot in
        Ok (Some p, t)
    | _ =>
        let? pr := pair_neighbor t x in
        match pr with
        | None => Ok (Some p, t)
        | Some (a_idx, b_idx) =>
            let? ca := vec_get (n_children pn) (i_arr a_idx) in
            let? cb := vec_get (n_children pn) (i_arr b_idx) in
            let? ai := unwrap_internal (i_arena a_idx) in
            let? bi := unwrap_internal (i_arena b_idx) in
            let? _ := rassert (negb (bool_decide (ai = bi))) in
            let? a := get_in t ai in
            let? b := get_in t bi in
            let A := n_children a in
            let Bc := n_children b in
            if decide (12 <= length A + length Bc) then
              let? (A', B', re) :=
                if decide (length A < length Bc) then
                  let ml := (length Bc - length A) / 2 in
                  let A' := A ++ take ml Bc in
                  let? _ := rassert (bool_decide (length A' <= 12)) in
                  let? B' := delete_range Bc 0 ml in
                  Ok (A', B', re_entries (take ml Bc) ai (length A) ++ re_entries B' bi 0)
                else
                  let ml := (length A - length Bc) / 2 in
                  let B' := drop (length A - ml) A ++ Bc in
                  let? _ := rassert (bool_decide (length B' <= 12)) in
                  let? A' := delete_range A (length A - ml) (length A) in
                  Ok (A', B', re_entries Bc bi ml ++ re_entries B' bi 0) in
              let a' := with_children a A' in
              let b' := with_children b B' in
              let t := set_in (set_in t ai a') bi b' in
              let? (ac, _) := calc_cache a' (c_cache ca) None in
              let? (bc, _) := calc_cache b' (c_cache cb) None in
              let? pn := get_in t pi in
              let? cs := set_child_cache (n_children pn) (i_arr a_idx) ac in
              let? cs := set_child_cache cs (i_arr b_idx) bc in
              let pn := with_children pn cs in
              let t := set_in t pi pn in
              let? t := apply_re_parent t re in
              Ok (if is_lack pn then Some p else None, t)
            else
              let? _ := rassert (bool_decide (length (A ++ Bc) <= 12)) in
              let? (lack, re, t) :=
                if decide (x = i_arena a_idx) then
                  (* merge b to a, delete b *)
                  let a' := with_children a (A ++ Bc) in
                  let t := set_in (set_in t ai a') bi (with_children b []) in
                  let? (ac, _) := calc_cache a' (c_cache ca) None in
                  let? pn := get_in t pi in
                  let? cs := set_child_cache (n_children pn) (i_arr a_idx) ac in
                  let? (_, cs) := vec_remove cs (i_arr b_idx) in
                  let pn := with_children pn cs in
                  let t := set_in t pi pn in
                  let? t := purge t (AInt bi) in
                  let? t := update_children_parent_slot_from t p (i_arr b_idx) in
                  Ok (is_lack pn, re_entries Bc ai (length A), t)
                else
                  (* merge a to b, delete a *)
                  let b' := with_children b (A ++ Bc) in
                  let t := set_in (set_in t ai (with_children a [])) bi b' in
                  let? (bc, _) := calc_cache b' (c_cache cb) None in
                  let? pn := get_in t pi in
                  let? cs := set_child_cache (n_children pn) (i_arr b_idx) bc in
                  let? (_, cs) := vec_remove cs (i_arr a_idx) in
                  let pn := with_children pn cs in
                  let t := set_in t pi pn in
                  let? t := purge t (AInt ai) in
                  let? t := update_children_parent_slot_from t p (i_arr a_idx) in
                  Ok (is_lack pn, re_entries A bi 0 ++ re_entries Bc bi (length A), t) in
              let? t := apply_re_parent t re in
              Ok (if (lack : bool) then Some p else None, t)
        end
    end.

(** handle_lack_recursively — lib.rs:1985-1990 *)
Fixpoint handle_lack_f (f : nat) (t : btree) (x : aidx) : res btree :=
  match f with
  | 0 => OutOfFuel
  | S f' =>
      let? (o, t) := handle_lack_single_layer t x in
      match o with Some p => handle_lack_f f' t p | None => Ok t end
  end.
Definition handle_lack_recursively (t : btree) (x : aidx) : res btree :=
  handle_lack_f (fuel t) t x.

(** remove_internal_node — lib.rs:955-976 *)
Fixpoint remove_internal_f (f : nat) (t : btree) (i : nat) : res btree :=
  match f with
  | 0 => OutOfFuel
  | S f' =>
      if decide (i = raw (root t)) then Ok t
      else
        let? n := get_in t i in
        let t := rem_in t i in
        let? p := ropt (n_parent n) in
        let? pi := unwrap_internal p in
        let? pn := get_in t pi in
        let? (_, cs) := vec_remove (n_children pn) (n_slot n) in
        let pn := with_children pn cs in
        let t := set_in t pi pn in
        let? t := update_children_parent_slot_from t p (n_slot n) in
        if n_is_empty pn then remove_internal_f f' t pi
        else if is_lack pn then handle_lack_recursively t p
        else Ok t
  end.
Definition remove_internal_node (t : btree) (i : nat) : res btree :=
  remove_internal_f (fuel t) t i.

(** remove_leaf — lib.rs:934-953 *)
Definition remove_leaf (t : btree) (path : cursor) : res (option Elem * btree) :=
  match a_get (leaf_nodes t) (cu_leaf path) with
  | None => Ok (None, t)
  | Some lf =>
      let p := l_parent lf in
      let? pn := get_in t p in
      let? index := get_leaf_slot (cu_leaf path) pn in
      let? (ch, cs) := vec_remove (n_children pn) index in
      let pn := with_children pn cs in
      let t := set_in t p pn in
      let? _ := rassert (bool_decide (raw (c_arena ch) = cu_leaf path)) in   (* debug_assert_eq!, 942 *)
      let? rl := get_lf t (raw (c_arena ch)) in
      let t := rem_lf t (raw (c_arena ch)) in
      let? t := recursive_update_cache t (AInt p) (USE_DIFF (b := B)) None in
      let? t :=
        if n_is_empty pn then remove_internal_node t p
        else if is_lack pn then handle_lack_recursively t (AInt p)
        else Ok t in
      Ok (Some (l_elem rl), t)
  end.

(** ** Paths *)

(** next_sibling — lib.rs:2312-2336, on a leaf-first path *)
Fixpoint next_sibling_rev (t : btree) (p : list idx) : res (option (list idx)) :=
  match p with
  | [] => Ok None
  | this :: rest =>
      match rest with
      | [] => Ok None
      | par :: _ =>
          let? pn := get_internal t (i_arena par) in
          match n_children pn !! S (i_arr this) with
          | Some c => Ok (Some (mkIdx (c_arena c) (S (i_arr this)) :: rest))
          | None =>
              let? o := next_sibling_rev t rest in
              match o with
              | None => Ok None
              | Some rest' =>
                  let? par' := ropt (head rest') in
                  let? qn := get_internal t (i_arena par') in
                  let? c := vec_get (n_children qn) 0 in
                  Ok (Some (mkIdx (c_arena c) 0 :: rest'))
              end
          end
      end
  end.
(** on a root-first path (the order of NodePath) *)
Definition next_sibling (t : btree) (p : list idx) : res (option (list idx)) :=
  let? o := next_sibling_rev t (rev p) in Ok (@rev idx <$> o).

(** get_path — lib.rs:2442-2464; the pushes panic beyond the capacity 10 of NodePath *)
Fixpoint get_path_f (f : nat) (t : btree) (x : aidx) (acc : list idx) : res (list idx) :=
  match f with
  | 0 => OutOfFuel
  | S f' =>
      if decide (x = root t) then vec_push 10 acc (mkIdx (root t) 0)
      else
        match x with
        | ALeaf l =>
            let? lf := get_lf t l in
            let? pn := get_in t (l_parent lf) in
            let? s := get_leaf_slot l pn in
            let? acc := vec_push 10 acc (mkIdx x s) in
            get_path_f f' t (AInt (l_parent lf)) acc
        | AInt i =>
            let? n := get_in t i in
            let? acc := vec_push 10 acc (mkIdx x (n_slot n)) in
            let? p := ropt (n_parent n) in
            get_path_f f' t p acc
        end
  end.
Definition get_path (t : btree) (x : aidx) : res (list idx) :=
  let? p := get_path_f (S (fuel t)) t x [] in Ok (rev p).

(** first_path — lib.rs:1622-1646; last_path (1648-1674) is the mirror image and unused *)
Fixpoint first_path_f (f : nat) (t : btree) (x : aidx) (acc : list idx) : res (list idx) :=
  match f with
  | 0 => OutOfFuel
  | S f' =>
      let? acc := vec_push 10 acc (mkIdx x 0) in
      match x with
      | ALeaf _ => Ok acc
      | AInt i =>
          let? n := get_in t i in
          let? c := vec_get (n_children n) 0 in
          first_path_f f' t (c_arena c) acc
      end
  end.
Definition first_path (t : btree) : res (option (list idx)) :=
  let? r := get_internal t (root t) in
  if n_is_empty r then Ok None
  else let? p := first_path_f (S (fuel t)) t (root t) [] in Ok (Some p).

(** [leaf_nodes.get(child.arena.unwrap_leaf()).unwrap().elem] for a list of children *)
Fixpoint elems_of_children (t : btree) (cs : list child) : res (list Elem) :=
  match cs with
  | [] => Ok []
  | c :: cs' =>
      let? lf := get_leaf t (c_arena c) in
      let? es := elems_of_children t cs' in Ok (l_elem lf :: es)
  end.

(** iter — lib.rs:1581-1610; the list of all items the iterator yields.
    Simplification: the iterator is run to exhaustion. *)
Fixpoint iter_f (f : nat) (t : btree) (path : list idx) : res (list Elem) :=
  match f with
  | 0 => OutOfFuel
  | S f' =>
      let? ix := ropt (last path) in
      let? n := get_internal t (i_arena ix) in
      let? es := elems_of_children t (n_children n) in
      let? o := next_sibling t path in
      match o with
      | None => Ok es
      | Some path => let? r := iter_f f' t path in Ok (es ++ r)
      end
  end.
Definition iter (t : btree) : res (list Elem) :=
  let? o := first_path t in
  match o with
  | None => let? _ := get_internal t (root t) in Ok []
  | Some p => iter_f (fuel t) t (removelast p)
  end.

(** start_cursor / end_cursor — lib.rs:1770-1784 *)
Definition start_cursor (t : btree) : res (option cursor) :=
  let? o := first_leaf t in Ok ((fun l => mkCur l 0) <$> o).
Definition end_cursor (t : btree) : res (option cursor) :=
  let? o := last_leaf t in
  match o with
  | None => Ok None
  | Some l => let? lf := get_lf t l in Ok (Some (mkCur l (rle_len (l_elem lf))))
  end.

(** iter::Iter — /repo/src/iter.rs:6-12, 290-322, run to exhaustion:
    the leaves (index, node) visited from [path] to the inclusive [last_end]. *)
Fixpoint leaf_iter_f (f : nat) (t : btree) (path : list idx) (iend : option idx)
  : res (list (nat * leafn)) :=
  match f with
  | 0 => OutOfFuel
  | S f' =>
      let? lst := ropt (last path) in
      let done := bool_decide (iend = Some lst) in
      let? o := next_sibling t path in
      let? l := unwrap_leaf (i_arena lst) in
      let? lf := get_lf t l in
      if done then Ok [(l, lf)]
      else match o with
           | None => Ok [(l, lf)]
           | Some path => let? r := leaf_iter_f f' t path iend in Ok ((l, lf) :: r)
           end
  end.

(** ElemSlice — lib.rs:194-200 *)
Record elem_slice : Type := mkES {
  es_cursor : cursor; es_elem : Elem; es_start : option nat; es_end : option nat }.

(** _iter_range — lib.rs:1736-1768 *)
Definition iter_range_ (t : btree) (st en : cursor) (inclusive : bool) : res (list elem_slice) :=
  let? ps := get_path t (ALeaf (cu_leaf st)) in
  let? pe := get_path t (ALeaf (cu_leaf en)) in
  let? ls := leaf_iter_f (S (anext (leaf_nodes t))) t ps (last pe) in
  Ok (omap (fun '(l, lf) =>
        if bool_decide (cu_leaf en = l) && bool_decide (cu_offset en = 0) && negb inclusive
        then None
        else Some (mkES (mkCur l 0) (l_elem lf)
               (if decide (cu_leaf st = l) then Some (cu_offset st) else None)
               (if decide (cu_leaf en = l) then Some (cu_offset en) else None))) ls).

(** RangeBounds<Cursor> and iter_range — lib.rs:1719-1734 *)
Inductive bound : Type := Included (c : cursor) | Excluded (c : cursor) | Unbounded.
Definition iter_range (t : btree) (a b : bound) : res (list elem_slice) :=
  let? st := match a with
             | Included c => Ok c
             | Excluded _ => Panic
             | Unbounded => let? o := start_cursor t in ropt o
             end in
  let? (inc, en) := match b with
             | Included c => Ok (true, c)
             | Excluded c => Ok (false, c)
             | Unbounded => let? o := end_cursor t in let? c := ropt o in Ok (true, c)
             end in
  iter_range_ t st en inc.

(** prefer_right / prefer_left — lib.rs:1064-1097 *)
Definition prefer_right (t : btree) (c : cursor) : res (option cursor) :=
  if decide (cu_offset c = 0) then Ok (Some c)
  else
    let? lf := get_lf t (cu_leaf c) in
    if decide (cu_offset c = rle_len (l_elem lf)) then next_elem t c else Ok (Some c).
Definition prefer_left (t : btree) (c : cursor) : res (option cursor) :=
  if decide (cu_offset c = 0) then
    let? o := prev_elem t c in
    match o with
    | Some e => let? lf := get_lf t (cu_leaf e) in Ok (Some (mkCur (cu_leaf e) (rle_len (l_elem lf))))
    | None => Ok None
    end
  else Ok (Some c).

(** shift_path_by_one_offset — lib.rs:821-860 *)
Fixpoint shift_f (f : nat) (t : btree) (pi : nat) (pn : node) (slot off : nat) : res (option cursor) :=
  match f with
  | 0 => OutOfFuel
  | S f' =>
      let? o :=
        if decide (slot = length (n_children pn)) then
          let? o := next_same_level_in_node t (AInt pi) in
          match o with
          | Some nx =>
              let? ni := unwrap_internal nx in
              let? nn := get_in t ni in Ok (Some (ni, nn, 0, 0))
          | None => Ok None
          end
        else Ok (Some (pi, pn, slot, off)) in
      match o with
      | None => Ok None
      | Some (pi, pn, slot, off) =>
          let? c := vec_get (n_children pn) slot in
          let? lf := get_lf t (raw (c_arena c)) in
          if decide (rle_len (l_elem lf) <= off) then
            shift_f f' t pi pn (S slot) (off - rle_len (l_elem lf))
          else let? l := unwrap_leaf (c_arena c) in Ok (Some (mkCur l off))
      end
  end.
Definition shift_path_by_one_offset (t : btree) (c : cursor) : res (option cursor) :=
  let? lf := get_lf t (cu_leaf c) in
  if decide (cu_offset c + 1 < rle_len (l_elem lf)) then
    Ok (Some (mkCur (cu_leaf c) (cu_offset c + 1)))
  else
    let? pn := get_in t (l_parent lf) in
    let? slot := get_leaf_slot (cu_leaf c) pn in
    shift_f (S (S (anext (leaf_nodes t)))) t (l_parent lf) pn slot (cu_offset c + 1).

(** compare_pos — lib.rs:2565-2591 *)
Fixpoint cmp_children (cs : list child) (a b : nat) : option comparison :=
  match cs with
  | [] => None
  | c :: cs' =>
      if decide (raw (c_arena c) = a) then Some Lt
      else if decide (raw (c_arena c) = b) then Some Gt
      else cmp_children cs' a b
  end.
Fixpoint cmp_up_f (f : nat) (t : btree) (na nb : node) : res comparison :=
  match f with
  | 0 => OutOfFuel
  | S f' =>
      if decide (n_parent na = n_parent nb) then Ok (Nat.compare (n_slot na) (n_slot nb))
      else
        let? pa := ropt (n_parent na) in
        let? na := get_internal t pa in
        let? pb := ropt (n_parent nb) in
        let? nb := get_internal t pb in
        cmp_up_f f' t na nb
  end.
Definition compare_pos (t : btree) (a b : cursor) : res comparison :=
  if decide (cu_leaf a = cu_leaf b) then Ok (Nat.compare (cu_offset a) (cu_offset b))
  else
    let? la := get_lf t (cu_leaf a) in
    let? lb := get_lf t (cu_leaf b) in
    let? na := get_in t (l_parent la) in
    match (if decide (l_parent la = l_parent lb)
           then cmp_children (n_children na) (cu_leaf a) (cu_leaf b) else None) with
    | Some r => Ok r
    | None =>
        let? nb := get_in t (l_parent lb) in
        cmp_up_f (fuel t) t na nb
    end.

(** visit_previous_caches — lib.rs:2598-2633, PreviousCache — 2760-2764 (the variant
    PrevSiblingElem is never produced).  The model returns the sequence of arguments
    with which the callback is called.  The inner [while] and the outer [loop] are fused. *)
Inductive pcache : Type :=
| NodeCache (c : Cache)
| ThisElemAndOffset (e : Elem) (off : nat).
Fixpoint vpc_f (f : nat) (t : btree) (path : list idx) (pi ci : nat) (n : node) : res (list pcache) :=
  match f with
  | 0 => OutOfFuel
  | S f' =>
      match path !! S pi with
      | None => Ok []
      | Some nx =>
          if decide (ci = i_arr nx) then
            if decide (S (S pi) < length path) then
              let? n := get_internal t (i_arena nx) in vpc_f f' t path (S pi) 0 n
            else Ok []
          else
            let? c := vec_get (n_children n) ci in
            let? r := vpc_f f' t path pi (S ci) n in
            Ok (NodeCache (c_cache c) :: r)
      end
  end.
Definition visit_previous_caches (t : btree) (c : cursor) : res (list pcache) :=
  let? path := get_path t (ALeaf (cu_leaf c)) in
  let? hd := vec_get path 0 in
  let? n := get_internal t (i_arena hd) in
  let? r := vpc_f (S (S (length path) + sum_list (map i_arr path))) t path 0 0 n in
  let? lf := get_lf t (cu_leaf c) in
  Ok (r ++ [ThisElemAndOffset (l_elem lf) (cu_offset c)]).

(** depth — lib.rs:2709-2723 *)
Fixpoint depth_f (f : nat) (t : btree) (i : nat) : res nat :=
  match f with
  | 0 => OutOfFuel
  | S f' =>
      let? n := get_in t i in
      let? c := ropt (head (n_children n)) in
      match c_arena c with
      | ALeaf _ => Ok 1
      | AInt m => let? d := depth_f f' t m in Ok (S d)
      end
  end.
Definition depth (t : btree) : res nat :=
  let? r := unwrap_internal (root t) in depth_f (fuel t) t r.

(** get_elem — lib.rs:927-929; get_elem_mut — 922-925 (write of a new element) *)
Definition get_elem (t : btree) (l : nat) : option Elem := l_elem <$> a_get (leaf_nodes t) l.

(** ** In-place updates *)

(** update_dirty_cache_map — lib.rs:1512-1560.  [ord] is the (arbitrary) iteration order
    of the hash set [visit_set]. *)
Definition dirty_step (child_idx : aidx) (st : btree * gmap aidx Diff * gset aidx)
  : res (btree * gmap aidx Diff * gset aidx) :=
  let '(t, dm, vs) := st in
  let? o :=
    match child_idx with
    | ALeaf l =>
        let? lf := get_lf t l in
        let p := l_parent lf in
        let? pn := get_in t p in
        let? d := ropt (dm !! child_idx) in
        let dm := delete child_idx dm in
        let? t :=
          match find_index (fun c => bool_decide (c_arena c = child_idx)) (n_children pn) with
          | Some i =>
              let? cs := apply_child_cache (n_children pn) i d in
              Ok (set_in t p (with_children pn cs))
          | None => Ok t
          end in
        Ok (Some (AInt p, d, t, dm))
    | AInt i =>
        let? n := get_in t i in
        match n_parent n with
        | None => Ok None
        | Some p =>
            let? pi := unwrap_internal p in
            let? (d, t) := calc_into_parent t pi i n (dm !! child_idx) in
            Ok (Some (p, d, t, delete child_idx dm))
        end
    end in
  match o with
  | None => Ok (t, dm, vs)
  | Some (p, d, t, dm) =>
      let dm := match dm !! p with
                | Some e => <[p := merge_cache_diff e d]> dm
                | None => <[p := d]> dm
                end in
      Ok (t, dm, {[p]} ∪ vs)
  end.
Fixpoint dirty_level (xs : list aidx) (st : btree * gmap aidx Diff * gset aidx)
  : res (btree * gmap aidx Diff * gset aidx) :=
  match xs with
  | [] => Ok st
  | x :: xs' => let? st := dirty_step x st in dirty_level xs' st
  end.
Fixpoint dirty_f (ord : list aidx -> list aidx) (f : nat) (t : btree) (dm : gmap aidx Diff)
  (vs : gset aidx) : res btree :=
  if decide (vs = ∅) then Ok t
  else match f with
  | 0 => OutOfFuel
  | S f' =>
      let? (t, dm, vs) := dirty_level (ord (elements vs)) (t, dm, ∅) in
      dirty_f ord f' t dm vs
  end.
Definition update_dirty_cache_map (ord : list aidx -> list aidx) (t : btree) (dm : gmap aidx Diff)
  : res btree :=
  let? t := dirty_f ord (S (fuel t)) t dm (dom dm) in
  calc_root t None.

(** the main loop of update — lib.rs:1015-1039 *)
Fixpoint update_loop {S0 : Type} (fu : S0 -> Elem -> S0 * Elem * option Diff)
  (f : nat) (t : btree) (path : list idx) (en : option cursor) (s : S0)
  (dm : gmap aidx Diff) (rm : list aidx)
  : res (S0 * btree * gmap aidx Diff * list aidx) :=
  match f with
  | 0 => OutOfFuel
  | S f' =>
      let? cl := ropt (last path) in
      let? l := unwrap_leaf (i_arena cl) in
      if bool_decide (cu_leaf <$> en = Some l) then Ok (s, t, dm, rm)
      else
        let? lf := get_lf t l in
        match fu s (l_elem lf) with
        | (s, e', od) =>
            let t := set_lf t l (with_elem lf e') in
            let rm := if can_remove e' then rm ++ [i_arena cl] else rm in
            let dm := match od with Some d => <[i_arena cl := d]> dm | None => dm end in
            let? o := next_sibling t path in
            match o with
            | None => Ok (s, t, dm, rm)
            | Some path => update_loop fu f' t path en s dm rm
            end
        end
  end.
Fixpoint remove_leaves (t : btree) (ls : list aidx) : res btree :=
  match ls with
  | [] => Ok t
  | a :: ls' => let? (_, t) := remove_leaf t (mkCur (raw a) 0) in remove_leaves t ls'
  end.
(** update — lib.rs:989-1057; [update t start end f s] returns (splitted, state, tree) *)
Definition update {S0 : Type} (ord : list aidx -> list aidx) (t : btree) (st en : cursor)
  (fu : S0 -> Elem -> S0 * Elem * option Diff) (s : S0) : res (list nat * S0 * btree) :=
  let? (sie, t) := split_leaf_if_needed t en in
  let? sl := sl_push_option [] (si_new_leaf sie) in
  let? (sis, t) := split_leaf_if_needed t st in
  let? sl := sl_push_option sl (si_new_leaf sis) in
  match si_new_pos sis with
  | None => Ok (sl, s, t)
  | Some st =>
      let? path := get_path t (ALeaf (cu_leaf st)) in
      let? (s, t, dm, rm) :=
        update_loop fu (S (anext (leaf_nodes t))) t path (si_new_pos sie) s ∅ [] in
      let? t := if decide (dm = ∅) then calc_root t None
                else update_dirty_cache_map ord t dm in
      let? t := remove_leaves t rm in
      Ok (sl, s, t)
  end.

(** update_leaf_by_search — lib.rs:1107-1249 *)
Fixpoint ulbs_descend (Q : Query B) (f : nat) (t : btree) (x : aidx) (pos : nat) (s : Qst Q)
  (q : QArg Q) (path : list idx) : res (nat * nat * Qst Q * list idx) :=
  match f with
  | 0 => OutOfFuel
  | S f' =>
      match x with
      | ALeaf l => Ok (l, pos, s, path)
      | AInt i =>
          let? path := vec_push 10 path (mkIdx x pos) in
          let? n := get_in t i in
          let? (ix, _, _, s) := q_find Q s q (n_children n) in
          let? c := vec_get (n_children n) ix in
          ulbs_descend Q f' t (c_arena c) ix s q path
      end
  end.
(** lib.rs:1160-1187: path is leaf-first here ([path.pop()]) *)
Fixpoint ulbs_delete (t : btree) (path : list idx) (first lack : bool) (ci : aidx) (cpos : nat)
  (d : Diff) : res (bool * btree) :=
  match path with
  | [] => Ok (lack, t)
  | mkIdx p ppos :: path =>
      let? pi := unwrap_internal p in
      let? pn := get_in t pi in
      let? cs := if first then let? (_, cs) := vec_remove (n_children pn) cpos in Ok cs
                 else apply_child_cache (n_children pn) cpos d in
      let pn := with_children pn cs in
      let t := set_in t pi pn in
      let l := is_lack pn in
      let? t := if lack then let? (_, t) := handle_lack_single_layer t ci in Ok t else Ok t in
      ulbs_delete t path false l p ppos d
  end.
(** lib.rs:1209-1240 *)
Fixpoint ulbs_insert (t : btree) (path : list idx) (cpos : nat) (d : Diff)
  (new : option (Cache * child)) : res (option (Cache * child) * btree) :=
  match path with
  | [] => Ok (new, t)
  | mkIdx p ppos :: path =>
      let? pi := unwrap_internal p in
      let? pn := get_in t pi in
      match new with
      | Some (cache, ch) =>
          let? cs := set_child_cache (n_children pn) cpos cache in
          let? cs := vec_insert 12 cs (S cpos) ch in
          let pn := with_children pn cs in
          let t := set_in t pi pn in
          let? t := if is_child_leaf pn then Ok t
                    else update_children_parent_slot_from t p (S cpos) in
          if is_full pn then
            let? (_, _, tc, rc, t) := split_node t p in
            ulbs_insert t path ppos d (Some (tc, rc))
          else ulbs_insert t path ppos d None
      | None =>
          let? cs := apply_child_cache (n_children pn) cpos d in
          ulbs_insert (set_in t pi (with_children pn cs)) path ppos d None
      end
  end.
Definition update_leaf_by_search (Q : Query B) (t : btree) (q : QArg Q)
  (f : Elem -> qresult -> Elem * option (Diff * option Elem * option Elem))
  : res (option cursor * list nat * btree) :=
  let? emp := is_empty t in
  if (emp : bool) then Panic
  else
    let? (l, cpos, s, path) := ulbs_descend Q (S (fuel t)) t (root t) 0 (q_init Q q) q [] in
    let? lf := get_lf t l in
    match q_confirm Q s q (l_elem lf) with
    | (off, found, _) =>
        let ans := mkQR (mkCur l off) found in
        match f (l_elem lf) ans with
        | (e', r) =>
            let lf := with_elem lf e' in
            let t := set_lf t l lf in
            match r with
            | None => Ok (Some (qr_cursor ans), [], t)
            | Some (_, _, Some _) => Panic                  (* unimplemented!() *)
            | Some (d, ni1, None) =>
                if can_remove e' then
                  let? _ := rassert (bool_decide (is_Some ni1 -> False)) in
                  let t := rem_lf t l in
                  let? (lack, t) := ulbs_delete t (rev path) true false (ALeaf l) cpos d in
                  let? c := apply_cache_diff (root_cache t) d in
                  let t := set_root_cache t c in
                  let? t :=
                    if lack then
                      let? rn := get_internal t (root t) in
                      if bool_decide (length (n_children rn) = 1) && negb (is_child_leaf rn)
                      then try_reduce_levels t else Ok t
                    else Ok t in
                  Ok (None, [], t)
                else
                  let? (new, sl, t) :=
                    match ni1 with
                    | Some e1 =>
                        let? lp := ropt (last path) in
                        let (ch, t) := alloc_leaf_child t e1 (raw (i_arena lp)) in
                        let? sl := sl_push [] (c_arena ch) in
                        Ok (Some (get_elem_cache e', ch), sl, t)
                    | None => Ok (None, [], t)
                    end in
                  let? (new, t) := ulbs_insert t (rev path) cpos d new in
                  let? t :=
                    match new with
                    | Some (cache, ch) => split_root t cache ch
                    | None => let? c := apply_cache_diff (root_cache t) d in Ok (set_root_cache t c)
                    end in
                  Ok (Some (qr_cursor ans), sl, t)
            end
        end
    end.

(** update_leaf, normalisation of the returned values — lib.rs:1267-1299 *)
Definition ul_normalize (e : Elem) (n1 n2 : option Elem) : Elem * option Elem * option Elem :=
  let '(n1, n2) :=
    match n1 with
    | Some x1 =>
        if can_remove x1 then
          match n2 with
          | Some x2 => if can_remove x2 then (None, None) else (Some x2, None)
          | None => (None, None)
          end
        else (n1, n2)
    | None => (n1, n2)
    end in
  let '(n1, n2) :=
    match n2 with
    | Some x2 =>
        if can_remove x2 then (n1, None)
        else match n1 with None => (n2, None) | Some _ => (n1, n2) end
    | None => (n1, n2)
    end in
  if can_remove e then
    match n1 with Some x1 => (x1, n2, None) | None => (e, n1, n2) end
  else (e, n1, n2).

(** the insertion loop of update_leaf — lib.rs:1353-1378 *)
Definition ul_alloc (t : btree) (p : nat) (es : list Elem) : list child * btree :=
  foldl (fun '(cs, t) e => let (c, t) := alloc_leaf_child t e p in (cs ++ [c], t)) ([], t) es.
Fixpoint ul_insert (cs : list child) (slot : nat) (new : list child) (sl : list nat)
  : res (list child * list nat) :=
  match new with
  | [] => Ok (cs, sl)
  | v :: new' =>
      let? sl := sl_push sl (c_arena v) in
      let? cs := vec_insert 12 cs slot v in
      ul_insert cs (S slot) new' sl
  end.
Definition is_none {X} (o : option X) : bool := match o with None => true | Some _ => false end.
(** update_leaf — lib.rs:1258-1384 *)
Definition update_leaf (t : btree) (l : nat)
  (f : Elem -> Elem * (bool * option Elem * option Elem)) : res (bool * list nat * btree) :=
  let? lf := get_lf t l in
  let p := l_parent lf in
  match f (l_elem lf) with
  | (e, (upd, n1, n2)) =>
      match ul_normalize e n1 n2 with
      | (e, n1, n2) =>
          let t := set_lf t l (with_elem lf e) in
          let deleted := can_remove e in
          let? t := if (upd : bool) then recursive_update_cache t (ALeaf l) (USE_DIFF (b := B)) None
                    else Ok t in
          if deleted then
            let? _ := rassert (is_none n1) in                 (* debug_assert!, 1308-1309 *)
            let? _ := rassert (is_none n2) in
            let? _ := get_lf t l in
            let t := rem_lf t l in
            let? pn := get_in t p in
            let? slot := get_leaf_slot l pn in
            let? (_, cs) := vec_remove (n_children pn) slot in
            let pn := with_children pn cs in
            let t := set_in t p pn in
            let? t := if is_lack pn then handle_lack_recursively t (AInt p) else Ok t in
            Ok (false, [], t)
          else
            match n1 with
            | None => let? _ := rassert (is_none n2) in Ok (true, [], t)   (* debug_assert!, 1321 *)
            | Some x1 =>
                let? merged :=
                  match n2 with
                  | Some _ => Ok None
                  | None =>
                      let? pn := get_in t p in
                      let? slot := get_leaf_slot l pn in
                      match n_children pn !! S slot with
                      | Some c =>
                          let nx := raw (c_arena c) in
                          let? nlf := get_lf t nx in
                          if can_merge x1 (l_elem nlf) then
                            let? e' := merge_left (l_elem nlf) x1 in
                            let t := set_lf t nx (with_elem nlf e') in
                            let? t := recursive_update_cache t (ALeaf nx) (USE_DIFF (b := B)) None in
                            let? sl := sl_push [] (ALeaf nx) in
                            Ok (Some (true, sl, t))
                          else Ok None
                      | None => Ok None
                      end
                  end in
                match merged with
                | Some r => Ok r
                | None =>
                    let new := x1 :: match n2 with Some x2 => [x2] | None => [] end in
                    let? pn := get_in t p in
                    let? (p, t) :=
                      if decide (12 <= length (n_children pn) + length new) then
                        let? t := split t (AInt p) in
                        let? lf := get_lf t l in
                        Ok (l_parent lf, t)
                      else Ok (p, t) in
                    let (cs, t) := ul_alloc t p new in
                    let? pn := get_in t p in
                    let? slot := get_leaf_slot l pn in
                    let? (cs, sl) := ul_insert (n_children pn) (S slot) cs [] in
                    let pn := with_children pn cs in
                    let t := set_in t p pn in
                    let? _ := rassert (negb (is_full pn)) in
                    let? t := recursive_update_cache t (AInt p) (USE_DIFF (b := B)) None in
                    Ok (true, sl, t)
                end
            end
      end
  end.

(** ** update_leaves_with_arg_in_ranges — lib.rs:1396-1503 *)

(** BTreeSet<usize> as a strictly increasing list *)
Fixpoint bset_insert (x : nat) (l : list nat) : list nat :=
  match l with
  | [] => [x]
  | y :: l' => if decide (x < y) then x :: l else if decide (x = y) then l else y :: bset_insert x l'
  end.
(** args.sort_by_key(|x| x.0): stable insertion sort by leaf index *)
Fixpoint sort_insert {A} (x : nat * A) (l : list (nat * A)) : list (nat * A) :=
  match l with
  | [] => [x]
  | y :: l' => if decide (fst x <= fst y) then x :: l else y :: sort_insert x l'
  end.
Definition sort_by_leaf {A} (l : list (nat * A)) : list (nat * A) := foldr sort_insert [] l.
(** group_by(|x| x.0): maximal runs with equal key *)
Fixpoint group_by_leaf {A} (l : list (nat * A)) : list (nat * list A) :=
  match l with
  | [] => []
  | (k, a) :: l' =>
      match group_by_leaf l' with
      | (k', g) :: r => if decide (k = k') then (k, a :: g) :: r else (k, [a]) :: (k', g) :: r
      | [] => [(k, [a])]
      end
  end.

Section ranges.
  Context {A : Type} (fu : Elem -> A -> Elem).
  Notation range_arg := (nat * nat * A)%type.   (* (start, end, arg) *)

  Definition apply_args (p : range_arg -> bool) (g : list range_arg) (e : Elem) : Elem :=
    foldl (fun e a => if p a then fu e (snd a) else e) e g.
  (** lib.rs:1446-1459 *)
  Fixpoint ranges_middle (g : list range_arg) (elem : Elem) (lasti : nat) (sp : list nat)
    : res (list Elem * Elem) :=
    match sp with
    | [] => Ok ([], elem)
    | ix :: sp' =>
        let? (e1, nxt) := e_split elem (ix - lasti) in
        let e1 := apply_args (fun '(s, e, _) => bool_decide (s <= lasti) && bool_decide (ix <= e)) g e1 in
        let? (r, lst) := ranges_middle g nxt ix sp' in
        Ok (e1 :: r, lst)
    end.
  (** lib.rs:1410-1476 for one leaf: (new elem in place, elements to insert after it) *)
  Definition ranges_leaf (e0 : Elem) (g : list range_arg) : res (Elem * list Elem) :=
    let len := rle_len e0 in
    let sp := foldl (fun s '(a, b, _) => bset_insert b (bset_insert a s)) [] g in
    let sp := filter (fun x => x <> 0 /\ x <> len) sp in
    match sp with
    | [] =>
        let? _ := rassert (forallb (fun '(a, b, _) => bool_decide (a = 0) && bool_decide (b = len)) g) in
        Ok (apply_args (fun _ => true) g e0, [])
    | first :: sp' =>
        let? (e1, rest) := e_split e0 first in
        let e1 := apply_args (fun '(a, _, _) => bool_decide (a = 0)) g e1 in
        let? (mid, lst) := ranges_middle g rest first sp' in
        let lst := apply_args (fun '(_, b, _) => bool_decide (b = len)) g lst in
        Ok (e1, mid ++ [lst])
    end.
  Fixpoint ranges_groups (t : btree) (gs : list (nat * list range_arg))
    (dm : gmap aidx Diff) (ne : list (cursor * list Elem))
    : res (btree * gmap aidx Diff * list (cursor * list Elem)) :=
    match gs with
    | [] => Ok (t, dm, ne)
    | (l, g) :: gs' =>
        let? lf := get_lf t l in
        let old_cache := get_elem_cache (l_elem lf) in
        let? (e1, new) := ranges_leaf (l_elem lf) g in
        let t := set_lf t l (with_elem lf e1) in
        let ne := match new with [] => ne | _ => ne ++ [(mkCur l (rle_len e1), new)] end in
        let dm := <[ALeaf l := sub_cache (get_elem_cache e1) old_cache]> dm in
        ranges_groups t gs' dm ne
    end.
  Fixpoint ranges_insert (t : btree) (cur : cursor) (es : list Elem) (nl : list nat)
    : res (list nat * btree) :=
    match es with
    | [] => Ok (nl, t)
    | e :: es' =>
        let? (c, sl, t) := insert_by_path t cur e in
        let? e' := ropt (get_elem t (cu_leaf c)) in
        let? _ := rassert (bool_decide (length sl = 0)) in            (* debug_assert_eq!, 1495 *)
        ranges_insert t (mkCur (cu_leaf c) (rle_len e')) es' (nl ++ [cu_leaf c])
    end.
  Fixpoint ranges_insert_all (t : btree) (ne : list (cursor * list Elem)) (nl : list nat)
    : res (list nat * btree) :=
    match ne with
    | [] => Ok (nl, t)
    | (c, es) :: ne' => let? (nl, t) := ranges_insert t c es nl in ranges_insert_all t ne' nl
    end.
  (** [ord2]: iteration order of the hash map [new_elems_at_cursor] *)
  Definition update_leaves_with_arg_in_ranges (ord : list aidx -> list aidx)
    (ord2 : list (cursor * list Elem) -> list (cursor * list Elem))
    (t : btree) (args : list (nat * range_arg)) : res (list nat * btree) :=
    let? (t, dm, ne) := ranges_groups t (group_by_leaf (sort_by_leaf args)) ∅ [] in
    let? t := update_dirty_cache_map ord t dm in
    ranges_insert_all t (ord2 ne) [].
End ranges.

(** ** Bulk operations *)

(** merge_adj — lib.rs:2734-2758.  [data.len() - 1] underflows (panic) on an empty vector. *)
Fixpoint merge_adj_f (f : nat) (data : list Elem) (i lst ds dl : nat) : res (list Elem) :=
  match f with
  | 0 => OutOfFuel
  | S f' =>
      if decide (i < lst) then
        let? a := vec_get data i in
        let? b := vec_get data (S i) in
        if can_merge a b then
          let? a' := merge_right a b in
          let data := <[i := a']> data in
          let ds := if decide (dl = 0) then S i else ds in
          let? y := vec_get data (ds + dl) in
          let data := <[ds + dl := b]> (<[S i := y]> data) in       (* swap *)
          merge_adj_f f' data (S (S i)) lst ds (S dl)
        else merge_adj_f f' data (S i) lst ds dl
      else
        if decide (0 < dl) then
          (* drain(ds..ds+dl) *)
          if decide (ds + dl <= length data) then Ok (take ds data ++ drop (ds + dl) data) else Panic
        else Ok data
  end.
Definition merge_adj (data : list Elem) : res (list Elem) :=
  match data with
  | [] => Panic
  | _ => merge_adj_f (S (length data)) data 0 (length data - 1) 0 0
  end.

(** itertools::chunks *)
Fixpoint chunks_f {A} (f n : nat) (l : list A) : list (list A) :=
  match f, l with
  | S f', _ :: _ => take n l :: chunks_f f' n (drop n l)
  | _, _ => []
  end.
Definition chunks {A} (n : nat) (l : list A) : list (list A) := chunks_f (length l) n l.

(** create_subtrees_from_elem — lib.rs:754-816.  [parent.children[i] = leaf] writes to an
    index of a vector that is still empty. *)
Fixpoint cst_leaves (t : btree) (p : nat) (i : nat) (es : list Elem) : res btree :=
  match es with
  | [] => Ok t
  | e :: es' =>
      let (ch, t) := alloc_leaf_child t e p in
      let? pn := get_in t p in
      let? cs := vec_set (n_children pn) i ch in
      cst_leaves (set_in t p (with_children pn cs)) p (S i) es'
  end.
Fixpoint cst_level0 (t : btree) (cks : list (list Elem)) (acc : list nat) : res (list nat * btree) :=
  match cks with
  | [] => Ok (acc, t)
  | es :: cks' =>
      let (p, t) := ins_in t (mkNode None 0 []) in
      let? t := cst_leaves t p 0 es in cst_level0 t cks' (acc ++ [p])
  end.
Fixpoint cst_children (t : btree) (p : nat) (i : nat) (ms : list nat) : res btree :=
  match ms with
  | [] => Ok t
  | m :: ms' =>
      let? _ := rassert (negb (bool_decide (p = m))) in
      let? pn := get_in t p in
      let? mn := get_in t m in
      let? (c, _) := calc_cache_internal cache_default (map c_cache (n_children mn)) in
      let? cs := vec_set (n_children pn) i (mkChild (AInt m) c) in
      let t := set_in t p (with_children pn cs) in
      cst_children (set_in t m (mkNode (Some (AInt p)) i (n_children mn))) p (S i) ms'
  end.
Fixpoint cst_levelS (t : btree) (cks : list (list nat)) (acc : list nat) : res (list nat * btree) :=
  match cks with
  | [] => Ok (acc, t)
  | ms :: cks' =>
      let (p, t) := ins_in t (mkNode None 0 []) in
      let? t := cst_children t p 0 ms in cst_levelS t cks' (acc ++ [p])
  end.
Fixpoint cst_up (f : nat) (t : btree) (nodes : list nat) (h : nat) : res (aidx * nat * btree) :=
  match f with
  | 0 => OutOfFuel
  | S f' =>
      if decide (1 < length nodes) then
        let? (nodes, t) := cst_levelS t (chunks 12 nodes) [] in cst_up f' t nodes (S h)
      else let? r := vec_get nodes 0 in Ok (AInt r, h, t)
  end.
Definition create_subtrees_from_elem (t : btree) (data : list Elem) : res (aidx * nat * btree) :=
  let? (nodes, t) := cst_level0 t (chunks 12 data) [] in
  cst_up (S (length nodes)) t nodes 0.

(** insert_many_by_cursor — lib.rs:677-749 *)
Fixpoint absorb_right (e : Elem) (data : list Elem) : res (Elem * list Elem) := (* 733-740 *)
  match data with
  | [] => Ok (e, [])
  | x :: data' =>
      if can_merge e x then let? e := merge_right e x in absorb_right e data'
      else Ok (e, data)
  end.
Fixpoint insert_rev (t : btree) (pos : cursor) (items : list Elem) : res btree := (* 745-748 *)
  match items with
  | [] => Ok t
  | x :: items' => let? (p, _, t) := insert_by_path t pos x in insert_rev t p items'
  end.
Definition insert_one (t : btree) (cur : option cursor) (x : Elem) : res btree :=
  match cur with
  | Some c => let? (_, _, t) := insert_by_path t c x in Ok t
  | None => let? (_, t) := push t x in Ok t
  end.
Definition insert_many_by_cursor (t : btree) (cur : option cursor) (data : list Elem) : res btree :=
  match data with
  | [] => Ok t
  | [x] => insert_one t cur x
  | _ =>
      let? data := merge_adj data in
      match data with
      | [x] => insert_one t cur x
      | _ =>
          let? emp := is_empty t in
          match cur with
          | None =>
              if (emp : bool) then
                let? (r, _, t) := create_subtrees_from_elem t data in
                let? _ := get_in t (raw (root t)) in
                Ok (set_root (rem_in t (raw (root t))) r)
              else Panic
          | Some c =>
              let? (si, t) := split_leaf_if_needed t c in
              let? (rest, t) :=
                match si_left si with
                | Some l =>
                    let? lf := get_lf t l in
                    let? (e, rest) := absorb_right (l_elem lf) data in
                    let t := set_lf t l (with_elem lf e) in
                    let? t := recursive_update_cache t (ALeaf l) (USE_DIFF (b := B)) None in
                    Ok (rest, t)
                | None => Ok (data, t)
                end in
              insert_rev t (default c (si_new_pos si)) (rev rest)
          end
      end
  end.

(** FromIterator::from_iter — lib.rs:2855-2973.  TempInternalNode is the triple
    (children, cache, arena_index); [internal_nodes] keeps its last element first. *)
Record temp_node : Type := mkTmp { tm_children : list child; tm_cache : Cache; tm_idx : nat }.
Definition fi_new (t : btree) (nodes : list temp_node) : list temp_node * btree :=
  let (i, t) := ins_in t node_new in (mkTmp [] cache_default i :: nodes, t).
(** choose the node to append to (lib.rs:2880-2894, 2930-2944) *)
Definition fi_parent (t : btree) (nodes : list temp_node) : res (list temp_node * btree) :=
  match nodes with
  | [] => Panic
  | lst :: rest =>
      if decide (length (tm_children lst) < 10) then Ok (nodes, t)
      else
        let? (c, _) := calc_cache_internal (tm_cache lst) (map c_cache (tm_children lst)) in
        Ok (fi_new t (mkTmp (tm_children lst) c (tm_idx lst) :: rest))
  end.
Definition fi_push (nodes : list temp_node) (ch : child) : res (list temp_node) :=
  match nodes with
  | [] => Panic
  | lst :: rest =>
      let? cs := vec_push 12 (tm_children lst) ch in
      Ok (mkTmp cs (tm_cache lst) (tm_idx lst) :: rest)
  end.
Fixpoint fi_leaves (t : btree) (nodes : list temp_node) (es : list Elem) : res (list temp_node * btree) :=
  match es with
  | [] => Ok (nodes, t)
  | e :: es' =>
      let? (nodes, t) := fi_parent t nodes in
      let? p := ropt (head nodes) in
      let (ch, t) := alloc_leaf_child t e (tm_idx p) in
      let? nodes := fi_push nodes ch in
      fi_leaves t nodes es'
  end.
(** lib.rs:2929-2959; [children] in iteration order *)
Fixpoint fi_level (t : btree) (nodes : list temp_node) (slot : nat) (children : list temp_node)
  : res (list temp_node * btree) :=
  match children with
  | [] => Ok (nodes, t)
  | ch :: children' =>
      let? (nodes, t) := fi_parent t nodes in
      let? p := ropt (head nodes) in
      let? (c, _) := calc_cache_internal (tm_cache ch) (map c_cache (tm_children ch)) in
      let? _ := get_in t (tm_idx ch) in
      let t := set_in t (tm_idx ch) (mkNode (Some (AInt (tm_idx p))) slot (tm_children ch)) in
      let? nodes := fi_push nodes (mkChild (AInt (tm_idx ch)) c) in
      fi_level t nodes ((slot + 1) mod 10) children'
  end.
Fixpoint fi_up (f : nat) (t : btree) (nodes : list temp_node) : res (list temp_node * btree) :=
  match f with
  | 0 => OutOfFuel
  | S f' =>
      if decide (1 < length nodes) then
        let (nw, t) := fi_new t [] in
        let? (nodes', t) := fi_level t nw 0 (rev nodes) in
        let? _ := rassert (bool_decide ((length nodes + 9) / 10 = length nodes')) in   (* debug_assert_eq!, 2961 *)
        fi_up f' t nodes'
      else Ok (nodes, t)
  end.
Definition from_iter (es : list Elem) : res btree :=
  let t := bt_new in
  let (nodes, t) := fi_new t [] in
  let? (nodes, t) := fi_leaves t nodes es in
  let? (nodes, t) := fi_up (S (length nodes)) t nodes in
  let? _ := rassert (bool_decide (length nodes = 1)) in                 (* debug_assert_eq!, 2964 *)
  let? nd := ropt (head nodes) in
  let? (c, _) := calc_cache_internal (root_cache t) (map c_cache (tm_children nd)) in
  let t := set_root_cache t c in
  let t := rem_in t (raw (root t)) in
  let t := set_root t (AInt (tm_idx nd)) in
  let? rn := get_in t (tm_idx nd) in
  Ok (set_in t (tm_idx nd) (with_children rn (tm_children nd))).

(** iter_with_filter — lib.rs:2650-2678, run to exhaustion.  [radd] is AddAssign,
    [r0] the default; [fu] threads the state of the FnMut closure. *)
Section filter.
  Context {S0 R : Type} (r0 : R) (radd : R -> R -> R) (fu : S0 -> Cache -> S0 * (bool * R)).
  Fixpoint iwf_children (cs : list child) (s : S0) (r : R) : S0 * list (aidx * R) :=
    match cs with
    | [] => (s, [])
    | c :: cs' =>
        let '(s, (drill, nr)) := fu s (c_cache c) in
        let '(s, q) := iwf_children cs' s (radd r nr) in
        (s, if drill : bool then (c_arena c, r) :: q else q)
    end.
  Fixpoint iwf_f (f : nat) (t : btree) (queue : list (aidx * R)) (s : S0) : res (S0 * list (R * Elem)) :=
    match queue with
    | [] => Ok (s, [])
    | (x, r) :: queue =>
        match f with
        | 0 => OutOfFuel
        | S f' =>
            match x with
            | ALeaf l =>
                let? lf := get_lf t l in
                let? (s, out) := iwf_f f' t queue s in Ok (s, (r, l_elem lf) :: out)
            | AInt i =>
                let? n := get_in t i in
                let '(s, q) := iwf_children (n_children n) s r in
                iwf_f f' t (queue ++ q) s
            end
        end
    end.
  Definition iter_with_filter (t : btree) (s : S0) : res (S0 * list (R * Elem)) :=
    iwf_f (S (total_children t)) t [(root t, r0)] s.
End filter.

(** update_cache_and_elem_with_filter — lib.rs:2685-2707 *)
Section ufilter.
  Context {S0 : Type} (fu : S0 -> Cache -> S0 * Cache * bool) (gu : S0 -> Elem -> S0 * Elem).
  (** returns the rewritten children and the arenas pushed, in push order *)
  Fixpoint ucf_children (cs : list child) (s : S0) : S0 * list child * list aidx :=
    match cs with
    | [] => (s, [], [])
    | c :: cs' =>
        let '(s, c', drill) := fu s (c_cache c) in
        let '(s, cs', q) := ucf_children cs' s in
        (s, mkChild (c_arena c) c' :: cs', if drill : bool then c_arena c :: q else q)
    end.
  Fixpoint ucf_f (f : nat) (t : btree) (stack : list aidx) (s : S0) : res (S0 * btree) :=
    match stack with
    | [] => Ok (s, t)
    | x :: stack =>
        match f with
        | 0 => OutOfFuel
        | S f' =>
            match x with
            | ALeaf l =>
                let? lf := get_lf t l in
                let '(s, e) := gu s (l_elem lf) in
                ucf_f f' (set_lf t l (with_elem lf e)) stack s
            | AInt i =>
                let? n := get_in t i in
                let '(s, cs, q) := ucf_children (n_children n) s in
                ucf_f f' (set_in t i (with_children n cs)) (rev q ++ stack) s
            end
        end
    end.
  Definition update_cache_and_elem_with_filter (t : btree) (s : S0) : res (S0 * btree) :=
    ucf_f (S (total_children t)) t [root t] s.
End ufilter.

(** ** check — lib.rs:2771-2853; [Ok tt] iff the Rust method does not panic *)
Fixpoint rall {A} (f : A -> res unit) (l : list A) : res unit :=
  match l with [] => Ok tt | x :: l' => let? _ := f x in rall f l' end.
Definition check_child (t : btree) (i : nat) (n : node) (kc : nat * child) : res unit :=
  let '(k, c) := kc in
  match c_arena c with
  | ALeaf _ => Ok tt
  | AInt m =>
      let? _ := rassert (negb (is_child_leaf n)) in
      let? cn := get_in t m in
      let? (cache, _) := calc_cache cn cache_default None in
      let? _ := rassert (bool_decide (n_slot cn = k)) in
      let? _ := rassert (bool_decide (n_parent cn = Some (AInt i))) in
      rassert (cache_eqb cache (c_cache c))
  end.
Definition check_node (t : btree) (kn : nat * node) : res unit :=
  let '(i, n) := kn in
  let? _ := rassert (bool_decide (i = raw (root t)) || negb (n_is_empty n)) in
  let? _ := rall (check_child t i n) (imap pair (n_children n)) in
  match n_parent n with
  | Some p =>
      let? pn := get_internal t p in
      let? c := vec_get (n_children pn) (n_slot n) in
      let? _ := rassert (bool_decide (c_arena c = AInt i)) in
      let? _ := get_path t (AInt i) in Ok tt
  | None => let? r := unwrap_internal (root t) in rassert (bool_decide (i = r))
  end.
Fixpoint level_f (f : nat) (t : btree) (i : nat) : res nat :=
  match f with
  | 0 => OutOfFuel
  | S f' =>
      if decide (i = raw (root t)) then Ok 1
      else
        let? n := get_in t i in
        let? p := ropt (n_parent n) in
        let? d := level_f f' t (raw p) in Ok (S d)
  end.
Fixpoint check_leaves (t : btree) (ls : list (nat * leafn)) (lev : option nat) : res unit :=
  match ls with
  | [] => Ok tt
  | (l, lf) :: ls' =>
      let? len := level_f (fuel t) t (l_parent lf) in
      let? lev := match lev with
                  | Some e => let? _ := rassert (bool_decide (len = e)) in Ok e
                  | None => Ok len
                  end in
      let? pn := get_in t (l_parent lf) in
      let? s := leaf_slot_from (n_children pn) l 0 in
      let? c := vec_get (n_children pn) s in
      let? _ := rassert (cache_eqb (c_cache c) (get_elem_cache (l_elem lf))) in
      let? _ := get_path t (ALeaf l) in
      check_leaves t ls' (Some lev)
  end.
Definition check (t : btree) : res unit :=
  let? _ := rall (check_node t) (map_to_list (amap (in_nodes t))) in
  let? rn := get_internal t (root t) in
  let? (c, _) := calc_cache rn cache_default None in
  let? _ := rassert (cache_eqb (root_cache t) c) in
  check_leaves t (map_to_list (amap (leaf_nodes t))) None.

(** ** Drain — /repo/src/iter.rs *)

(** TempStore — iter.rs:14-19; Drain — 21-27 *)
Record temp_store : Type := mkStore {
  ts_start : list idx; ts_end : list idx; ts_before : option aidx; ts_after : option aidx }.
Record drain : Type := mkDrain {
  dr_tree : btree; dr_path : list idx; dr_done : bool;
  dr_end : option cursor; dr_store : option temp_store }.

Definition drain_none (t : btree) : drain := mkDrain t [] true None None.   (* iter.rs:87-95 *)
(** Drain::new — iter.rs:30-85 *)
Definition drain_new (t : btree) (st en : option qresult) : res drain :=
  match st, en with
  | Some st, Some en =>
      let? (sie, t) := split_leaf_if_needed t (qr_cursor en) in
      let en := si_new_pos sie in
      let? (sis, t) := split_leaf_if_needed t (qr_cursor st) in
      match si_new_pos sis with
      | None => Ok (drain_none t)
      | Some st =>
          let? sp := get_path t (ALeaf (cu_leaf st)) in
          let? el := match en with
                     | Some c => Ok (cu_leaf c)
                     | None => let? o := last_leaf t in ropt o
                     end in
          let? ep := get_path t (ALeaf el) in
          let? slast := ropt (last sp) in
          let? before := if decide (cu_offset st = 0)
                         then prev_same_level_in_node t (i_arena slast)
                         else Ok (Some (i_arena slast)) in
          let? elast := ropt (last ep) in
          let? after := match en with
                        | Some e =>
                            let? lf := get_lf t (cu_leaf e) in
                            if decide (rle_len (l_elem lf) = cu_offset e)
                            then next_same_level_in_node t (i_arena elast)
                            else Ok (Some (i_arena elast))
                        | None => Ok None
                        end in
          let? cp := get_path t (ALeaf (cu_leaf st)) in
          Ok (mkDrain t cp false en (Some (mkStore sp ep before after)))
      end
  | _, _ => Ok (drain_none t)
  end.
(** Iterator::next — iter.rs:101-125 *)
Definition drain_next (d : drain) : res (option Elem * drain) :=
  if dr_done d then Ok (None, d)
  else
    let? ix := ropt (last (dr_path d)) in
    let? l := unwrap_leaf (i_arena ix) in
    if bool_decide (cu_leaf <$> dr_end d = Some l) then Ok (None, d)
    else
      let? o := next_sibling (dr_tree d) (dr_path d) in
      let? lf := get_lf (dr_tree d) l in
      let t := rem_lf (dr_tree d) l in
      Ok (Some (l_elem lf),
          match o with
          | Some p => mkDrain t p (dr_done d) (dr_end d) (dr_store d)
          | None => mkDrain t (dr_path d) true (dr_end d) (dr_store d)
          end).
(** the first [k] calls of next *)
Fixpoint drain_take (k : nat) (d : drain) : res (list Elem * drain) :=
  match k with
  | 0 => Ok ([], d)
  | S k' =>
      let? (o, d) := drain_next d in
      match o with
      | None => Ok ([], d)
      | Some e => let? (es, d) := drain_take k' d in Ok (e :: es, d)
      end
  end.
(** ensure_finished — iter.rs:129-131 *)
Fixpoint drain_finish_f (f : nat) (d : drain) : res drain :=
  match f with
  | 0 => OutOfFuel
  | S f' =>
      let? (o, d) := drain_next d in
      match o with None => Ok d | Some _ => drain_finish_f f' d end
  end.
Definition ensure_finished (d : drain) : res drain :=
  drain_finish_f (S (S (a_len (leaf_nodes (dr_tree d))))) d.

(** filter_deleted_children — lib.rs:1563-1579 *)
Definition alive (t : btree) (a : aidx) : bool :=
  match a with
  | ALeaf l => bool_decide (is_Some (a_get (leaf_nodes t) l))
  | AInt i => bool_decide (is_Some (a_get (in_nodes t) i))
  end.
Definition filter_deleted_children (t : btree) (x : aidx) : res btree :=
  let? i := unwrap_internal x in
  let? n := get_in t i in
  Ok (set_in t i (with_children n (filter (fun c => alive t (c_arena c) = true) (n_children n)))).

(** slice [a..b] of children, panics when out of range *)
Definition vec_slice {A} (l : list A) (a b : nat) : res (list A) :=
  if decide (a <= b /\ b <= length l) then Ok (take (b - a) (drop a l)) else Panic.

(** first loop of drop — iter.rs:151-202; returns (level, deleted, tree) *)
Fixpoint drop_loop1 (level : nat) (t : btree) (sp ep : list idx) (del : list aidx)
  : res (nat * list aidx * btree) :=
  let? s := vec_get sp level in
  let? e := vec_get ep level in
  if decide (i_arena s = i_arena e) then Ok (level, del, t)
  else
    let? sn := get_internal t (i_arena s) in
    let? en := get_internal t (i_arena e) in
    let ds := if n_is_empty sn then i_arr s else S (i_arr s) in
    let de := if n_is_empty en then S (i_arr e) else i_arr e in
    match level with
    | 0 => Panic                                   (* [level - 1] underflows *)
    | S level' =>
        let? sp' := vec_get sp level' in
        let? ep' := vec_get ep level' in
        let sa := i_arena sp' in
        let ea := i_arena ep' in
        if decide (sa = ea) then
          let? si := unwrap_internal sa in
          let? pn := get_in t si in
          let? xs := vec_slice (n_children pn) ds de in
          let? cs := delete_range (n_children pn) ds de in
          let t := set_in t si (with_children pn cs) in
          let? t := update_children_parent_slot_from t sa ds in
          drop_loop1 level' t sp ep (del ++ map c_arena xs)
        else
          let? si := unwrap_internal sa in
          let? pn := get_in t si in
          let? xs := vec_slice (n_children pn) ds (length (n_children pn)) in
          let? cs := delete_range (n_children pn) ds (length (n_children pn)) in
          let t := set_in t si (with_children pn cs) in
          let? ei := unwrap_internal ea in
          let? qn := get_in t ei in
          let? ys := vec_slice (n_children qn) 0 de in
          let? cs := delete_range (n_children qn) 0 de in
          let t := set_in t ei (with_children qn cs) in
          let? t := update_children_parent_slot_from t ea 0 in
          drop_loop1 level' t sp ep (del ++ map c_arena xs ++ map c_arena ys)
    end.
(** second loop of drop — iter.rs:204-222 *)
Fixpoint drop_loop2 (level : nat) (t : btree) (sp : list idx) (del : list aidx)
  : res (list aidx * btree) :=
  match level with
  | 0 => Ok (del, t)
  | S level' =>
      let? s := vec_get sp level in
      let? s' := vec_get sp level' in
      let? ci := unwrap_internal (i_arena s) in
      let? pi := unwrap_internal (i_arena s') in
      let? _ := rassert (negb (bool_decide (ci = pi))) in
      let? cn := get_in t ci in
      let? pn := get_in t pi in
      if n_is_empty cn then
        let? c := vec_get (n_children pn) (i_arr s) in
        let? _ := rassert (bool_decide (c_arena c = i_arena s)) in
        let? (c, cs) := vec_remove (n_children pn) (i_arr s) in
        let t := set_in t pi (with_children pn cs) in
        let? t := update_children_parent_slot_from t (i_arena s') (i_arr s) in
        drop_loop2 level' t sp (del ++ [c_arena c])
      else Ok (del, t)
  end.
Fixpoint purge_all (t : btree) (xs : list aidx) : res btree :=
  match xs with [] => Ok t | x :: xs' => let? t := purge t x in purge_all t xs' end.

(** handle_lack_on_path_to_leaf — iter.rs:263-288.  [arenas] are path[1..len-1];
    a path entry whose node has disappeared is [unreachable!]. *)
Fixpoint lack_pass (t : btree) (xs : list aidx) (cnt : nat) : res (nat * btree) :=
  match xs with
  | [] => Ok (cnt, t)
  | x :: xs' =>
      let? i := unwrap_internal x in
      let? n := get_in t i in
      if is_lack n then
        let? (o, t) := handle_lack_single_layer t x in
        lack_pass t xs' (match o with Some _ => S cnt | None => cnt end)
      else lack_pass t xs' cnt
  end.
Fixpoint lack_path_f (f : nat) (t : btree) (leaf : aidx) (lastc : nat) : res btree :=
  match f with
  | 0 => OutOfFuel
  | S f' =>
      let? path := get_path t leaf in
      let? (cnt, t) := lack_pass t (map i_arena (removelast (tail path))) 0 in
      if bool_decide (cnt = 0) || bool_decide (cnt = lastc) then Ok t
      else lack_path_f f' t leaf cnt
  end.
(** Every pass that does not stop the loop changes the number of nodes or of lacking
    nodes; [3 * nodes + 3] passes suffice (model only). *)
Definition handle_lack_on_path_to_leaf (t : btree) (leaf : aidx) : res btree :=
  lack_path_f (3 * a_len (in_nodes t) + 3) t leaf 0.
(** seal — iter.rs:255-261 *)
Definition seal (t : btree) (leaf : aidx) : res btree :=
  let? t := handle_lack_on_path_to_leaf t leaf in
  let? o := next_same_level_in_node t leaf in
  let? t := match o with Some s => handle_lack_on_path_to_leaf t s | None => Ok t end in
  try_reduce_levels t.

(** Drop::drop — iter.rs:135-252 *)
Definition drain_drop (d : drain) : res btree :=
  let? d := ensure_finished d in
  let? st := ropt (dr_store d) in
  let t := dr_tree d in
  let sp := ts_start st in
  let ep := ts_end st in
  let? _ := rassert (bool_decide (2 <= length sp)) in        (* [len() - 2] underflows *)
  let level := length sp - 2 in
  let? s := vec_get sp level in
  let? t := filter_deleted_children t (i_arena s) in
  let? e := vec_get ep level in
  let? t := filter_deleted_children t (i_arena e) in
  let? (level, del, t) := drop_loop1 level t sp ep [] in
  let? (del, t) := drop_loop2 level t sp del in
  let? t := purge_all t del in
  let same := bool_decide (ts_after st = ts_before st) in
  let? t := match ts_after st with
            | Some a => recursive_update_cache t a same None
            | None => Ok t
            end in
  match ts_before st with
  | Some bf =>
      let? t :=
        if same then recursive_update_cache t bf (USE_DIFF (b := B)) None
        else
          let? t := recursive_update_cache t bf false None in
          match ts_after st with
          | Some a => recursive_update_cache t a false None
          | None => Ok t
          end in
      seal t bf
  | None =>
      let? t := update_root_cache t in
      try_reduce_levels t
  end.

(** drain — lib.rs:1612-1614, with the first [k] items taken before the drop *)
Definition drain_range (t : btree) (st en : option qresult) (k : nat) : res (list Elem * btree) :=
  let? d := drain_new t st en in
  let? (es, d) := drain_take k d in
  let? t := drain_drop d in
  Ok (es, t).
(** drain_by_query — lib.rs:1616-1620 *)
Definition drain_by_query (Q : Query B) (t : btree) (a b : QArg Q) (k : nat)
  : res (list Elem * btree) :=
  let? st := query Q t a in
  let? en := query Q t b in
  drain_range t st en k.

End model.
Arguments split_info : clear implicits.
