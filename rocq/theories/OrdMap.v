(** OrdMap.v — transcription of /repo/src/generic_impl/ord.rs. *)
From Verif Require Export BTree.

Section ord.
(** Key: Ord (as its comparison function) and Value *)
Context {Key Value : Type} (kcmp : Key -> Key -> comparison).

(** impl BTreeTrait for OrdTrait, with Elem = Unmergeable<(Key, Value)> — ord.rs:175-256.
    [split] is the default method of Sliceable (rle.rs:34-38) over [_slice] (186-192):
    self.slice(pos..) then self.slice_(..pos); both need a range of length 1.
    Eq on Cache is a parameter-free approximation by [kcmp]. *)
Definition OrdTrait : BTreeTrait :=
  mkBT (Key * Value) (option (Key * Key)) unit false
    (fun _ => 1)
    (fun e pos => if decide (1 - pos = 1 /\ pos = 1) then Ok (e, e) else Panic)
    (fun _ _ => false)
    (fun _ _ => Panic)
    (fun _ _ => Panic)
    (fun _ _ e => Ok (inr e))
    (fun _ => false)
    None
    (fun a b => match a, b with
                | None, None => true
                | Some (a1, a2), Some (b1, b2) =>
                    match kcmp a1 b1, kcmp a2 b2 with Eq, Eq => true | _, _ => false end
                | _, _ => false
                end)
    (fun c cs =>
       match cs with
       | [] => Ok (c, tt)
       | c0 :: _ =>
           let? (mn, _) := ropt c0 in
           let? cl := ropt (last cs) in
           let? (_, mx) := ropt cl in
           Ok (Some (mn, mx), tt)
       end)
    (fun _ _ => Panic)
    (fun a _ => a)
    (fun e => Some (fst e, fst e))
    (fun _ => tt)
    (fun _ _ => tt).

Notation btree := (btree OrdTrait).

(** slice::binary_search_by (std): the halving algorithm; on a slice partitioned as the
    contract demands, every version of std returns the same answer when at most one
    element is [Equal].  [inl i] = Ok(i), [inr i] = Err(i). *)
Fixpoint bsearch_f {A} (f : nat) (cmp : A -> res comparison) (l : list A) (lo hi : nat)
  : res (nat + nat) :=
  match f with
  | 0 => OutOfFuel
  | S f' =>
      if decide (lo < hi) then
        let mid := lo + (hi - lo) / 2 in
        let? x := vec_get l mid in
        let? c := cmp x in
        match c with
        | Lt => bsearch_f f' cmp l (S mid) hi
        | Gt => bsearch_f f' cmp l lo mid
        | Eq => Ok (inl mid)
        end
      else Ok (inr lo)
  end.
(** the comparison closure — ord.rs:274-283 *)
Definition ord_cmp (target : Key) (x : child OrdTrait) : res comparison :=
  let? (mn, mx) := ropt (c_cache x) in
  Ok (match kcmp target mn with
      | Lt => Gt
      | _ => match kcmp target mx with Gt => Lt | _ => Eq end
      end).
(** find_node — ord.rs:269-291 *)
Definition ord_find (target : Key) (cs : list (child OrdTrait)) : res (nat * nat * bool * unit) :=
  let? r := bsearch_f (S (length cs)) (ord_cmp target) cs 0 (length cs) in
  match r with
  | inl i => Ok (i, 0, true, tt)
  | inr i =>
      let? _ := rassert (bool_decide (0 < length cs)) in     (* [len() - 1] *)
      Ok (Nat.min i (length cs - 1), if decide (i = length cs) then 1 else 0, false, tt)
  end.
(** Query for OrdTrait — ord.rs:258-305 *)
Definition OrdQuery : Query OrdTrait :=
  mkQuery OrdTrait unit Key (fun _ => tt) (fun _ q cs => ord_find q cs)
    (fun _ q e => match kcmp q (fst e) with
                  | Lt => (0, false, tt) | Eq => (0, true, tt) | Gt => (1, false, tt)
                  end).

(** OrdTreeMap — ord.rs:15-18 *)
Record omap_t : Type := mkOM { om_tree : btree; om_len : nat }.
Definition om_new : omap_t := mkOM bt_new 0.                        (* 25-30 *)

(** insert — ord.rs:33-75 *)
Definition om_insert (m : omap_t) (k : Key) (v : Value) : res omap_t :=
  let? q := query OrdQuery (om_tree m) k in
  match q with
  | None =>
      let? (_, t) := @push OrdTrait (om_tree m) (k, v) in Ok (mkOM t (S (om_len m)))
  | Some r =>
      let t := om_tree m in
      let cur := qr_cursor r in
      if qr_found r then
        let? lf := get_lf t (cu_leaf cur) in
        Ok (mkOM (@set_lf OrdTrait t (cu_leaf cur) (@with_elem OrdTrait lf (fst (l_elem lf), v))) (om_len m))
      else
        let? lf := get_lf t (cu_leaf cur) in
        let p := l_parent lf in
        (* [can_merge] is constantly false (ord.rs:196-198): lines 50-53 are dead *)
        let (ch, t) := @alloc_leaf_child OrdTrait t (k, v) p in
        let? (si, t) := @split_leaf_if_needed OrdTrait t cur in
        let? pn := get_in t (si_parent si) in
        let? cs := vec_insert 12 (n_children pn) (si_slot si) ch in
        let pn := with_children pn cs in
        let t := set_in t (si_parent si) pn in
        let? t := @recursive_update_cache OrdTrait t (AInt p) false None in
        let? t := if is_full pn then split t (AInt p) else Ok t in
        Ok (mkOM t (S (om_len m)))
  end.
(** delete — ord.rs:78-87; [len -= 1] panics on underflow *)
Definition om_delete (m : omap_t) (k : Key) : res (option (Key * Value) * omap_t) :=
  let? q := query OrdQuery (om_tree m) k in
  match q with
  | None => Ok (None, m)
  | Some r =>
      let? (o, t) := @remove_leaf OrdTrait (om_tree m) (qr_cursor r) in
      match o with
      | Some e =>
          let? _ := rassert (bool_decide (0 < om_len m)) in
          Ok (Some e, mkOM t (om_len m - 1))
      | None => Ok (None, mkOM t (om_len m))
      end
  end.
(** iter / iter_key / len / is_empty — ord.rs:90-107 *)
Definition om_iter (m : omap_t) : res (list (Key * Value)) := @iter OrdTrait (om_tree m).
Definition om_iter_key (m : omap_t) : res (list Key) :=
  let? l := om_iter m in Ok (map fst l).
Definition om_is_empty (m : omap_t) : bool := bool_decide (om_len m = 0).
End ord.
Arguments omap_t _ _ _ : clear implicits.

(** OrdTreeSet — ord.rs:20-21, 115-148 *)
Section oset.
Context {Key : Type} (kcmp : Key -> Key -> comparison).
Definition os_new : omap_t Key unit kcmp := om_new kcmp.
Definition os_insert (s : omap_t Key unit kcmp) (k : Key) := om_insert kcmp s k tt.
Definition os_delete (s : omap_t Key unit kcmp) (k : Key) : res (bool * omap_t Key unit kcmp) :=
  let? (o, s) := om_delete kcmp s k in
  Ok (match o with Some _ => true | None => false end, s).
Definition os_iter (s : omap_t Key unit kcmp) := om_iter_key kcmp s.
End oset.
