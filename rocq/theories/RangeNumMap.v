(** RangeNumMap.v — transcription of /repo/tests/range_num_map/mod.rs, the second
    client of the library's public API that ships with the repository. *)
From Coq Require Export ZArith.
From Verif Require Export BTree LenFinder.

(** Elem — mod.rs:14-18 *)
Record rnm_elem : Type := mkRE { re_value : option Z; re_len : nat }.

(** impl BTreeTrait for RangeNumMapTrait and the element traits — mod.rs:107-216.
    [apply_cache_diff] converts a negative isize to usize: not modelled ([Z.to_nat]).
    [split] is the default method: right = slice(pos..), self.slice_(..pos); the usize
    subtraction of [range.len()] saturates. *)
Definition RNMTrait : BTreeTrait :=
  mkBT rnm_elem nat Z true
    re_len
    (fun e pos => Ok (mkRE (re_value e) pos, mkRE (re_value e) (re_len e - pos)))
    (fun a b => bool_decide (re_value a = re_value b) || bool_decide (re_len b = 0))
    (fun a b => Ok (mkRE (re_value a) (re_len a + re_len b)))
    (fun a b => Ok (mkRE (re_value a) (re_len a + re_len b)))
    (fun _ _ e => Ok (inr e))
    (fun e => bool_decide (re_len e = 0))
    0
    Nat.eqb
    (fun c cs => let new := sum_list cs in Ok (new, (Z.of_nat new - Z.of_nat c)%Z))
    (fun c d => Ok (Z.to_nat (Z.of_nat c + d)))
    (fun a b => (a + b)%Z)
    re_len
    Z.of_nat
    (fun a b => (Z.of_nat a - Z.of_nat b)%Z).

Notation rnm := (btree RNMTrait).
Definition RNMFinder : Query RNMTrait := @LengthFinder RNMTrait (fun c => c).

Definition rnm_new : rnm := bt_new.                                  (* 21-23 *)
Definition rnm_len (m : rnm) : nat := root_cache m.                  (* 102-104 *)
(** reserve_range — mod.rs:76-83 *)
Definition rnm_reserve (m : rnm) (en : nat) : res rnm :=
  if decide (rnm_len m < en) then
    let? (_, m) := @push RNMTrait m (mkRE None (en - rnm_len m + 10)) in Ok m
  else Ok m.
(** insert — mod.rs:25-40 *)
Definition rnm_insert (ord : list aidx -> list aidx) (m : rnm) (st en : nat) (v : Z) : res rnm :=
  let? m := rnm_reserve m en in
  let? o := range RNMFinder m st en in
  match o with
  | Some (a, b) =>
      let? (_, _, m) :=
        @update RNMTrait unit ord m (qr_cursor a) (qr_cursor b)
          (fun s e => (s, mkRE (Some v) (re_len e), None)) tt in Ok m
  | None =>
      let? _ := rassert (bool_decide (st = 0)) in
      let? (_, m) := @push RNMTrait m (mkRE (Some v) (en - st)) in Ok m
  end.
(** get — mod.rs:42-49 *)
Definition rnm_get (m : rnm) (i : nat) : res (option Z) :=
  let? o := query RNMFinder m i in
  match o with
  | None => Ok None
  | Some r =>
      if qr_found r
      then Ok (match get_elem m (cu_leaf (qr_cursor r)) with Some e => re_value e | None => None end)
      else Ok None
  end.
(** plus — mod.rs:62-74 *)
Definition rnm_plus (ord : list aidx -> list aidx) (m : rnm) (st en : nat) (change : Z) : res rnm :=
  let? m := rnm_reserve m en in
  let? o := range RNMFinder m st en in
  match o with
  | Some (a, b) =>
      let? (_, _, m) :=
        @update RNMTrait unit ord m (qr_cursor a) (qr_cursor b)
          (fun s e => (s, mkRE ((fun x => (x + change)%Z) <$> re_value e) (re_len e), None)) tt in Ok m
  | None => Ok m
  end.
(** iter — mod.rs:51-60: [elem.value?] returns before [index] is advanced *)
Fixpoint rnm_pairs (i : nat) (es : list rnm_elem) : list (nat * nat * Z) :=
  match es with
  | [] => []
  | e :: es' =>
      match re_value e with
      | None => rnm_pairs i es'
      | Some v => (i, i + re_len e, v) :: rnm_pairs (i + re_len e) es'
      end
  end.
Definition rnm_iter (m : rnm) : res (list (nat * nat * Z)) :=
  let? es := @BTree.iter RNMTrait m in Ok (rnm_pairs 0 es).
(** drain — mod.rs:85-100, run to exhaustion *)
Definition rnm_drain (m : rnm) (st en : nat) : res (list (nat * nat * Z) * rnm) :=
  let? a := query RNMFinder m st in
  let? b := query RNMFinder m en in
  let? (es, m) := @drain_range RNMTrait m a b (anext (leaf_nodes m) + 2) in
  Ok (rnm_pairs st es, m).
