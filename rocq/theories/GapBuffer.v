(** GapBuffer.v — transcription of /repo/src/generic_impl/gap_buffer.rs. *)
From Verif Require Export Base.

(** GapBuffer — gap_buffer.rs:10-15.  [buffer : [u8; MAX_STRING_SIZE]] is a list of
    length [CAP].  MAX_STRING_SIZE (lines 5-8: 128, or 12 when compiled for unit tests)
    is the parameter [CAP]; bytes are [nat]s (the code never computes with them);
    the u16 fields are unbounded (CAP fits in u16). *)
Record gbuf : Type := mkGB { gb_buf : list nat; gb_start : nat; gb_gap : nat }.

Section gb.
Context (CAP : nat).

(** new — gap_buffer.rs:18-24 *)
Definition gb_new : gbuf := mkGB (repeat 0 CAP) 0 CAP.
(** len — 125-127, capacity — 120-122 *)
Definition gb_len (g : gbuf) : nat := length (gb_buf g) - gb_gap g.
Definition gb_capacity (g : gbuf) : nat := length (gb_buf g).

(** slice::copy_within(a..b, dest): memmove, panics when out of range *)
Definition copy_within (l : list nat) (a b dest : nat) : res (list nat) :=
  if decide (a <= b /\ b <= length l /\ dest + (b - a) <= length l)
  then Ok (take dest l ++ take (b - a) (drop a l) ++ drop (dest + (b - a)) l)
  else Panic.
(** buffer[a..a+bytes.len()].copy_from_slice(bytes): panics when out of range *)
Definition copy_from_slice (l : list nat) (a : nat) (bytes : list nat) : res (list nat) :=
  if decide (a + length bytes <= length l)
  then Ok (take a l ++ bytes ++ drop (a + length bytes) l) else Panic.

(** shift_at — 26-48 *)
Definition shift_at (g : gbuf) (index : nat) : res gbuf :=
  if decide (gb_len g < index) then Panic
  else
    let gs := gb_start g in
    let ge := gb_start g + gb_gap g in
    match Nat.compare index gs with
    | Eq => Ok g
    | Lt =>
        let mv := gs - index in
        let? b := copy_within (gb_buf g) index gs (ge - mv) in
        Ok (mkGB b (gs - mv) (gb_gap g))
    | Gt =>
        let mv := index - gs in
        let move_end := Nat.min (length (gb_buf g)) (ge + mv) in
        let? b := copy_within (gb_buf g) ge move_end gs in
        Ok (mkGB b (gs + mv) (gb_gap g))
    end.

(** push — 51-59 (unused by the crate); [None] is [Err(())] *)
Definition gb_push (g : gbuf) (v : nat) : res (option gbuf) :=
  if decide (gb_gap g = 0) then Ok None
  else
    let? b := vec_set (gb_buf g) (gb_start g) v in
    Ok (Some (mkGB b (S (gb_start g)) (gb_gap g - 1))).
(** insert_bytes — 66-76; [None] is [Err(())] *)
Definition insert_bytes (g : gbuf) (index : nat) (bytes : list nat) : res (option gbuf) :=
  if decide (gb_gap g < length bytes) then Ok None
  else
    let? g := shift_at g index in
    let? b := copy_from_slice (gb_buf g) index bytes in
    Ok (Some (mkGB b (gb_start g + length bytes) (gb_gap g - length bytes))).
(** push_bytes — 62-64 *)
Definition push_bytes (g : gbuf) (bytes : list nat) : res (option gbuf) :=
  insert_bytes g (gb_len g) bytes.
(** insert_bytes_pair — 78-94 *)
Definition insert_bytes_pair (g : gbuf) (index : nat) (l r : list nat) : res (option gbuf) :=
  let len := length l + length r in
  if decide (gb_gap g < len) then Ok None
  else
    let? g := shift_at g index in
    let? b := copy_from_slice (gb_buf g) index l in
    let? b := copy_from_slice b (index + length l) r in
    Ok (Some (mkGB b (gb_start g + len) (gb_gap g - len))).
(** delete — 96-117, for the resolved range [start..end] *)
Definition gb_delete (g : gbuf) (st en : nat) : res gbuf :=
  let en := Nat.min en (gb_len g) in
  let st := Nat.min (Nat.min st (gb_len g)) en in
  if decide (st = en) then Ok g
  else
    let? g := shift_at g en in
    Ok (mkGB (gb_buf g) st (gb_gap g + (en - st))).
(** as_bytes — 129-134 *)
Definition gb_left (g : gbuf) : list nat := take (gb_start g) (gb_buf g).
Definition gb_right (g : gbuf) : list nat := drop (gb_start g + gb_gap g) (gb_buf g).
(** to_vec — 137-143 *)
Definition to_vec (g : gbuf) : list nat := gb_left g ++ gb_right g.
(** from_str — 145-160: the list of buffers yielded (run to exhaustion) *)
Fixpoint from_str_f (f : nat) (s : list nat) : res (list gbuf) :=
  match s with
  | [] => Ok []
  | _ =>
      match f with
      | 0 => OutOfFuel
      | S f' =>
          let? o := push_bytes gb_new (take CAP s) in
          let? g := ropt o in
          let? r := from_str_f f' (drop CAP s) in Ok (g :: r)
      end
  end.
Definition from_str (s : list nat) : res (list gbuf) := from_str_f (length s) s.

(** Sliceable::_slice — 170-184 *)
Definition vslice (l : list nat) (a b : nat) : res (list nat) :=
  if decide (a <= b /\ b <= length l) then Ok (take (b - a) (drop a l)) else Panic.
Definition gb_slice (g : gbuf) (st en : nat) : res gbuf :=
  let l := gb_left g in
  let r := gb_right g in
  let? gb :=
    if decide (st < length l) then
      let? x := vslice l st (Nat.min en (length l)) in
      let? o := push_bytes gb_new x in ropt o
    else Ok gb_new in
  let? gb :=
    if decide (length l < en) then
      let? x := vslice r (st - length l) (en - length l) in
      let? o := push_bytes gb x in ropt o
    else Ok gb in
  let? _ := rassert (bool_decide (st <= en /\ gb_len gb = en - st)) in Ok gb.  (* debug_assert_eq!, 184; [end - start] underflows *)
(** slice_ — 186-204 *)
Definition gb_slice_ (g : gbuf) (st en : nat) : res gbuf :=
  let? g := gb_delete g en (gb_len g) in
  let? g := gb_delete g 0 st in
  let? _ := rassert (bool_decide (st <= en /\ gb_len g = en - st)) in Ok g.    (* debug_assert_eq!, 205; [end - start] underflows *)
(** split — 206-215: (self, right) *)
Definition gb_split (g : gbuf) (pos : nat) : res (gbuf * gbuf) :=
  let? g := shift_at g pos in
  let? o := push_bytes gb_new (gb_right g) in
  let? r := ropt o in
  Ok (mkGB (gb_buf g) (gb_start g) (gb_capacity g - pos), r).
(** Mergeable — 218-232 *)
Definition gb_can_merge (a b : gbuf) : bool := bool_decide (gb_len a + gb_len b <= CAP).
Definition gb_merge_right (g rhs : gbuf) : res gbuf :=
  let? o := insert_bytes_pair g (gb_len g) (gb_left rhs) (gb_right rhs) in ropt o.
Definition gb_merge_left (g lft : gbuf) : res gbuf :=
  let? o := insert_bytes_pair g 0 (gb_left lft) (gb_right lft) in ropt o.
(** TryInsert — 234-247 *)
Definition gb_try_insert (g : gbuf) (pos : nat) (e : gbuf) : res (gbuf + gbuf) :=
  if decide (CAP < gb_len g + gb_len e) then Ok (inr e)
  else
    let? o := insert_bytes_pair g pos (gb_left e) (gb_right e) in
    let? g := ropt o in Ok (inl g).
(** CanRemove — 249-253 *)
Definition gb_can_remove (g : gbuf) : bool := bool_decide (gb_len g = 0).

End gb.
