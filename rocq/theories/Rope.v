(** Rope.v — transcription of /repo/src/generic_impl/rope.rs (lines 1-339). *)
From Coq Require Export ZArith.
From Verif Require Export BTree GapBuffer LenFinder.

Section rope.
Context (CAP : nat).    (* MAX_STRING_SIZE, gap_buffer.rs:5-8 *)

(** impl BTreeTrait for RopeTrait — rope.rs:276-312 ([isize] is [Z]) *)
Definition RopeTrait : BTreeTrait :=
  mkBT gbuf Z Z true
    gb_len
    (fun e p => gb_split CAP e p)
    (gb_can_merge CAP)
    gb_merge_right
    gb_merge_left
    (gb_try_insert CAP)
    gb_can_remove
    0%Z
    Z.eqb
    (fun c cs => let new := foldr Z.add 0%Z cs in Ok (new, (new - c)%Z))
    (fun c d => Ok (c + d)%Z)
    (fun a b => (a + b)%Z)
    (fun e => Z.of_nat (gb_len e))
    (fun c => c)
    (fun a b => (a - b)%Z).

(** get_len — rope.rs:30-35.  [as usize] of a negative number is not modelled ([0]). *)
Definition rope_get_len (c : Z) : nat := Z.to_nat c.
Definition RopeFinder : Query RopeTrait := @LengthFinder RopeTrait rope_get_len.

(** Rope and its cursor — rope.rs:17-28 *)
Record rcursor : Type := mkRC { rc_pos : nat; rc_leaf : nat }.
Record rope : Type := mkRope { rp_tree : btree RopeTrait; rp_cursor : option rcursor }.

Definition rope_new : rope := mkRope bt_new None.                     (* 225-230 *)
Definition rope_len (r : rope) : nat := Z.to_nat (root_cache (rp_tree r)). (* 39-41 *)
Definition rope_is_empty (r : rope) : bool := Z.eqb (root_cache (rp_tree r)) 0. (* 44-46 *)
Definition rope_clear (r : rope) : rope := mkRope (clear (rp_tree r)) (rp_cursor r). (* 242-244 *)

Fixpoint push_all (t : btree RopeTrait) (gs : list gbuf) : res (btree RopeTrait) := (* 54-56 *)
  match gs with
  | [] => Ok t
  | g :: gs' => let? (_, t) := @push RopeTrait t g in push_all t gs'
  end.

(** the closure of Rope::insert — rope.rs:68-82: (leaf', right, success) *)
Definition rope_ins_closure (leaf : gbuf) (offset : nat) (s : list nat)
  : res (gbuf * option gbuf * bool) :=
  if decide (gb_len leaf + length s < CAP) then
    let? o := insert_bytes leaf offset s in
    let? g := ropt o in Ok (g, None, true)
  else
    let? (lf, rg) := gb_split CAP leaf offset in
    if decide (gb_len lf + length s < CAP) then
      let? o := push_bytes lf s in
      match o with
      | Some lf => Ok (lf, Some rg, true)
      | None => Ok (lf, Some rg, false)
      end
    else
      let? o := insert_bytes rg 0 s in
      match o with
      | Some rg => Ok (lf, Some rg, true)
      | None => Ok (lf, Some rg, false)
      end.

(** the cursor shortcut of insert — rope.rs:60-94: (done, rope).  The closure is
    evaluated on the leaf before [update_leaf] applies it. *)
Definition rope_ins_cursor (r : rope) (index : nat) (s : list nat) : res (bool * rope) :=
  match rp_cursor r with
  | None => Ok (false, r)
  | Some (mkRC pos leaf) =>
      if decide (pos <= index) then
        let? lf := @get_lf RopeTrait (rp_tree r) leaf in
        if decide (index <= pos + gb_len (l_elem lf)) then
          let? (e', rg, success) := rope_ins_closure (l_elem lf) (index - pos) s in
          let? (valid, _, t) :=
            @update_leaf RopeTrait (rp_tree r) leaf (fun _ => (e', (true, rg, None))) in
          Ok (success, mkRope t (if (valid : bool) then rp_cursor r else None))
        else Ok (false, r)
      else Ok (false, r)
  end.

(** insert — rope.rs:48-119 *)
Definition rope_insert (r : rope) (index : nat) (s : list nat) : res rope :=
  if decide (rope_len r < index) then Panic
  else if rope_is_empty r then
    let? gs := from_str CAP s in
    let? t := push_all (rp_tree r) gs in
    Ok (mkRope t (rp_cursor r))
  else
    let? (done, r) := rope_ins_cursor r index s in
    if (done : bool) then Ok r
    else
      let t := rp_tree r in
      let? (q, f) := query_with_finder_return RopeFinder t index in
      let? cur :=
        match q with
        | None => Ok None
        | Some q =>
            if decide (cu_offset (qr_cursor q) = 0) then
              match lf_slot f, lf_parent f with
              | S s', Some p =>
                  let? n := get_in t p in
                  let? c := vec_get (n_children n) s' in
                  let clen : nat := Z.to_nat (c_cache c) in
                  let? _ := rassert (bool_decide (clen <= index)) in
                  Ok (Some (mkRC (index - clen) (raw (c_arena c))))
              | _, _ => Ok None
              end
            else
              let? _ := rassert (bool_decide (cu_offset (qr_cursor q) <= index)) in
              Ok (Some (mkRC (index - cu_offset (qr_cursor q)) (cu_leaf (qr_cursor q))))
        end in
      let? gs := from_str CAP s in
      let? t := @insert_many_by_cursor RopeTrait t (qr_cursor <$> q) gs in
      Ok (mkRope t cur).

(** delete_range — rope.rs:121-202, for the resolved range [start..end]
    (lines 126-135; an unbounded end is [self.len()]) *)
Definition rope_delete_range (r : rope) (st en : nat) : res rope :=
  if rope_is_empty r then Ok r
  else
    let en := Nat.min en (rope_len r) in
    let st := Nat.min st en in
    if decide (st = en) then Ok r
    else
      let? o :=
        match rp_cursor r with
        | Some (mkRC pos leaf) =>
            if decide (pos <= st) then
              let? lf := @get_lf RopeTrait (rp_tree r) leaf in
              if decide (en <= pos + gb_len (l_elem lf)) then
                let? g := gb_delete (l_elem lf) (st - pos) (en - pos) in
                let? (valid, _, t) :=
                  @update_leaf RopeTrait (rp_tree r) leaf (fun _ => (g, (true, None, None))) in
                Ok (Some (mkRope t (if (valid : bool) then rp_cursor r else None)))
              else Ok None
            else Ok None
        | None => Ok None
        end in
      match o with
      | Some r => Ok r
      | None =>
          let t := rp_tree r in
          if decide (en - st = 1) then
            (* the closure deletes one byte at the found offset; [delete] cannot panic
               on a well-formed buffer, a panic is propagated *)
            let? (l, off, g) :=
              let? q := query RopeFinder t st in
              let? q := ropt q in
              let? lf := get_lf t (cu_leaf (qr_cursor q)) in
              let? g := gb_delete (l_elem lf) (cu_offset (qr_cursor q)) (S (cu_offset (qr_cursor q))) in
              Ok (cu_leaf (qr_cursor q), cu_offset (qr_cursor q), g) in
            let? (c, _, t) :=
              update_leaf_by_search RopeFinder t st
                (fun e q => (match gb_delete e (cu_offset (qr_cursor q)) (S (cu_offset (qr_cursor q))) with
                             | Ok g => g | _ => e end,
                             Some ((-1)%Z, None, None))) in
            match c with
            | None => Ok (mkRope t None)
            | Some c =>
                let? _ := rassert (bool_decide (cu_offset c <= st)) in
                Ok (mkRope t (Some (mkRC (st - cu_offset c) (cu_leaf c))))
            end
          else
            let? from := query RopeFinder t st in
            let? to := query RopeFinder t en in
            match from, to with
            | Some f, Some g =>
                if decide (cu_leaf (qr_cursor f) = cu_leaf (qr_cursor g)) then
                  let? lf := get_lf t (cu_leaf (qr_cursor f)) in
                  let fo := cu_offset (qr_cursor f) in
                  let go := cu_offset (qr_cursor g) in
                  if decide (fo = 0 /\ go = gb_len (l_elem lf)) then
                    let? (_, t) := @remove_leaf RopeTrait t (qr_cursor f) in Ok (mkRope t None)
                  else
                    let? e := gb_delete (l_elem lf) fo go in
                    let t := @set_lf RopeTrait t (cu_leaf (qr_cursor f)) (@with_elem RopeTrait lf e) in
                    let? t := @recursive_update_cache RopeTrait t (ALeaf (cu_leaf (qr_cursor f))) true
                                (Some (Z.of_nat st - Z.of_nat en)%Z) in
                    Ok (mkRope t None)
                else
                  let? (_, t) := @drain_range RopeTrait t from to 0 in Ok (mkRope t None)
            | _, _ =>
                let? (_, t) := @drain_range RopeTrait t from to 0 in Ok (mkRope t None)
            end
      end.

(** last_path — lib.rs:1648-1674 *)
Fixpoint last_path_f (f : nat) (t : btree RopeTrait) (x : aidx) (pos : nat) (acc : list idx)
  : res (list idx) :=
  match f with
  | 0 => OutOfFuel
  | S f' =>
      let? acc := vec_push 10 acc (mkIdx x pos) in
      match x with
      | ALeaf _ => Ok acc
      | AInt i =>
          let? n := get_in t i in
          let? c := ropt (last (n_children n)) in
          last_path_f f' t (c_arena c) (length (n_children n) - 1) acc
      end
  end.
Definition last_path (t : btree RopeTrait) : res (option (list idx)) :=
  let? r := get_internal t (root t) in
  if n_is_empty r then Ok None
  else let? p := last_path_f (S (fuel t)) t (root t) 0 [] in Ok (Some p).

(** iter — rope.rs:204-219; to_string — 263-274: the bytes passed to [from_utf8]
    (the check itself: Utf8.v) *)
Definition rope_to_bytes (r : rope) : res (list nat) :=
  let t := rp_tree r in
  let? o := @first_path RopeTrait t in
  match o with
  | None => Ok []
  | Some p =>
      let? lp := last_path t in
      let? lp := ropt lp in
      let? ls := @leaf_iter_f RopeTrait (S (anext (leaf_nodes t))) t p (last lp) in
      Ok (concat (map (fun x : nat * leafn RopeTrait => to_vec (@l_elem RopeTrait (snd x))) ls))
  end.
Definition rope_check (r : rope) : res unit := check (rp_tree r).     (* 247-250 *)
End rope.
