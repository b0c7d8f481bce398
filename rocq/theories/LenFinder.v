(** LenFinder.v — transcription of /repo/src/generic_impl/len_finder.rs. *)
From Verif Require Export Trait.

(** LengthFinder — len_finder.rs:9-13 *)
Record lfinder : Type := mkLF { lf_left : nat; lf_slot : nat; lf_parent : option nat }.

Section lf.
Context {B : BTreeTrait} (get_len : Cache B -> nat).   (* UseLengthFinder::get_len, 33-35 *)

(** the loop of find_node — 60-72: [inl (i, left)] when found, else [inr (last_left)] *)
Fixpoint lf_scan (cs : list (child B)) (i left last_left : nat) : nat * nat * child B + nat :=
  match cs with
  | [] => inr last_left
  | c :: cs' =>
      let len := get_len (c_cache c) in
      if decide (len <= left) then lf_scan cs' (S i) (left - len) left
      else inl (i, left, c)
  end.
(** find_node — 52-82 *)
Definition lf_find (s : lfinder) (q : nat) (cs : list (child B)) : res (nat * nat * bool * lfinder) :=
  match cs with
  | [] => Panic
  | c0 :: _ =>
      let internal := is_internal (c_arena c0) in
      match lf_scan cs 0 (lf_left s) (lf_left s) with
      | inl (i, lft, c) =>
          Ok (i, lft, true,
              if internal then mkLF lft (lf_slot s) (Some (raw (c_arena c)))
              else mkLF lft i (lf_parent s))
      | inr lst =>
          let? c := ropt (last cs) in
          Ok (length cs - 1, lst, false,
              if internal then mkLF lst (lf_slot s) (Some (raw (c_arena c)))
              else mkLF lst (length cs - 1) (lf_parent s))
      end
  end.
(** Query for LengthFinder — 37-91 *)
Definition LengthFinder : Query B :=
  mkQuery B lfinder nat
    (fun q => mkLF q 0 None)
    lf_find
    (fun s _ e => (lf_left s, bool_decide (lf_left s < rle_len e), s)).
End lf.
