(** Base.v — result monad, arenas and bounded vectors used by the model.

    The model is a transcription of /repo (generic-btree).  A Rust function
    taking [&mut self] becomes a function returning the new tree; a panic
    ([unwrap] on [None], an out-of-range index, [assert!], [debug_assert!], [unreachable!])
    becomes the value [Panic]; a loop that is not structurally decreasing runs
    on explicit fuel and returns [OutOfFuel] when the fuel is exhausted.  Every
    theorem about success states the result to be [Ok _], hence excludes both. *)
From stdpp Require Export gmap list.
From Coq Require Export Lia.

Inductive res (A : Type) : Type :=
| Ok (a : A)
| Panic
| OutOfFuel.
Arguments Ok {A} a.
Arguments Panic {A}.
Arguments OutOfFuel {A}.

Definition rbind {A C : Type} (m : res A) (f : A -> res C) : res C :=
  match m with Ok a => f a | Panic => Panic | OutOfFuel => OutOfFuel end.

Notation "'let?' x ':=' e 'in' k" := (rbind e (fun x => k))
  (at level 200, x pattern, e at level 100, k at level 200, right associativity,
   format "'[v' 'let?'  x  ':='  e  'in' '/' k ']'").

Definition ropt {A : Type} (o : option A) : res A :=       (* Option::unwrap *)
  match o with Some a => Ok a | None => Panic end.
Definition rassert (b : bool) : res unit := if b then Ok tt else Panic.

(** ** Arena — models the external crate [thunderdome] ([Arena]/[Index], imported
    at /repo/src/lib.rs:13-14).  An index that has been handed out is never handed
    out again (generational indices); we therefore number insertions from 0 and do
    not reuse numbers.  Simplification: the 32-bit wrap-around of generations and
    the numeric order of recycled indices are not modelled. *)
Record arena (A : Type) : Type := mkArena { amap : gmap nat A; anext : nat }.
Arguments mkArena {A} _ _.
Arguments amap {A} _.
Arguments anext {A} _.

Definition a_new {A} : arena A := mkArena ∅ 0.                       (* Arena::new *)
Definition a_get {A} (a : arena A) (i : nat) : option A := amap a !! i.  (* get/get_mut *)
Definition a_set {A} (a : arena A) (i : nat) (v : A) : arena A :=     (* *get_mut(i) = v *)
  mkArena (<[i := v]> (amap a)) (anext a).
Definition a_insert {A} (a : arena A) (v : A) : nat * arena A :=      (* insert *)
  (anext a, mkArena (<[anext a := v]> (amap a)) (S (anext a))).
Definition a_remove {A} (a : arena A) (i : nat) : arena A :=          (* remove *)
  mkArena (delete i (amap a)) (anext a).
Definition a_len {A} (a : arena A) : nat := size (amap a).            (* len *)

(** ** Bounded vectors — models [heapless::Vec<_, N>]. *)
Definition vec_get {A} (l : list A) (i : nat) : res A := ropt (l !! i).   (* l[i] *)
(* heapless::Vec::insert(i, x).unwrap(): panics when i > len or the vector is full *)
Definition vec_insert {A} (cap : nat) (l : list A) (i : nat) (x : A) : res (list A) :=
  if decide (i <= length l /\ length l < cap) then Ok (take i l ++ x :: drop i l) else Panic.
(* heapless::Vec::push(x).unwrap() *)
Definition vec_push {A} (cap : nat) (l : list A) (x : A) : res (list A) :=
  if decide (length l < cap) then Ok (l ++ [x]) else Panic.
(* heapless::Vec::remove(i): panics when i >= len *)
Definition vec_remove {A} (l : list A) (i : nat) : res (A * list A) :=
  match l !! i with Some x => Ok (x, take i l ++ drop (S i) l) | None => Panic end.
(* l[i] = x : panics when i >= len *)
Definition vec_set {A} (l : list A) (i : nat) (x : A) : res (list A) :=
  if decide (i < length l) then Ok (<[i := x]> l) else Panic.

(** delete_range — /repo/src/lib.rs:2989-3016 (a [RangeBounds] is resolved by the
    caller of the model to [start..end]; slicing out of range panics). *)
Definition delete_range {A} (l : list A) (st en : nat) : res (list A) :=
  if decide (st = en) then Ok l
  else if decide (en < st) then Panic        (* [end - start] underflows *)
  else if decide (en - st = 1) then
    let? (_, l') := vec_remove l st in Ok l'
  else if decide (st <= length l /\ en <= length l) then Ok (take st l ++ drop en l)
  else Panic.

Fixpoint find_index {A} (f : A -> bool) (l : list A) : option nat :=  (* Iterator::position *)
  match l with
  | [] => None
  | x :: l' => if f x then Some 0 else S <$> find_index f l'
  end.
