(** Trait.v — the trait interface of the library and the data layout of a tree. *)
From Verif Require Export Base.

(** MAX_CHILDREN_NUM — /repo/src/lib.rs:27 *)
Notation MAX_CHILDREN_NUM := 12 (only parsing).
(** capacity of a NodePath — /repo/src/lib.rs:120 *)
Notation PATH_CAP := 10 (only parsing).

(** BTreeTrait (/repo/src/lib.rs:30-47) together with the element traits of
    /repo/src/rle.rs:5-115 it requires.  [&mut self] methods return the new value.
    Simplifications: [calc_cache_internal] receives the child caches only (no
    implementation reads the child arena index); [try_insert] returns [inl self']
    for [Ok(())] and [inr elem] for [Err(elem)] (self unchanged). *)
Record BTreeTrait : Type := mkBT {
  Elem : Type;
  Cache : Type;
  Diff : Type;
  USE_DIFF : bool;                                              (* lib.rs:38 *)
  rle_len : Elem -> nat;                                        (* rle.rs:104 *)
  e_split : Elem -> nat -> res (Elem * Elem);                   (* rle.rs:34: (self, right) *)
  can_merge : Elem -> Elem -> bool;                             (* rle.rs:98 *)
  merge_right : Elem -> Elem -> res Elem;                       (* rle.rs:99 *)
  merge_left : Elem -> Elem -> res Elem;                        (* rle.rs:100 *)
  try_insert : Elem -> nat -> Elem -> res (Elem + Elem);        (* rle.rs:108 *)
  can_remove : Elem -> bool;                                    (* rle.rs:114 *)
  cache_default : Cache;                                        (* lib.rs:35 Default *)
  cache_eqb : Cache -> Cache -> bool;                           (* lib.rs:35 Eq *)
  calc_cache_internal : Cache -> list Cache -> res (Cache * Diff); (* lib.rs:41 *)
  apply_cache_diff : Cache -> Diff -> res Cache;                (* lib.rs:42 *)
  merge_cache_diff : Diff -> Diff -> Diff;                      (* lib.rs:43 *)
  get_elem_cache : Elem -> Cache;                               (* lib.rs:44 *)
  new_cache_to_diff : Cache -> Diff;                            (* lib.rs:45 *)
  sub_cache : Cache -> Cache -> Diff;                           (* lib.rs:46 *)
}.
Arguments USE_DIFF {_}.
Arguments rle_len {_} _.
Arguments e_split {_} _ _.
Arguments can_merge {_} _ _.
Arguments merge_right {_} _ _.
Arguments merge_left {_} _ _.
Arguments try_insert {_} _ _ _.
Arguments can_remove {_} _.
Arguments cache_default {_}.
Arguments cache_eqb {_} _ _.
Arguments calc_cache_internal {_} _ _.
Arguments apply_cache_diff {_} _ _.
Arguments merge_cache_diff {_} _ _.
Arguments get_elem_cache {_} _.
Arguments new_cache_to_diff {_} _.
Arguments sub_cache {_} _ _.

(** ArenaIndex — /repo/src/lib.rs:149-176 *)
Inductive aidx : Type := ALeaf (i : nat) | AInt (i : nat).
Global Instance aidx_eq_dec : EqDecision aidx.
Proof. solve_decision. Defined.
Global Instance aidx_countable : Countable aidx.
Proof.
  refine (inj_countable'
    (fun a => match a with ALeaf i => inl i | AInt i => inr i end)
    (fun s => match s with inl i => ALeaf i | inr i => AInt i end) _).
  by intros [].
Defined.
Definition raw (a : aidx) : nat := match a with ALeaf i => i | AInt i => i end. (* unwrap *)
Definition unwrap_leaf (a : aidx) : res nat :=
  match a with ALeaf i => Ok i | AInt _ => Panic end.
Definition unwrap_internal (a : aidx) : res nat :=
  match a with AInt i => Ok i | ALeaf _ => Panic end.
Definition is_leaf (a : aidx) : bool := match a with ALeaf _ => true | _ => false end.
Definition is_internal (a : aidx) : bool := match a with AInt _ => true | _ => false end.

(** Idx (path entry) — /repo/src/lib.rs:108-118; Cursor 122-126; QueryResult 128-132 *)
Record idx : Type := mkIdx { i_arena : aidx; i_arr : nat }.
Record cursor : Type := mkCur { cu_leaf : nat; cu_offset : nat }.
Record qresult : Type := mkQR { qr_cursor : cursor; qr_found : bool }.
Global Instance idx_eq_dec : EqDecision idx.
Proof. solve_decision. Defined.
Global Instance cursor_eq_dec : EqDecision cursor.
Proof. solve_decision. Defined.

Section layout.
  Context {B : BTreeTrait}.
  (** Child — /repo/src/lib.rs:373-376 *)
  Record child : Type := mkChild { c_arena : aidx; c_cache : Cache B }.
  (** Node — /repo/src/lib.rs:268-272 *)
  Record node : Type := mkNode { n_parent : option aidx; n_slot : nat; n_children : list child }.
  (** LeafNode — /repo/src/lib.rs:243-246 *)
  Record leafn : Type := mkLeaf { l_elem : Elem B; l_parent : nat }.
  (** BTree — /repo/src/lib.rs:62-71 *)
  Record btree : Type := mkTree {
    in_nodes : arena node; leaf_nodes : arena leafn; root : aidx; root_cache : Cache B }.
End layout.
Arguments child : clear implicits.
Arguments node : clear implicits.
Arguments leafn : clear implicits.
Arguments btree : clear implicits.

(** Query — /repo/src/lib.rs:49-60.  [q_find] returns (index, offset, found, new state)
    (FindResult, lib.rs:84-88). *)
Record Query (B : BTreeTrait) : Type := mkQuery {
  Qst : Type;
  QArg : Type;
  q_init : QArg -> Qst;
  q_find : Qst -> QArg -> list (child B) -> res (nat * nat * bool * Qst);
  q_confirm : Qst -> QArg -> Elem B -> nat * bool * Qst;
}.
Arguments Qst {B} _.
Arguments QArg {B} _.
Arguments q_init {B} _ _.
Arguments q_find {B} _ _ _ _.
Arguments q_confirm {B} _ _ _ _.
