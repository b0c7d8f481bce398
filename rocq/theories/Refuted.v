(** Refuted.v — concrete runs of the model in which a claim of properties.jsonl fails.
    The trees are built through the public API from an empty one.  The trait is the
    rope's with buffers of 4 bytes (any capacity exhibits the same behaviour). *)
From Verif Require Import Rope OrdMap.

Notation RT := (RopeTrait 4).
(** a gap buffer with the given content (at most 4 bytes) *)
Definition gbs (s : list nat) : gbuf :=
  match from_str 4 s with Ok (g :: _) => g | _ => gb_new 4 end.
Fixpoint pushes (t : btree RT) (l : list (list nat)) : res (btree RT) :=
  match l with [] => Ok t | s :: l' => let? (_, t) := @push RT t (gbs s) in pushes t l' end.
(** the content as a list of byte strings, one per leaf *)
Definition contents (t : btree RT) : res (list (list nat)) :=
  let? l := @BTree.iter RT t in Ok (map to_vec l).
Lemma rbind_Ok {A C} (m : res A) (f : A -> res C) c :
  rbind m f = Ok c -> exists a, m = Ok a /\ f a = Ok c.
Proof. destruct m; cbn; [eauto|done|done]. Qed.
Lemma Ok_inj {A} (a b : A) : Ok a = Ok b -> a = b.
Proof. by intros [= ->]. Qed.
Lemma pair_inj {A C} (a a' : A) (c c' : C) : (a, c) = (a', c') -> a = a' /\ c = c'.
Proof. by intros [= -> ->]. Qed.
(** evaluate the run [e] (returning the observations) and take it apart *)
Ltac take_apart H :=
  repeat match type of H with
  | rbind ?m _ = Ok _ =>
      let x := fresh "x" in let E := fresh "E" in
      apply rbind_Ok in H; destruct H as (x & E & H)
  | context [match ?x with (_, _) => _ end] => destruct x
  end.
Ltac run e v :=
  let H := fresh "H" in
  assert (H : e = Ok v) by (vm_compute; reflexivity); take_apart H; apply Ok_inj in H;
  repeat match type of H with
  | (_, _) = (_, _) => let H1 := fresh "H" in apply pair_inj in H; destruct H as [H H1]
  end.

Ltac conclude := repeat match goal with |- exists _, _ => eexists end; repeat match goal with |- _ /\ _ => split end.

Definition qr0 (l o : nat) : option qresult := Some (mkQR (mkCur l o) true).

(** C03: [prepend] on an empty tree leaves [root_cache] at its default. *)
Lemma prepend_empty_cache :
  exists c t, @prepend RT bt_new (gbs [1; 1]) = Ok (c, t)
    /\ contents t = Ok [[1; 1]] /\ root_cache t = 0%Z /\ check t = Panic.
Proof.
  run (let? (c, t) := @prepend RT bt_new (gbs [1; 1]) in Ok (contents t, root_cache t, check t))
      (Ok [[1; 1]], 0%Z, @Panic unit).
  conclude; subst; eassumption.
Qed.

(** C10: dropping the [Drain] of an empty tree panics, whatever the trait and the query. *)
Lemma drain_empty_panics (B : BTreeTrait) (Q : Query B) (a b : QArg Q) (k : nat) :
  drain_by_query Q (@bt_new B) a b k = Panic.
Proof. destruct k; reflexivity. Qed.
(** ... and so does the drain of an empty range at the end of a non-empty tree. *)
Lemma drain_end_panics :
  exists t, pushes bt_new [[1; 1]; [2; 2; 2; 2]] = Ok t
    /\ drain_by_query (RopeFinder 4) t 6 6 0 = Panic.
Proof.
  run (let? t := pushes bt_new [[1; 1]; [2; 2; 2; 2]] in
       Ok (drain_by_query (RopeFinder 4) t 6 6 0)) (@Panic (list gbuf * btree RT)).
  conclude; subst; eassumption.
Qed.

(** C22: from the end of the last leaf of a node the shift returns the start of the next
    leaf (absolute position 24) instead of position 25. *)
Lemma shift_from_end :
  exists t, pushes bt_new (repeat [1; 1; 1; 1] 12) = Ok t
    /\ @shift_path_by_one_offset RT t (mkCur 5 4) = Ok (Some (mkCur 6 0))
    /\ @shift_path_by_one_offset RT t (mkCur 4 4) = Ok (Some (mkCur 5 1)).
Proof.
  run (let? t := pushes bt_new (repeat [1; 1; 1; 1] 12) in
       Ok (@shift_path_by_one_offset RT t (mkCur 5 4), @shift_path_by_one_offset RT t (mkCur 4 4)))
      (Ok (Some (mkCur 6 0)), Ok (Some (mkCur 5 1))).
  conclude; subst; eassumption.
Qed.

(** C26 *)
Lemma unbounded_empty (B : BTreeTrait) :
  @iter_range B bt_new Unbounded Unbounded = Panic /\ @depth B bt_new = Panic.
Proof. done. Qed.

(** C28: bulk insertion of two or more elements in an empty tree panics ... *)
Lemma insert_many_empty_panics :
  @insert_many_by_cursor RT bt_new None [gbs [1; 1; 1; 1]; gbs [2; 2; 2; 2]] = Panic.
Proof. vm_compute. done. Qed.
(** ... and in the middle of a leaf the data is appended to the previous leaf. *)
Lemma insert_many_wrong_place :
  exists t t', pushes bt_new [[1]; [2; 3; 4; 5]] = Ok t
    /\ @insert_many_by_cursor RT t (Some (mkCur 1 2)) [gbs [8]; gbs [9; 9; 9; 9]] = Ok t'
    /\ contents t' = Ok [[1; 8]; [2; 3]; [9; 9; 9; 9]; [4; 5]].
Proof.
  run (let? t := pushes bt_new [[1]; [2; 3; 4; 5]] in
       let? t' := @insert_many_by_cursor RT t (Some (mkCur 1 2)) [gbs [8]; gbs [9; 9; 9; 9]] in
       Ok (contents t')) (Ok [[1; 8]; [2; 3]; [9; 9; 9; 9]; [4; 5]]).
  conclude; subst; eassumption.
Qed.

(** C29 *)
Lemma merge_adj_reorders :
  exists l, @merge_adj RT (map gbs [[1]; [2]; [3; 3; 3]; [4; 4]; [5]]) = Ok l
    /\ map to_vec l = [[1; 2]; [4; 4; 5]; [3; 3; 3]].
Proof.
  run (let? l := @merge_adj RT (map gbs [[1]; [2]; [3; 3; 3]; [4; 4]; [5]]) in Ok (map to_vec l))
      [[1; 2]; [4; 4; 5]; [3; 3; 3]].
  conclude; subst; eassumption.
Qed.

(** C31: an empty range panics, or (next to another range) is applied to a piece it does
    not cover. *)
Definition paint (e : gbuf) (n : nat) : gbuf := gbs (repeat n (gb_len e)).
Lemma ranges_empty_panics :
  exists t, pushes bt_new [[1; 2; 3; 4]] = Ok t
    /\ @update_leaves_with_arg_in_ranges RT nat paint (fun x => x) (fun x => x) t
         [(0, (0, 0, 7))] = Panic.
Proof.
  run (let? t := pushes bt_new [[1; 2; 3; 4]] in
       Ok (@update_leaves_with_arg_in_ranges RT nat paint (fun x => x) (fun x => x) t [(0, (0, 0, 7))]))
      (@Panic (list nat * btree RT)).
  conclude; subst; eassumption.
Qed.
Lemma ranges_empty_misapplied :
  exists t ls t', pushes bt_new [[1; 2; 3; 4]] = Ok t
    /\ @update_leaves_with_arg_in_ranges RT nat paint (fun x => x) (fun x => x) t
         [(0, (0, 0, 7)); (0, (2, 3, 9))] = Ok (ls, t')
    /\ contents t' = Ok [[7; 7; 9; 4]].
Proof.
  run (let? t := pushes bt_new [[1; 2; 3; 4]] in
       let? (_, t') := @update_leaves_with_arg_in_ranges RT nat paint (fun x => x) (fun x => x) t
         [(0, (0, 0, 7)); (0, (2, 3, 9))] in
       Ok (contents t')) (Ok [[7; 7; 9; 4]]).
  conclude; subst; eassumption.
Qed.

(** C33: [clear] keeps the cursor cache.  After it an insertion panics that succeeds on
    a new rope. *)
Lemma rope_clear_panics :
  exists r r', rope_insert 4 (rope_new 4) 0 (repeat 1 6) = Ok r
    /\ rope_insert 4 r 5 [7] = Ok r'
    /\ (let? x := rope_insert 4 (rope_clear 4 r') 0 (repeat 2 4) in rope_insert 4 x 4 [9]) = Panic
    /\ (let? x := rope_insert 4 (rope_new 4) 0 (repeat 2 4) in
        let? x := rope_insert 4 x 4 [9] in rope_to_bytes 4 x) = Ok [2; 2; 2; 2; 9].
Proof.
  run (let? r := rope_insert 4 (rope_new 4) 0 (repeat 1 6) in
       let? r' := rope_insert 4 r 5 [7] in
       Ok (let? x := rope_insert 4 (rope_clear 4 r') 0 (repeat 2 4) in rope_insert 4 x 4 [9]))
      (@Panic (rope 4)).
  eexists _, _. split_and!; [done|done|done|]. vm_compute. reflexivity.
Qed.

(** C37: deleting an absent key removes another entry. *)
Lemma ord_delete_absent :
  exists m m', om_insert Nat.compare (om_new Nat.compare) 5 50 = Ok m
    /\ om_delete Nat.compare m 3 = Ok (Some (5, 50), m')
    /\ om_iter Nat.compare m' = Ok [].
Proof.
  run (let? m := om_insert Nat.compare (om_new Nat.compare) 5 50 in
       let? (o, m') := om_delete Nat.compare m 3 in Ok (o, om_iter Nat.compare m'))
      (Some (5, 50), @Ok (list (nat * nat)) []).
  conclude; subst; eassumption.
Qed.

(** C43: [update] over a zero-length range inside an element does not call the closure
    (it counts its calls). *)
Lemma update_zero_length :
  exists t t' l, pushes bt_new [[1; 2; 3; 4]] = Ok t
    /\ @update RT nat (fun x => x) t (mkCur 0 1) (mkCur 0 1) (fun n e => (S n, e, None)) 0
       = Ok (l, 0, t').
Proof.
  run (let? t := pushes bt_new [[1; 2; 3; 4]] in
       let? (l, n, t') := @update RT nat (fun x => x) t (mkCur 0 1) (mkCur 0 1)
          (fun n e => (S n, e, None)) 0 in Ok n) 0.
  conclude; subst; eassumption.
Qed.

(** C44: 99 one-byte leaves, an empty one, a last one-byte leaf; draining from leaf 5 to
    the empty leaf leaves 6 bytes but [root_cache] says 15. *)
Lemma drain_zero_length :
  exists t t' l, @from_iter RT (repeat (gbs [1]) 99 ++ [gb_new 4; gbs [1]]) = Ok t
    /\ check t = Ok tt
    /\ @drain_range RT t (qr0 5 0) (qr0 99 0) 0 = Ok (l, t')
    /\ contents t' = Ok [[1]; [1]; [1]; [1]; [1]; []; [1]]
    /\ root_cache t' = 15%Z /\ check t' = Panic.
Proof.
  run (let? t := @from_iter RT (repeat (gbs [1]) 99 ++ [gb_new 4; gbs [1]]) in
       let? (l, t') := @drain_range RT t (qr0 5 0) (qr0 99 0) 0 in
       Ok (check t, contents t', root_cache t', check t'))
      (Ok tt, Ok [[1]; [1]; [1]; [1]; [1]; []; [1]], 15%Z, @Panic unit).
  conclude; subst; eassumption.
Qed.

(** C45: after the last entry of an ordered map is deleted the root cache keeps the old
    bounds and the self-check fails. *)
Lemma ord_delete_last_check :
  exists m m' e, om_insert Nat.compare (om_new Nat.compare) 5 50 = Ok m
    /\ om_delete Nat.compare m 5 = Ok (Some e, m')
    /\ om_iter Nat.compare m' = Ok []
    /\ root_cache (om_tree Nat.compare m') = Some (5, 5)
    /\ check (om_tree Nat.compare m') = Panic.
Proof.
  run (let? m := om_insert Nat.compare (om_new Nat.compare) 5 50 in
       let? (o, m') := om_delete Nat.compare m 5 in
       Ok (o, om_iter Nat.compare m', root_cache (om_tree Nat.compare m'), check (om_tree Nat.compare m')))
      (Some (5, 50), @Ok (list (nat * nat)) [], Some (5, 5), @Panic unit).
  conclude; subst; eassumption.
Qed.
