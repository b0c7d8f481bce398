(** PropProg2.v — C61: the unit tests of rope.rs that reach into the tree; C28: insert_many_by_cursor without a cursor. *)
From Verif Require Import Demo25.

(** ** C61: test_clear, from_str, from_iter, drain of rope.rs, for any strings; [CAP] is the capacity of a buffer.
    [Forall (fun b => b < 128)]: the strings are ASCII. *)
Theorem C61_test_clear CAP s s2 : 0 < CAP -> Forall (fun b => b < 128) s2 -> length s2 <= 5 ^ 9 -> ut_clear CAP s s2 = Ok tt.
Proof. exact (fun H => ut_clear_pass CAP H s s2). Qed.
Print Assumptions C61_test_clear.
Theorem C61_from_str CAP s : 0 < CAP -> 0 < length s <= CAP -> ut_from_str CAP s = Ok tt.
Proof. exact (fun H => ut_from_str_pass CAP H s). Qed.
Print Assumptions C61_from_str.
Theorem C61_from_iter CAP v : 0 < CAP -> Forall (Forall (fun b => b < 128)) v -> length (concat v) <= 10 ^ 9 -> ut_from_iter CAP v = Ok tt.
Proof. exact (fun H => ut_from_iter_pass CAP H v). Qed.
Print Assumptions C61_from_iter.
(** the loop ends after at most one round per byte *)
Theorem C61_drain CAP f v : 0 < CAP -> length (concat v) < f -> ut_drain CAP f v = Ok tt.
Proof. exact (fun H => ut_drain_pass CAP H f v). Qed.
Print Assumptions C61_drain.
Example C61_tests_example : ut_from_iter 3 [[104; 101; 108; 108; 111]; []; [119; 111; 114; 108; 100]] = Ok tt /\
  ut_drain 3 11 [[104; 101; 108; 108; 111]; []; [119; 111; 114; 108; 100]] = Ok tt /\ ut_clear 3 [1; 2; 3; 4; 5] [65; 66; 67; 68] = Ok tt /\ ut_from_str 3 [65; 66] = Ok tt.
Proof. exact tests_demo. Qed.

(** ** C28 without a cursor, on every intact tree: nothing happens for no data, [push] if the data compact to one element;
    otherwise it panics (finding: on the empty tree too, where it should build a tree) *)
Theorem C28_no_cursor_refuted (B : BTreeTrait) (L : Lawful B) (U : Type) (F : Flatten L U) (t : btree B) xs data : Tree L t xs -> Forall (evalid L) data ->
  match data with
  | [] => insert_many_by_cursor t None data = Ok t
  | [x] => insert_many_by_cursor t None data = (let? (_, t') := push t x in Ok t')
  | _ => exists d, merge_adj data = Ok d /\
      match d with
      | [x] => insert_many_by_cursor t None data = (let? (_, t') := push t x in Ok t')
      | _ => insert_many_by_cursor t None data = Panic
      end
  end.
Proof. exact (no_cursor L F t xs data). Qed.
Print Assumptions C28_no_cursor_refuted.
Example C28_no_cursor_example : (let? d := @merge_adj RT [gbs [1; 1; 1; 1]; gbs [2; 2; 2; 2]] in Ok (length d)) = Ok 2 /\
  match pushes bt_new [[1]; [2; 3; 4; 5]] with Ok t => @insert_many_by_cursor RT t None [gbs [1; 1; 1; 1]; gbs [2; 2; 2; 2]] = Panic | _ => False end.
Proof. exact no_cursor_demo. Qed.
(** the chunks the data are cut into: in order, nothing lost, none empty or longer than [n] *)
Theorem C28_chunks (A : Type) n (l : list A) : 0 < n -> concat (chunks n l) = l /\ Forall (fun c => 0 < length c <= n) (chunks n l).
Proof. exact (chunks_concat n l). Qed.
Print Assumptions C28_chunks.
Example C28_chunks_example : chunks 3 [1; 2; 3; 4; 5; 6; 7] = [[1; 2; 3]; [4; 5; 6]; [7]].
Proof. exact chunks_demo. Qed.
