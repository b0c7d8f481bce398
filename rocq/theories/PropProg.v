(** PropProg.v — C61, C62: no program can tell a Rope from a string of bytes, or an OrdTreeMap from a sorted list; the
    unit tests shipped with rope.rs and ord.rs are such programs and pass.

    [rprog], [oprog] (Prog.v): programs whose every step may depend on all results so far.  [rope_prog], [ord_prog] run them on
    the data structure, [str_prog], [sorted_prog] on plain lists.  [str_small N]: the string has at most [N] bytes at all
    times.  [ord_legal N]: fewer than [N] entries at all times, no deletion of an absent key from a non-empty map (C37),
    no self-check of an empty map (C45), positions compared only of present keys. *)
From Verif Require Import Demo22.

(** ** C61 *)
Theorem C61_rope CAP (A : Type) (p : rprog A) : 0 < CAP -> str_small (5 ^ 7) p [] -> rope_prog CAP p (rope_new CAP) = str_prog p [].
Proof. exact (fun H => rope_prog_string CAP H p). Qed.
Print Assumptions C61_rope.
(** the same from any rope that holds the string [s] *)
Theorem C61_rope_from CAP (A : Type) (p : rprog A) r s : 0 < CAP -> RopeOf CAP r s -> str_small (5 ^ 7) p s -> rope_prog CAP p r = str_prog p s.
Proof. exact (fun H => rope_prog_ok CAP H p r s). Qed.
Print Assumptions C61_rope_from.
(** the unit tests test, test_delete_middle, test_insert_repeatedly *)
Theorem C61_unit_tests CAP : 0 < CAP -> rope_prog CAP ut_test (rope_new CAP) = Ok tt /\ rope_prog CAP ut_delete_middle (rope_new CAP) = Ok tt /\
  rope_prog CAP ut_insert_repeatedly (rope_new CAP) = Ok tt.
Proof. exact (ut_small_pass CAP). Qed.
Print Assumptions C61_unit_tests.
(** test_insert_many with any ASCII string, test_repeat_insert with any number of rounds, ben with any actions *)
Theorem C61_insert_many CAP n s : 0 < CAP -> 0 < length s -> Forall (fun b => b < 128) s -> n * length s <= 5 ^ 7 ->
  rope_prog CAP (ut_insert_many n s) (rope_new CAP) = Ok tt.
Proof. exact (ut_insert_many_pass CAP n s). Qed.
Print Assumptions C61_insert_many.
Theorem C61_repeat_insert CAP n : 0 < CAP -> 3 + n <= 5 ^ 7 -> rope_prog CAP (ut_repeat_insert n) (rope_new CAP) = Ok tt.
Proof. exact (ut_repeat_insert_pass CAP n). Qed.
Print Assumptions C61_repeat_insert.
Theorem C61_ben CAP acts : 0 < CAP -> Forall byte_ract acts -> 3 * length acts <= 5 ^ 7 -> rope_prog CAP (ut_ben acts) (rope_new CAP) = Ok tt.
Proof. exact (ut_ben_pass CAP acts). Qed.
Print Assumptions C61_ben.
Example C61_example : str_small (5 ^ 7) rdemo [] /\ str_prog rdemo [] = Ok ([49; 68; 70; 72; 74; 97; 97; 97; 97; 97; 97; 50; 51], 5) /\
  rope_prog 3 rdemo (rope_new 3) = Ok ([49; 68; 70; 72; 74; 97; 97; 97; 97; 97; 97; 50; 51], 5).
Proof. exact rdemo_ok. Qed.

(** ** C62 *)
Theorem C62_ord (Key Value : Type) (kcmp : Key -> Key -> comparison) (TO : TOrd kcmp) (A : Type) (p : oprog Key Value A) :
  ord_legal (kcmp := kcmp) (2 * 6 ^ 9) p [] -> ord_prog p (om_new kcmp) = sorted_prog (kcmp := kcmp) p [].
Proof. exact (ord_prog_sorted TO p). Qed.
Print Assumptions C62_ord.
Theorem C62_ord_from (Key Value : Type) (kcmp : Key -> Key -> comparison) (TO : TOrd kcmp) (A : Type) (p : oprog Key Value A) m s :
  MapOf TO m s -> ord_legal (kcmp := kcmp) (2 * 6 ^ 9) p s -> ord_prog p m = sorted_prog (kcmp := kcmp) p s.
Proof. exact (ord_prog_ok TO p m s). Qed.
Print Assumptions C62_ord_from.
(** the unit tests of ord.rs, for any data without repetition *)
Theorem C62_test (Value : Type) data sorted (v : Value) : NoDup data -> data <> [] -> length data < 2 * 6 ^ 9 -> StronglySorted lt sorted -> sorted ≡ₚ data ->
  ord_prog (ut_ord data sorted v) (om_new Nat.compare) = Ok tt.
Proof. exact (ut_ord_pass data sorted v). Qed.
Print Assumptions C62_test.
Theorem C62_test_delete (Value : Type) (v : Value) : ord_prog (ut_ord_delete v) (om_new Nat.compare) = Ok tt.
Proof. exact (ut_ord_delete_pass v). Qed.
Print Assumptions C62_test_delete.
Theorem C62_test_compare_pos (Value : Type) n (v : Value) : n < 2 * 6 ^ 9 -> ord_prog (ut_compare n v) (om_new Nat.compare) = Ok tt.
Proof. exact (ut_compare_pass n v). Qed.
Print Assumptions C62_test_compare_pos.
Theorem C62_move_event_test (Value : Type) data a b (v : Value) : NoDup data -> a + b < length data < 2 * 6 ^ 9 ->
  ord_prog (ut_move data a b v) (om_new Nat.compare) = Ok tt.
Proof. exact (ut_move_pass data a b v). Qed.
Print Assumptions C62_move_event_test.
Example C62_example : ord_legal (kcmp := Nat.compare) (2 * 6 ^ 9) odemo [] /\ sorted_prog (kcmp := Nat.compare) odemo [] = Ok ([15; 16], Gt) /\
  ord_prog (kcmp := Nat.compare) odemo (om_new Nat.compare) = Ok ([15; 16], Gt).
Proof. exact odemo_ok. Qed.
Example C62_example_data : let data := [7; 3; 12; 1; 9; 4] in NoDup data /\ data <> [] /\ length data < 2 * 6 ^ 9 /\ StronglySorted lt [1; 3; 4; 7; 9; 12] /\
  [1; 3; 4; 7; 9; 12] ≡ₚ data /\ 2 + 3 < length data.
Proof. exact odata_ok. Qed.
