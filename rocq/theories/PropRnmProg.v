(** PropRnmProg.v — C63: programs that use a RangeNumMap; the integration tests.

    [mprog]: programs whose every step may depend on all results so far; [rnm_prog] runs them on the map.  [arr_wp N p Q u]
    (RnmProg.v) speaks of arrays of optional numbers only: run on the array [u], of at most [N] entries at all times, the
    program meets the preconditions of its calls and ends in [Q], however [iter] and [drain] cut the values into ranges.
    [ord]: the order in which a hash map gives out its keys, any permutation. *)
From Verif Require Import Demo24.

Theorem C63_program (A : Type) ord (p : mprog A) (Q : A -> Prop) : (forall l, ord l ≡ₚ l) -> arr_wp (5 ^ 7) p Q [] ->
  exists a, rnm_prog ord p rnm_new = Ok a /\ Q a.
Proof. exact (fun H => rnm_prog_new ord H p Q). Qed.
Print Assumptions C63_program.
(** the same from any map that holds the array [u]; [RnmMd m u]: moreover its nodes are half full *)
Theorem C63_program_from (A : Type) ord (p : mprog A) (Q : A -> Prop) m u : (forall l, ord l ≡ₚ l) -> RnmMd m u -> arr_wp (5 ^ 7) p Q u ->
  exists a, rnm_prog ord p m = Ok a /\ Q a.
Proof. exact (fun H => rnm_prog_ok ord H p Q m u). Qed.
Print Assumptions C63_program_from.
(** tests/integration.rs: [n] for the 100 there, [c] for the value written *)
Theorem C63_basic ord : (forall l, ord l ≡ₚ l) -> rnm_prog ord it_basic rnm_new = Ok tt.
Proof. exact (it_basic_pass ord). Qed.
Print Assumptions C63_basic.
Theorem C63_get_item ord n c : (forall l, ord l ≡ₚ l) -> 0 < n -> n + 10 <= 5 ^ 7 -> rnm_prog ord (it_get_item n c) rnm_new = Ok tt.
Proof. exact (fun H => it_get_item_pass ord H n c). Qed.
Print Assumptions C63_get_item.
Theorem C63_iter ord n k c : (forall l, ord l ≡ₚ l) -> 0 < n -> k <= n -> n + 10 <= 5 ^ 7 -> rnm_prog ord (it_iter n k c) rnm_new = Ok tt.
Proof. exact (fun H => it_iter_pass ord H n k c). Qed.
Print Assumptions C63_iter.
Theorem C63_drain ord n k1 k2 st c : (forall l, ord l ≡ₚ l) -> k1 <= k2 -> k2 <= n -> st < n -> n + 10 <= 5 ^ 7 ->
  rnm_prog ord (it_drain n k1 k2 st c) rnm_new = Ok tt.
Proof. exact (fun H => it_drain_pass ord H n k1 k2 st c). Qed.
Print Assumptions C63_drain.
Theorem C63_plus ord n k en c : (forall l, ord l ≡ₚ l) -> k <= en -> n <= en -> en + 10 <= 5 ^ 7 -> rnm_prog ord (it_plus n k en c) rnm_new = Ok tt.
Proof. exact (fun H => it_plus_pass ord H n k en c). Qed.
Print Assumptions C63_plus.
(** a program that drains what it found by reading *)
Example C63_example : arr_wp (5 ^ 7) pdemo (fun a => a = (4, Some 9%Z)) [] /\ rnm_prog (fun l => l) pdemo rnm_new = Ok (4, Some 9%Z).
Proof. exact pdemo_ok. Qed.
Example C63_tests_example : rnm_prog (fun l => l) (it_drain 14 5 9 3 77) rnm_new = Ok tt /\ rnm_prog (fun l => l) (it_plus 14 5 17 77) rnm_new = Ok tt.
Proof. exact it_demo. Qed.
