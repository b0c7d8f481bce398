(** PropFuzz.v — C58: the fuzzing harnesses of the repository never report a failure.

    [fuzz_ord], [fuzz_rope], [fuzz_test] (Fuzz.v) are the three harnesses as programs; the reference sides are
    plain lists ([bs_insert]/[bs_remove]: members in increasing order; list edits for the string).  [byte_act],
    [byte_ract]: the inserted values are bytes, as their type says. *)
From Verif Require Import Fuzz.

Theorem C58_ord (acts : list oaction) : Forall byte_act acts -> fuzz_ord acts = Ok tt.
Proof. exact (fuzz_ord_ok acts). Qed.
Print Assumptions C58_ord.
Theorem C58_rope CAP (acts : list raction) : 0 < CAP -> Forall byte_ract acts ->
  (fuzz_rope CAP acts = Ok tt /\ fuzz_test CAP acts = Ok tt) \/
  (exists acts1 acts2 s1 r1, acts = acts1 ++ acts2 /\ rope_loop CAP false acts1 [] (rope_new CAP) = Ok (s1, r1) /\
     ~ Shallow (rp_tree CAP r1) 7 /\ RopeOf CAP r1 s1 /\ length s1 <= 3 * length acts1).
Proof. exact (fun H => fuzz_rope_ok CAP H acts). Qed.
Print Assumptions C58_rope.
(** no such tree is built by fewer than 26042 actions *)
Theorem C58_rope_short CAP (acts : list raction) : 0 < CAP -> Forall byte_ract acts -> 3 * length acts <= 5 ^ 7 ->
  fuzz_rope CAP acts = Ok tt /\ fuzz_test CAP acts = Ok tt.
Proof. exact (fun H => fuzz_rope_short CAP H acts). Qed.
Print Assumptions C58_rope_short.
(** what the ordered-set harness cannot see: it only deletes members (C37) *)
Theorem C58_blind : fuzz_ord_any [1; 5; 3] [3; 4] = Panic.
Proof. exact fuzz_ord_blind. Qed.
Print Assumptions C58_blind.
Example C58_example_ord : Forall byte_act demo_oacts /\ truth_of (ord_loop demo_oacts [] (os_new Nat.compare)) =
  Some [3; 6; 8; 52; 63; 120; 148; 151; 154; 157; 165; 176; 185; 187; 188; 191; 194; 198; 209; 220; 222; 225; 228; 231; 242; 253].
Proof. exact demo_fuzz_ord. Qed.
Example C58_example_rope : Forall byte_ract demo_racts /\ truth_of (rope_loop 4 true demo_racts [] (rope_new 4)) =
  Some [52; 52; 49; 49; 53; 52; 56; 52; 51; 56; 56; 50; 50; 53; 49; 49; 55; 54; 49; 49; 50; 55; 57; 49; 50; 54; 49; 56; 49; 56; 49; 48; 56; 49].
Proof. exact demo_fuzz_rope. Qed.
