(** PropGap2.v — the gap buffer outside its range (C34) and GapBuffer::push (C53). *)
From Verif Require Import GapPanic.

(** ** C34: positions and ranges outside the content panic (with debug assertions), so no call
    silently returns other bytes *)
Theorem C34_insert_panics (CAP : nat) (g : gbuf) (i : nat) (x : list nat) :
  gwf CAP g -> length (to_vec g) < i -> length (to_vec g) + length x <= CAP -> insert_bytes g i x = Panic.
Proof. exact (p_insert_panic CAP g i x). Qed.
Print Assumptions C34_insert_panics.
Theorem C34_insert_pair_panics (CAP : nat) (g : gbuf) (i : nat) (x y : list nat) :
  gwf CAP g -> length (to_vec g) < i -> length (to_vec g) + length x + length y <= CAP -> insert_bytes_pair g i x y = Panic.
Proof. exact (p_insert_pair_panic CAP g i x y). Qed.
Print Assumptions C34_insert_pair_panics.
Theorem C34_split_panics (CAP : nat) (g : gbuf) (pos : nat) : gwf CAP g -> length (to_vec g) < pos -> gb_split CAP g pos = Panic.
Proof. exact (p_split_panic CAP g pos). Qed.
Print Assumptions C34_split_panics.
Theorem C34_try_insert_panics (CAP : nat) (g e : gbuf) (pos : nat) : gwf CAP g -> gwf CAP e -> length (to_vec g) < pos ->
  length (to_vec g) + length (to_vec e) <= CAP -> gb_try_insert CAP g pos e = Panic.
Proof. exact (p_try_insert_panic CAP g e pos). Qed.
Print Assumptions C34_try_insert_panics.
Theorem C34_slice_panics (CAP : nat) (g : gbuf) (st en : nat) : gwf CAP g -> en < st \/ length (to_vec g) < en -> gb_slice CAP g st en = Panic.
Proof. exact (p_slice_panic CAP g st en). Qed.
Print Assumptions C34_slice_panics.
(** the in-place version accepts an empty range past the end *)
Theorem C34_slice_in_place_panics (CAP : nat) (g : gbuf) (st en : nat) : gwf CAP g ->
  (en < st \/ (st < en /\ length (to_vec g) < en) -> gb_slice_ g st en = Panic) /\
  (length (to_vec g) < en -> exists g', gb_slice_ g en en = Ok g' /\ gwf CAP g' /\ to_vec g' = []).
Proof. exact (p_slice_in_panic CAP g st en). Qed.
Print Assumptions C34_slice_in_place_panics.
Theorem C34_merge_panics (CAP : nat) (l r : gbuf) : gwf CAP l -> gwf CAP r -> CAP < length (to_vec l ++ to_vec r) ->
  gb_merge_right l r = Panic /\ gb_merge_left r l = Panic.
Proof. exact (p_merge_panic CAP l r). Qed.
Print Assumptions C34_merge_panics.

(** ** C53: push writes at the gap, which is the end of the content only if the last edit was there.
    Missing from "push appends": buffers whose gap is not at the end (C53_push_refuted). *)
Theorem C53_push_partial (CAP : nat) (g : gbuf) (v : nat) : gwf CAP g ->
  (length (to_vec g) = CAP -> gb_push g v = Ok None) /\
  (length (to_vec g) < CAP -> exists g', gb_push g v = Ok (Some g') /\ gwf CAP g' /\ gb_start g' = S (gb_start g) /\
    to_vec g' = take (gb_start g) (to_vec g) ++ v :: drop (gb_start g) (to_vec g)).
Proof. exact (p_push CAP g v). Qed.
Print Assumptions C53_push_partial.
Theorem C53_push_at_end_partial (CAP : nat) (g : gbuf) (v : nat) : gwf CAP g -> gb_right g = [] -> length (to_vec g) < CAP ->
  exists g', gb_push g v = Ok (Some g') /\ gwf CAP g' /\ gb_right g' = [] /\ to_vec g' = to_vec g ++ [v].
Proof. exact (p_push_at_end CAP g v). Qed.
Print Assumptions C53_push_at_end_partial.
Theorem C53_push_refuted (CAP : nat) : 3 <= CAP -> exists g1 g2 g3, push_bytes (gb_new CAP) [1] = Ok (Some g1) /\ insert_bytes g1 0 [2] = Ok (Some g2) /\
  to_vec g2 = [2; 1] /\ gb_push g2 3 = Ok (Some g3) /\ to_vec g3 = [2; 3; 1].
Proof. exact (push_not_append CAP). Qed.
Print Assumptions C53_push_refuted.

Example C34_panics_example : exists g, gwf 4 g /\ to_vec g = [7; 8] /\ insert_bytes g 3 [1] = Panic /\ gb_slice 4 g 1 3 = Panic /\
  gb_slice_ g 2 1 = Panic /\ gb_split 4 g 3 = Panic /\ gb_right g = [] /\ (let? o := gb_push g 9 in Ok (to_vec <$> o)) = Ok (Some [7; 8; 9]).
Proof. exact panics_example. Qed.
