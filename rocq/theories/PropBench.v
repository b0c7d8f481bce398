(** PropBench.v — C61 for the shipped benchmarks and the example program.

    [bn_trace]: an editing trace of (position, bytes to delete, bytes to insert); [bn_random]: the random insertions and deletions;
    both followed by any program [k].  [splice], [ract]: the same edits on a plain string. *)
From Verif Require Import Demo28.

Theorem C61_trace CAP (A : Type) (k : rprog A) acts : 0 < CAP -> trace_ok acts [] -> trace_small (5 ^ 7) acts [] -> str_small (5 ^ 7) k (fold_left splice acts []) ->
  rope_prog CAP (bn_trace acts k) (rope_new CAP) = str_prog k (fold_left splice acts []).
Proof. exact (bn_trace_ok CAP k acts). Qed.
Print Assumptions C61_trace.
Theorem C61_random CAP (A : Type) (k : rprog A) acts : 0 < CAP -> Forall byte_ract acts -> 3 * length acts <= 5 ^ 7 -> str_small (5 ^ 7) k (fold_left ract acts []) ->
  rope_prog CAP (bn_random acts k) (rope_new CAP) = str_prog k (fold_left ract acts []).
Proof. exact (bn_random_ok CAP k acts). Qed.
Print Assumptions C61_random.
Example C61_trace_example : trace_ok tdemo [] /\ trace_small (5 ^ 7) tdemo [] /\ str_small (5 ^ 7) (RToString RDone) (fold_left splice tdemo []) /\
  fold_left splice tdemo [] = [65; 71] /\ rope_prog 3 (bn_trace tdemo (RToString RDone)) (rope_new 3) = Ok [65; 71].
Proof. exact tdemo_ok. Qed.
Example C61_random_example : Forall byte_ract bademo /\ 3 * length bademo <= 5 ^ 7 /\ str_small (5 ^ 7) (RToString RDone) (fold_left ract bademo []) /\
  rope_prog 3 (bn_random bademo (RToString RDone)) (rope_new 3) = Ok (fold_left ract bademo []) /\ fold_left ract bademo [] <> [].
Proof. exact bademo_ok. Qed.
