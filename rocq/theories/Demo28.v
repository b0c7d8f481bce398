(** Demo28.v — a trace and random actions that meet the hypotheses of C61. *)
From Verif Require Export Benches Demo22.
Definition tdemo : list (nat * nat * list nat) := [(0, 0, [65; 66; 67; 68; 69]); (5, 0, [70]); (1, 3, []); (2, 1, [195; 169]); (0, 0, []); (1, 3, [71])].
Definition bademo : list raction := [FIns 7 255; FIns 200 31; FDel 3 101; FIns 1 9; FDel 250 8].
Lemma tdemo_ok : trace_ok tdemo [] /\ trace_small (5 ^ 7) tdemo [] /\ str_small (5 ^ 7) (RToString RDone) (fold_left splice tdemo []) /\
  fold_left splice tdemo [] = [65; 71] /\ rope_prog 3 (bn_trace tdemo (RToString RDone)) (rope_new 3) = Ok [65; 71].
Proof.
  assert (forall n, n <= 25 -> n <= 5 ^ 7) as H by apply small_57. set (N := 5 ^ 7) in *. clearbody N.
  split_and!; try (vm_compute; reflexivity); cbn; repeat split; try lia; apply H; lia.
Qed.
Lemma bademo_ok : Forall byte_ract bademo /\ 3 * length bademo <= 5 ^ 7 /\ str_small (5 ^ 7) (RToString RDone) (fold_left ract bademo []) /\
  rope_prog 3 (bn_random bademo (RToString RDone)) (rope_new 3) = Ok (fold_left ract bademo []) /\ fold_left ract bademo [] <> [].
Proof.
  assert (forall n, n <= 25 -> n <= 5 ^ 7) as H by apply small_57. set (N := 5 ^ 7) in *. clearbody N.
  split_and!; try (vm_compute; reflexivity); try (vm_compute; discriminate); [repeat constructor; cbn; lia|apply H; cbn; lia|].
  assert (length (fold_left ract bademo []) <= N) by (apply H; vm_compute; repeat constructor). done.
Qed.
