(** PropGap.v — C34, C35: the gap buffer as a bounded byte vector.
    [gwf] (GapBufferP.v): the array has CAP bytes and the gap lies inside it.
    [to_vec] is the content the public API exposes. *)
From Verif Require Import Base GapBuffer GapBufferP.

Theorem C34_new (CAP : nat) : gwf CAP (gb_new CAP) /\ to_vec (gb_new CAP) = [].
Proof. exact (conj (gb_new_wf CAP) (gb_new_vec CAP)). Qed.
Print Assumptions C34_new.

Theorem C34_insert_bytes (CAP : nat) (g : gbuf) (i : nat) (x : list nat) :
  gwf CAP g -> i <= length (to_vec g) -> length (to_vec g) + length x <= CAP ->
  exists g', insert_bytes g i x = Ok (Some g') /\ gwf CAP g'
     /\ to_vec g' = take i (to_vec g) ++ x ++ drop i (to_vec g).
Proof. exact (p_insert_bytes CAP g i x). Qed.
Print Assumptions C34_insert_bytes.

Theorem C34_insert_bytes_rejects (CAP : nat) (g : gbuf) (i : nat) (x : list nat) :
  gwf CAP g -> CAP < length (to_vec g) + length x -> insert_bytes g i x = Ok None.
Proof. exact (p_insert_bytes_err CAP g i x). Qed.
Print Assumptions C34_insert_bytes_rejects.

Theorem C34_push_bytes (CAP : nat) (g : gbuf) (x : list nat) :
  gwf CAP g -> length (to_vec g) + length x <= CAP ->
  exists g', push_bytes g x = Ok (Some g') /\ gwf CAP g' /\ to_vec g' = to_vec g ++ x.
Proof. exact (p_push_bytes CAP g x). Qed.
Print Assumptions C34_push_bytes.

Theorem C34_insert_bytes_pair (CAP : nat) (g : gbuf) (i : nat) (x y : list nat) :
  gwf CAP g -> i <= length (to_vec g) -> length (to_vec g) + length x + length y <= CAP ->
  exists g', insert_bytes_pair g i x y = Ok (Some g') /\ gwf CAP g'
     /\ to_vec g' = take i (to_vec g) ++ x ++ y ++ drop i (to_vec g).
Proof. exact (p_insert_bytes_pair CAP g i x y). Qed.
Print Assumptions C34_insert_bytes_pair.

Theorem C34_insert_bytes_pair_rejects (CAP : nat) (g : gbuf) (i : nat) (x y : list nat) :
  gwf CAP g -> CAP < length (to_vec g) + length x + length y -> insert_bytes_pair g i x y = Ok None.
Proof. exact (p_insert_bytes_pair_err CAP g i x y). Qed.
Print Assumptions C34_insert_bytes_pair_rejects.

(** ranges beyond the end are clamped *)
Theorem C34_delete (CAP : nat) (g : gbuf) (st en : nat) :
  gwf CAP g ->
  exists g', gb_delete g st en = Ok g' /\ gwf CAP g'
    /\ to_vec g' = take (Nat.min st en) (to_vec g) ++ drop en (to_vec g).
Proof. exact (gb_delete_ok CAP g st en). Qed.
Print Assumptions C34_delete.

Theorem C34_split (CAP : nat) (g : gbuf) (pos : nat) :
  gwf CAP g -> pos <= length (to_vec g) ->
  exists l r, gb_split CAP g pos = Ok (l, r) /\ gwf CAP l /\ gwf CAP r
    /\ to_vec l = take pos (to_vec g) /\ to_vec r = drop pos (to_vec g).
Proof. exact (p_split CAP g pos). Qed.
Print Assumptions C34_split.

Theorem C34_slice (CAP : nat) (g : gbuf) (st en : nat) :
  gwf CAP g -> st <= en -> en <= length (to_vec g) ->
  (exists g', gb_slice CAP g st en = Ok g' /\ gwf CAP g' /\ to_vec g' = take (en - st) (drop st (to_vec g)))
  /\ (exists g', gb_slice_ g st en = Ok g' /\ gwf CAP g' /\ to_vec g' = take (en - st) (drop st (to_vec g))).
Proof. exact (p_slice CAP g st en). Qed.
Print Assumptions C34_slice.

(** [can_merge] holds exactly when the concatenation fits, and merging concatenates *)
Theorem C34_merge (CAP : nat) (l r : gbuf) :
  gwf CAP l -> gwf CAP r ->
  (gb_can_merge CAP l r = true <-> length (to_vec l ++ to_vec r) <= CAP) /\
  (gb_can_merge CAP l r = true ->
    (exists g', gb_merge_right l r = Ok g' /\ gwf CAP g' /\ to_vec g' = to_vec l ++ to_vec r) /\
    (exists g', gb_merge_left r l = Ok g' /\ gwf CAP g' /\ to_vec g' = to_vec l ++ to_vec r)).
Proof. exact (p_merge CAP l r). Qed.
Print Assumptions C34_merge.

(** [try_insert] accepts exactly when the result fits and otherwise returns the argument *)
Theorem C34_try_insert (CAP : nat) (g e : gbuf) (pos : nat) :
  gwf CAP g -> gwf CAP e -> pos <= length (to_vec g) ->
  (length (to_vec g) + length (to_vec e) <= CAP ->
     exists g', gb_try_insert CAP g pos e = Ok (inl g') /\ gwf CAP g'
       /\ to_vec g' = take pos (to_vec g) ++ to_vec e ++ drop pos (to_vec g)) /\
  (CAP < length (to_vec g) + length (to_vec e) -> gb_try_insert CAP g pos e = Ok (inr e)).
Proof. exact (p_try_insert CAP g e pos). Qed.
Print Assumptions C34_try_insert.

Theorem C34_len (CAP : nat) (g : gbuf) :
  gwf CAP g -> gb_len g = length (to_vec g) /\ gb_len g <= CAP /\ (gb_can_remove g = true <-> to_vec g = []).
Proof. exact (p_len CAP g). Qed.
Print Assumptions C34_len.

Theorem C35_from_str (CAP : nat) (s : list nat) :
  0 < CAP ->
  exists gs, from_str CAP s = Ok gs /\ Forall (gwf CAP) gs /\ concat (map to_vec gs) = s
    /\ Forall (fun g => 1 <= length (to_vec g) <= CAP) gs
    /\ forall gs' g, gs = gs' ++ [g] -> Forall (fun x => length (to_vec x) = CAP) gs'.
Proof. exact (p_from_str CAP s). Qed.
Print Assumptions C35_from_str.

(** non-vacuity: a buffer with a gap in the middle satisfies the hypotheses *)
Example gap_example :
  let g := mkGB [1; 2; 0; 0; 3] 2 2 in
  gwf 5 g /\ to_vec g = [1; 2; 3] /\ 2 <= length (to_vec g) /\ length (to_vec g) + length [7; 8] <= 5
  /\ (let? o := insert_bytes g 1 [7; 8] in let? g := ropt o in Ok (to_vec g)) = Ok [1; 7; 8; 2; 3].
Proof. unfold gwf. cbn. repeat split; lia. Qed.
Example from_str_example :
  (let? gs := from_str 2 [1; 2; 3] in Ok (map to_vec gs)) = Ok [[1; 2]; [3]].
Proof. reflexivity. Qed.
