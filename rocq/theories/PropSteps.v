(** PropSteps.v — how much of the tree a lookup looks at (C60).
    [Watch Q]: the finder [Q] that besides its own state keeps the list of the numbers of children it was
    shown by find_node, one entry per call, and the number of calls of confirm_elem.  query_with_finder_return
    hands back the finder, so the answer of [Watch Q] contains both.  [collects]: as in PropThick.v. *)
From Verif Require Import Demo20.

(** the finder is asked exactly once per level, about at most 11 children, and once about the element;
    watching does not change the answer *)
Theorem C60_levels (B : BTreeTrait) (L : Lawful B) (Q : Query B) (q : QArg Q) t xs d r s :
  Tree L t xs -> InOrder t (root t) d xs -> xs <> [] -> query_with_finder_return Q t q = Ok (r, s) ->
  exists k, query_with_finder_return (Watch Q) t q = Ok (r, (s, (k, 1))) /\ length k = d /\ Forall (fun n => 1 <= n <= 11) k.
Proof. exact (t_steps L Q q t xs d r s). Qed.
Print Assumptions C60_levels.
Theorem C60_empty (B : BTreeTrait) (L : Lawful B) (Q : Query B) (q : QArg Q) t : Tree L t [] ->
  query_with_finder_return (Watch Q) t q = Ok (None, (q_init Q q, ([], 0))) /\ query_with_finder_return Q t q = Ok (None, q_init Q q).
Proof. exact (t_steps_empty L Q q t). Qed.
Print Assumptions C60_empty.

(** so after any history without bulk construction at most [k] calls for at most 5^k elements *)
Theorem C60_history (B : BTreeTrait) (L : Lawful B) (U : Type) (F : Flatten L U) (S0 : Type) (os : list (op2 B S0)) :
  valid_ops2 L bt_new os -> Forall (fun o => ~ collects o) os ->
  exists t xs, run_ops2 os bt_new = Ok t /\ Content t xs /\
    forall (Q : Query B) (q : QArg Q) r s k, query_with_finder_return Q t q = Ok (r, s) -> 1 <= k -> length xs <= 5 ^ k ->
    exists w c, query_with_finder_return (Watch Q) t q = Ok (r, (s, (w, c))) /\ length w <= k /\ Forall (fun n => 1 <= n <= 11) w /\ c <= 1.
Proof. exact (history_steps L F os). Qed.
Print Assumptions C60_history.
(** after collecting an iterator, at most [k] calls for at most 10^k elements *)
Theorem C60_collect (B : BTreeTrait) (L : Lawful B) (es : list (Elem B)) t : Forall (evalid L) es -> from_iter es = Ok t ->
  forall (Q : Query B) (q : QArg Q) r s k, query_with_finder_return Q t q = Ok (r, s) -> length es <= 10 ^ S k ->
  exists w c, query_with_finder_return (Watch Q) t q = Ok (r, (s, (w, c))) /\ length w <= S k /\ Forall (fun n => 1 <= n <= 11) w /\ c <= 1.
Proof. exact (collect_steps L es t). Qed.
Print Assumptions C60_collect.
(** in a rope, at most [k] calls for at most 5^k bytes *)
Theorem C60_rope CAP (r : rope CAP) s : 0 < CAP -> RopeOf CAP r s ->
  forall (Q : Query (RopeTrait CAP)) (q : QArg Q) a st k, query_with_finder_return Q (rp_tree CAP r) q = Ok (a, st) -> 1 <= k -> length s <= 5 ^ k ->
  exists w c, query_with_finder_return (Watch Q) (rp_tree CAP r) q = Ok (a, (st, (w, c))) /\ length w <= k /\ Forall (fun n => 1 <= n <= 11) w /\ c <= 1.
Proof. exact (rope_steps CAP r s). Qed.
Print Assumptions C60_rope.

(** visit_previous_caches calls its callback at most eleven times per level, and once for the leaf *)
Theorem C60_visit (B : BTreeTrait) (L : Lawful B) t xs l off d w : Tree L t xs -> InOrder t (root t) d xs -> l ∈ xs.*1 -> Shallow t 9 ->
  visit_previous_caches t (mkCur l off) = Ok w -> length w <= 11 * d + 1.
Proof. exact (t_visit_steps L t xs l off d w). Qed.
Print Assumptions C60_visit.

Example C60_example : exists (t : btree RT) xs, run_ops2 ds_hist bt_new = Ok t /\ Tree RL t xs /\ InOrder t (root t) 2 xs /\ length xs = 38 /\ Shallow t 9 /\ 20 ∈ xs.*1 /\
  (exists a s, query_with_finder_return (RopeFinder 4) t 50 = Ok (a, s) /\ query_with_finder_return (Watch (RopeFinder 4)) t 50 = Ok (a, (s, ([5; 6], 1)))) /\
  exists w, visit_previous_caches t (mkCur 20 1) = Ok w /\ length w = 5.
Proof. exact dw_example. Qed.
