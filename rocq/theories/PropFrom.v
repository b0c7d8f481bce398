(** PropFrom.v — bulk construction (C27). *)
From Verif Require Import Demo6 FromIter.

(** ** C27.  [from_iter] never panics; the result is intact (its root cache is the aggregate, see
    [Intact]) and holds the input in order.  Every node but the last of each level has ten
    children, so 10^k elements fit into k levels. *)
Theorem C27_from_iter (B : BTreeTrait) (L : Lawful B) (es : list (Elem B)) : Forall (evalid L) es ->
  exists t xs, from_iter es = Ok t /\ Tree L t xs /\ xs.*2 = es /\ (forall k, length es <= 10 ^ S k -> Shallow t (S k)).
Proof. exact (t_from_iter L es). Qed.
Print Assumptions C27_from_iter.

(** the self-check and iter() *)
Theorem C27_check (B : BTreeTrait) (L : Lawful B) (es : list (Elem B)) : Forall (evalid L) es -> length es <= 10 ^ 9 ->
  exists t, from_iter es = Ok t /\ check t = Ok tt /\ BTree.iter t = Ok es.
Proof. exact (t_from_iter_check L es). Qed.
Print Assumptions C27_check.

Example C27_example : Forall (evalid RL) (dgb ++ dgb : list (Elem RT)) /\ length (dgb ++ dgb) = 28 /\
  (let? t := from_iter (B := RT) (dgb ++ dgb) in Ok (depth t, check t, map (fun x => (fst x, to_vec (snd x))) (elems t))) =
  Ok (Ok 2, Ok tt, zip (seq 0 28) (dseq ++ dseq)).
Proof. exact demo_from. Qed.
