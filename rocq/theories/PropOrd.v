(** PropOrd.v — C36, C37, C38, C45: OrdTreeMap and OrdTreeSet.
    The specification is [sm_insert], [sm_get], [sm_delete], [ss_*] (OrdM.v): plain sorted lists,
    whose map laws are the first four theorems. *)
From Verif Require Import OrdM.

Section p.
Context {Key Value : Type} {kcmp : Key -> Key -> comparison} (TO : TOrd kcmp).

(** ** C36 *)
Theorem C36_spec_get_insert (k : Key) (v : Value) s : exists k', kcmp k k' = Eq /\ sm_get kcmp k (sm_insert kcmp k v s) = Some (k', v).
Proof. exact (sm_get_insert TO k v s). Qed.
Theorem C36_spec_get_insert_other (k k2 : Key) (v : Value) s : kcmp k k2 <> Eq ->
  option_map snd (sm_get kcmp k2 (sm_insert kcmp k v s)) = option_map snd (sm_get kcmp k2 s).
Proof. exact (sm_get_insert_ne TO k k2 v s). Qed.
Theorem C36_map (os : list (@mop Key Value)) s : sm_run (kcmp := kcmp) os [] = Some s ->
  exists m, mrun os (om_new kcmp) = Ok m /\ MapOf TO m s /\ StronglySorted (fun a b => kcmp (fst a) (fst b) = Lt) s /\
    om_len kcmp m = length s /\ om_is_empty kcmp m = bool_decide (s = []) /\
    (length s < 2 * 6 ^ 9 -> om_iter kcmp m = Ok s /\ om_iter_key kcmp m = Ok (map fst s)).
Proof. exact (t_om_history TO os s). Qed.
Theorem C36_insert (m : omap_t Key Value kcmp) s k v : MapOf TO m s ->
  exists m', om_insert kcmp m k v = Ok m' /\ MapOf TO m' (sm_insert kcmp k v s).
Proof. exact (t_om_insert TO m s k v). Qed.
Theorem C36_search (t : btree (@OrdTrait Key Value kcmp)) xs q : Tree (OrdLaw kcmp (to_refl _ TO)) t xs -> Incr (kcmp := kcmp) (map snd xs) -> xs <> [] ->
  exists X l e Y, xs = X ++ (l, e) :: Y /\ below (kcmp := kcmp) q (map snd X) /\ above (kcmp := kcmp) q (map snd Y) /\
    query (OrdQuery kcmp) t q = Ok (Some (mkQR (mkCur l (match kcmp q (fst e) with Gt => 1 | _ => 0 end)) (match kcmp q (fst e) with Eq => true | _ => false end))).
Proof. exact (ord_query TO t xs q). Qed.

(** ** C37 *)
Theorem C37_spec_delete (k : Key) (s : list (Key * Value)) : Incr (kcmp := kcmp) s -> sm_get kcmp k (sm_delete kcmp k s) = None.
Proof. exact (sm_get_delete TO k s). Qed.
Theorem C37_spec_delete_other (k k2 : Key) (s : list (Key * Value)) : kcmp k k2 <> Eq -> sm_get kcmp k2 (sm_delete kcmp k s) = sm_get kcmp k2 s.
Proof. exact (sm_get_delete_ne TO k k2 s). Qed.
(** the part of the claim that holds: present keys, and the empty map.  Missing: absent keys. *)
Theorem C37_delete_partial (m : omap_t Key Value kcmp) s k e : MapOf TO m s -> sm_get kcmp k s = Some e ->
  exists m', om_delete kcmp m k = Ok (Some e, m') /\ MapOf TO m' (sm_delete kcmp k s).
Proof. exact (t_om_delete TO m s k e). Qed.
Theorem C37_delete_empty_partial (m : omap_t Key Value kcmp) k : MapOf TO m [] -> om_delete kcmp m k = Ok (None, m).
Proof. exact (t_om_delete_empty TO m k). Qed.
(** deleting an absent key from a non-empty map always removes, and returns, another entry *)
Theorem C37_delete_absent_always_refuted (m : omap_t Key Value kcmp) s k : MapOf TO m s -> s <> [] -> sm_get kcmp k s = None ->
  exists s1 e s2 m', s = s1 ++ e :: s2 /\ kcmp k (fst e) <> Eq /\ om_delete kcmp m k = Ok (Some e, m') /\ MapOf TO m' (s1 ++ s2).
Proof. exact (t_om_delete_absent TO m s k). Qed.

(** ** C38 *)
Theorem C38_spec_mem (k : Key) s : ss_mem (kcmp := kcmp) k s = true <-> exists k', k' ∈ s /\ kcmp k k' = Eq.
Proof. exact (ss_mem_spec k s). Qed.
Theorem C38_set (os : list (@sop Key)) bs s : ss_run (kcmp := kcmp) os [] = Some (bs, s) ->
  exists t, srun os (os_new kcmp) = Ok (bs, t) /\ StronglySorted (fun a b => kcmp a b = Lt) s /\ om_len kcmp t = length s /\
    (length s < 2 * 6 ^ 9 -> os_iter kcmp t = Ok s).
Proof. exact (t_os_history TO os bs s). Qed.

(** ** C45: maps with at least one entry.  Missing: the emptied map (refuted, C45_ord_delete_last_refuted). *)
Theorem C45_check_partial (m : omap_t Key Value kcmp) s a z : MapOf TO m s -> head s = Some a -> last s = Some z ->
  root_cache (om_tree kcmp m) = Some (fst a, fst z) /\ (length s < 2 * 6 ^ 9 -> check (om_tree kcmp m) = Ok tt).
Proof. exact (t_om_check TO m s a z). Qed.
End p.
Print Assumptions C36_spec_get_insert.
Print Assumptions C36_spec_get_insert_other.
Print Assumptions C36_map.
Print Assumptions C36_insert.
Print Assumptions C36_search.
Print Assumptions C37_spec_delete.
Print Assumptions C37_spec_delete_other.
Print Assumptions C37_delete_partial.
Print Assumptions C37_delete_empty_partial.
Print Assumptions C37_delete_absent_always_refuted.
Print Assumptions C38_spec_mem.
Print Assumptions C38_set.
Print Assumptions C45_check_partial.

(** 44 operations, 37 entries left, keys inserted out of order, one value replaced *)
Example C36_example : sm_run (kcmp := Nat.compare) demo_ops [] = Some demo_map /\ length demo_map = 37 /\ map fst demo_map = [1; 2] ++ seq 4 35 /\
  sm_get Nat.compare 7 demo_map = Some (7, 100) /\ sm_get Nat.compare 3 demo_map = None.
Proof. exact demo_ops_ok. Qed.
Example C36_example_order : TOrd Nat.compare.
Proof. exact nat_TO. Qed.
Example C38_example : ss_run (kcmp := Nat.compare) (map SIns [5; 1; 9; 5; 3] ++ [SDel 9; SDel 1]) [] = Some ([true; true], [3; 5]).
Proof. exact eq_refl. Qed.
