(** OrdE.v — an ordered map emptied by delete (ord.rs:78-87), and deletions of any key. *)
From Verif Require Export OrdM.

Section e.
Context {Key Value : Type} {kcmp : Key -> Key -> comparison} (TO : TOrd kcmp).
Notation OT := (@OrdTrait Key Value kcmp).
Notation OL := (OrdLaw kcmp (to_refl _ TO)).
Implicit Types (t : btree OT).

Lemma one_leaf t l e : Tree OL t [(l, e)] -> MD t -> exists r n c lf, root t = AInt r /\ a_get (in_nodes t) r = Some n /\ n_parent n = None /\
  n_children n = [c] /\ c_arena c = ALeaf l /\ a_get (leaf_nodes t) l = Some lf /\ l_elem lf = e /\ l_parent lf = r.
Proof.
  intros T M. pose proof T as [d I]. pose proof (in_order _ _ _ _ I) as Ho.
  destruct (in_top _ _ _ _ I) as (r & n & Er & En & Ep).
  assert (d < 2) as Hd.
  { destruct (decide (2 <= d)) as [H2|]; [|lia]. pose proof (t_depth_min OL t d _ T ltac:(done) M Ho H2) as Hd. cbn [length] in Hd.
    pose proof (Nat.pow_nonzero 6 (d - 1) ltac:(lia)). lia. }
  rewrite Er in Ho. inversion Ho as [|i n' d' xs En' Hc]; subst. rewrite En in En'. injection En' as <-. assert (d' = 0) as -> by lia.
  destruct (n_children n) as [|c cs] eqn:Ec; [by inversion Hc|]. cbn [map] in Hc.
  inversion Hc as [|a rr dd xs ys Ha Hr Ex1 Ex2 Exs]; subst. inversion Ha as [l0 lf Hlf Ea|]; subst. cbn [app] in Exs. injection Exs as -> He ->.
  assert (cs = []) as ->.
  { destruct cs as [|c2 cs]; [done|]. cbn [map] in Hr. inversion Hr as [|a2 r2 d2 xs2 ys2 Ha2 Hr2 E1 E2 E3]; subst. inversion Ha2; subst. done. }
  exists r, n, c, lf. split_and!; try done. apply (in_lup _ _ _ _ I r n 0 c l lf En); [by rewrite Ec|done|done].
Qed.
Lemma remove_last t l e off : Tree OL t [(l, e)] -> MD t ->
  exists t', remove_leaf t (mkCur l off) = Ok (Some e, t') /\ Tree OL t' [] /\ root_cache t' = root_cache t /\ check t' = Panic.
Proof.
  intros T M. destruct (t_remove OL t [] l e [] off T (or_intror M)) as (t' & E & T' & _). exists t'. split; [done|]. split; [done|].
  destruct (one_leaf t l e T M) as (r & n & c & lf & Er & En & Ep & Ec & Ea & El & He & Hp).
  assert (t' = set_root_cache (rem_lf (set_in t r (with_children n [])) l) (root_cache t)) as Et.
  { unfold remove_leaf in E. cbn [cu_leaf] in E. rewrite El, Hp in E. unfold get_in in E at 1. rewrite En in E. cbn [ropt rbind] in E.
    unfold get_leaf_slot in E. rewrite Ec in E. cbn [leaf_slot_from] in E.
    rewrite Ea in E. cbn [unwrap_leaf rbind] in E. rewrite decide_True in E by done.
    cbn [rbind vec_remove lookup list_lookup take drop app] in E. rewrite Ea in E. cbn [raw] in E.
    rewrite bool_decide_eq_true_2 in E by done. cbn [rassert rbind] in E.
    assert (get_lf (set_in t r (with_children n [])) l = Ok lf) as Egl by (unfold get_lf; cbn [set_in leaf_nodes]; by rewrite El).
    rewrite Egl in E. cbn [rbind] in E.
    unfold recursive_update_cache in E. cbn [rbind USE_DIFF OrdTrait] in E.
    remember (rem_lf (set_in t r (with_children n [])) l) as t2 eqn:E2.
    assert (get_in t2 r = Ok (with_children n [])) as G2.
    { subst t2. unfold get_in, a_get, rem_lf, set_in, a_set. cbn. by rewrite lookup_insert. }
    unfold fuel in E. cbn [ruc_loop_f] in E. rewrite G2 in E. cbn [rbind n_parent with_children] in E. rewrite Ep in E. cbn [rbind] in E.
    unfold calc_root in E. assert (root t2 = AInt r) as R2 by (subst t2; done). rewrite R2 in E. unfold get_internal in E. cbn [unwrap_internal rbind] in E.
    rewrite G2 in E. cbn [rbind calc_cache n_children with_children map calc_cache_internal OrdTrait] in E.
    cbn [n_is_empty with_children n_children] in E. unfold remove_internal_node, fuel in E. cbn [remove_internal_f set_root_cache root] in E.
    rewrite R2 in E. cbn [raw] in E. rewrite decide_True in E by done. cbn [rbind] in E. injection E as _ <-. subst t2. done. }
  subst t'. split; [done|].
  pose proof T as [d I]. 
  assert (root_cache t = Some (fst e, fst e)) as Erc.
  { rewrite (in_root_cache _ _ _ _ I) by (by left). done. }
  remember (set_root_cache (rem_lf (set_in t r (with_children n [])) l) (root_cache t)) as t' eqn:Et.
  assert (root t' = AInt r) as R' by (subst t'; done).
  assert (a_get (in_nodes t') r = Some (with_children n [])) as G'.
  { subst t'. unfold a_get, rem_lf, set_in, a_set. cbn. by rewrite lookup_insert. }
  unfold check. rewrite rall_ok; cbn [rbind].
  2:{ intros [i nd] Hin. apply elem_of_map_to_list in Hin. change (a_get (in_nodes t') i = Some nd) in Hin.
      destruct T' as [d' I']. assert (i = r) as ->.
      { assert (Reach t' (AInt i)) as HR by (apply (in_reach_in _ _ _ _ I'); rewrite Hin; eauto).
        remember (AInt i) as a eqn:Ei. revert i nd Hin Ei. clear -R' G' HR. induction HR as [|j nj c HR IH Hj Hc]; intros i nd Hin Ei; [congruence|].
        exfalso. assert (j = r) as -> by (apply (IH j nj Hj eq_refl)). rewrite G' in Hj. injection Hj as <-. cbn in Hc. by apply elem_of_nil in Hc. }
      rewrite G' in Hin. injection Hin as <-. unfold check_node. rewrite R'. cbn [raw]. rewrite bool_decide_eq_true_2 by done. cbn [orb rassert rbind n_children with_children imap rall n_parent].
      rewrite Ep. cbn [unwrap_internal rbind]. by rewrite bool_decide_eq_true_2 by done. }
  rewrite R'. unfold get_internal, get_in. cbn [unwrap_internal rbind]. rewrite G'. cbn [ropt rbind calc_cache n_children with_children map calc_cache_internal OrdTrait].
  assert (root_cache t' = Some (fst e, fst e)) as -> by (subst t'; cbn [set_root_cache root_cache]; done). done.
Qed.
(** deleting from a map with one entry: the root cache keeps naming the removed key, and check panics *)
Theorem t_om_delete_last (m : omap_t Key Value kcmp) a k : MapOf TO m [a] ->
  exists m', om_delete kcmp m k = Ok (Some a, m') /\ MapOf TO m' [] /\
    root_cache (om_tree kcmp m') = Some (fst a, fst a) /\ check (om_tree kcmp m') = Panic.
Proof.
  intros Hm. destruct (om_delete_gen TO m [a] k Hm) as (s1 & e & s2 & m' & Es & H1 & H2 & E & Hm'); [done|].
  assert (s1 = [] /\ e = a /\ s2 = []) as (-> & -> & ->).
  { destruct s1 as [|x s1]; cbn in Es; injection Es as Ex Es; [by subst|by destruct s1]. }
  exists m'. split; [done|]. split; [done|].
  destruct Hm as (xs & T & M & Hx & Hi & Hn). destruct xs as [|[l e] [|? ?]]; [done| |done]. cbn in Hx. injection Hx as ->.
  destruct (ord_query TO _ [(l, a)] k T Hi) as (X & l' & e' & Y & Exs & _ & _ & Eq); [done|].
  assert (X = [] /\ l' = l /\ e' = a /\ Y = []) as (-> & -> & -> & ->).
  { destruct X as [|x X]; cbn in Exs; [by simplify_eq|]. injection Exs as Ex Exs. by destruct X. }
  unfold om_delete in E. rewrite Eq in E. cbn [rbind qr_cursor] in E.
  destruct (remove_last (om_tree kcmp m) l a (match kcmp k (fst a) with Gt => 1 | _ => 0 end) T M) as (t' & Et & T' & Er & Ec).
  rewrite Et in E. cbn [rbind] in E. unfold rassert in E. rewrite bool_decide_eq_true_2 in E by (rewrite Hn; cbn; lia). cbn [rbind] in E.
  injection E as <-. cbn [om_tree]. split; [|done]. rewrite Er. destruct T as [d I]. rewrite (in_root_cache _ _ _ _ I) by (by left). done.
Qed.
(** deleting any key from a non-empty map: the entry removed is the one with the key, or a neighbour of the gap *)
Theorem t_om_delete_near (m : omap_t Key Value kcmp) s k : MapOf TO m s -> s <> [] ->
  exists s1 e s2 m', s = s1 ++ e :: s2 /\ (forall a, a ∈ s1 -> kcmp (fst a) k = Lt) /\ (forall a, a ∈ s2 -> kcmp k (fst a) = Lt) /\
    om_delete kcmp m k = Ok (Some e, m') /\ MapOf TO m' (s1 ++ s2).
Proof. exact (om_delete_gen TO m s k). Qed.
(** so no sequence of insertions and deletions of any keys panics, and the map stays a sorted map *)
Theorem t_om_total (os : list (@mop Key Value)) : forall (m : omap_t Key Value kcmp) s, MapOf TO m s -> exists m' s', mrun (kcmp := kcmp) os m = Ok m' /\ MapOf TO m' s'.
Proof.
  induction os as [|[k v|k] os IH]; intros m s Hm; cbn [mrun mstep].
  - by exists m, s.
  - destruct (t_om_insert TO m s k v Hm) as (m' & -> & Hm'). cbn [rbind]. by eapply IH.
  - destruct s as [|a s].
    + rewrite (t_om_delete_empty TO m k Hm). cbn [rbind]. by eapply IH.
    + destruct (om_delete_gen TO m (a :: s) k Hm) as (s1 & e & s2 & m' & _ & _ & _ & -> & Hm'); [done|]. cbn [rbind]. by eapply IH.
Qed.
End e.
