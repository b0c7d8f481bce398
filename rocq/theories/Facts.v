(** Facts.v — length caches of the shipped traits; counting nodes; handles; clear. *)
From Verif Require Export Shift Demo.

Lemma rope_LenCache CAP : LenCache (RopeLaw CAP) rope_get_len.
Proof.
  intros xs V _. unfold rope_get_len, agg. cbn [summ RopeLaw].
  assert (zsum (map (fun x : nat * Elem (RopeTrait CAP) => get_elem_cache (snd x)) xs) = Z.of_nat (tlen xs)) as ->; [|lia].
  induction xs as [|[l e] xs IH]; [done|]. cbn [map]. rewrite zsum_cons, IH, tlen_cons.
  - cbn. lia.
  - intros l' e' H. apply (V l' e'). by right.
Qed.
Lemma rnm_LenCache : LenCache RNMLaw (fun c => c).
Proof.
  intros xs _ _. unfold agg, tlen. cbn [summ RNMLaw]. done.
Qed.

Section facts.
Context {B : BTreeTrait} (L : Lawful B).
Notation btree := (btree B).
Implicit Types (t : btree) (xs X Y : list (nat * Elem B)).

Lemma size_keys {A} (m : gmap nat A) : exists ks, NoDup ks /\ size m = length ks /\ forall i, i ∈ ks <-> is_Some (m !! i).
Proof.
  exists (map_to_list m).*1. split; [apply NoDup_fst_map_to_list|]. split; [by rewrite fmap_length|].
  intros i. split.
  - intros ([i' v] & -> & Hi)%elem_of_list_fmap. apply elem_of_map_to_list in Hi. eauto.
  - intros [v Hv]. apply elem_of_list_fmap. exists (i, v). split; [done|]. by apply elem_of_map_to_list.
Qed.
(** the arenas hold exactly the reachable nodes *)
Theorem t_node_len t xs : Tree L t xs ->
  (forall l, is_Some (a_get (leaf_nodes t) l) <-> l ∈ xs.*1) /\
  exists ks, NoDup ks /\ (forall i, i ∈ ks <-> Reach t (AInt i)) /\ node_len t = length ks + length xs.
Proof.
  intros [D I].
  assert (Hl : forall l, is_Some (a_get (leaf_nodes t) l) <-> l ∈ xs.*1).
  { intros l. split.
    - intros [lf Hf]. apply elem_of_list_fmap. exists (l, l_elem lf). split; [done|]. apply (in_leaf _ _ _ _ I). by rewrite Hf.
    - intros ([l' e] & -> & Hx)%elem_of_list_fmap. apply (in_leaf _ _ _ _ I) in Hx. cbn [fst].
      destruct (a_get (leaf_nodes t) l'); [eauto|done]. }
  split; [done|].
  destruct (size_keys (amap (in_nodes t))) as (ks & Nk & Sk & Hk).
  destruct (size_keys (amap (leaf_nodes t))) as (ls & Nl & Sl & Hls).
  exists ks. split; [done|]. split.
  - intros i. rewrite (in_reach_in _ _ _ _ I). apply Hk.
  - unfold node_len, a_len. rewrite Sk, Sl. f_equal. rewrite <- (fmap_length fst xs). apply Permutation_length.
    apply NoDup_Permutation; [done|apply (in_nodup _ _ _ _ I)|]. intros l. rewrite (Hls l). apply Hl.
Qed.
Theorem t_fan t xs : Tree L t xs -> forall i n, a_get (in_nodes t) i = Some n ->
  length (n_children n) <= 11 /\ (AInt i <> root t -> 1 <= length (n_children n)).
Proof.
  intros [D I] i n Hi. split; [by eapply (in_fan _ _ _ _ I)|]. intros Hr.
  pose proof (in_ne _ _ _ _ I i n Hi Hr). destruct (n_children n); [done|cbn; lia].
Qed.
(** handles denote the leaves of the content *)
Theorem t_get_elem t xs l : Tree L t xs -> forall e, get_elem t l = Some e <-> (l, e) ∈ xs.
Proof. intros [D I] e. unfold get_elem. symmetry. apply (in_leaf _ _ _ _ I). Qed.
Theorem t_clear t : Tree L (clear t) [] /\ clear t = bt_new /\ node_len (clear t) = 1 /\ root_cache (clear t) = cache_default /\
  is_empty (clear t) = Ok true.
Proof. split; [apply Tree_new|]. split; [done|]. split; [done|]. split; [done|]. done. Qed.
End facts.
Lemma clear_alias : exists (t : btree RT) l e t' l' e', push (bt_new (B := RT)) e = Ok (mkCur l 0, t) /\ push (clear t) e' = Ok (mkCur l' 0, t') /\
  get_elem t l = Some e /\ e <> e' /\ get_elem t' l = Some e'.
Proof.
  set (e := gbs [1]). set (e' := gbs [2]).
  assert (H : (let? (c, t) := push (bt_new (B := RT)) e in let? (c', t') := push (clear t) e' in
     Ok (c, c', get_elem t 0, get_elem t' 0)) = Ok (mkCur 0 0, mkCur 0 0, Some e, Some e')) by (vm_compute; reflexivity).
  destruct (push (bt_new (B := RT)) e) as [[c t]| |] eqn:E1; cbn [rbind] in H; [|done|done].
  destruct (push (clear t) e') as [[c' t']| |] eqn:E2; cbn [rbind] in H; [|done|done].
  apply Ok_inj, pair_inj in H as [H H4]. apply pair_inj in H as [H H3]. apply pair_inj in H as [H1 H2]. subst c c'.
  exists t, 0, e, t', 0, e'. split; [done|]. split; [done|]. split; [done|]. split; [|done].
  intros He. assert (to_vec e = to_vec e') as Hv by (by rewrite He). vm_compute in Hv. discriminate.
Qed.
