(** Demo3.v — the hypotheses of PropBulk.v's theorems are met by a concrete two-level tree. *)
From Verif Require Export Demo2 RopeFl Facts.

Lemma demo_ulbs : exists (t : btree RT) (X : list (nat * Elem RT)) (e : Elem RT) (Y : list (nat * Elem RT)) s',
  Tree RL t (X ++ (5, e) :: Y) /\ Shallow t 10 /\
  @query_with_finder_return RT (RopeFinder 4) t (tlen X + 1) = Ok (Some (mkQR (mkCur 5 1) true), s') /\
  evalid RL (gbs [] : Elem RT) /\ drel RL (get_elem_cache e) (- 3)%Z (summ RL (map get_elem_cache (ul_kept (gbs [] : Elem RT) None))) /\
  evalid RL (gbs [1; 2] : Elem RT) /\
  drel RL (get_elem_cache e) 1%Z (summ RL (map get_elem_cache (ul_kept (gbs [1; 2] : Elem RT) (Some (gbs [1; 2] : Elem RT))))).
Proof.
  destruct demo_mid as (t & X & e & Y & T & M & S & _ & _ & Hv & Hl & Hg). exists t, X, e, Y.
  pose proof (t_len_query_in RL rope_get_len t X 5 e Y 1 (rope_LenCache 4) T) as Hq. rewrite Hl in Hq. specialize (Hq ltac:(lia)).
  unfold query in Hq. change (RopeFinder 4) with (@LengthFinder RT rope_get_len).
  destruct (@query_with_finder_return RT (@LengthFinder RT rope_get_len) t (tlen X + 1)) as [[r s]| |]; try done.
  cbn in Hq. injection Hq as ->. exists s. split; [exact T|]. split.
  { destruct S as (d & ys & Hc & Hd). exists d, ys. split; [done|]. lia. }
  split; [done|]. assert (get_elem_cache e = 3%Z) as -> by (change (Z.of_nat (@rle_len RT e) = 3%Z); by rewrite Hl).
  split. { apply (gbs_valid []); cbn; lia. } split; [by vm_compute|]. split; [exact Hg|]. by vm_compute.
Qed.
Lemma demo_insert_at : exists (t : btree RT) (X : list (nat * Elem RT)) (e : Elem RT) (Y : list (nat * Elem RT)),
  LenCache RL rope_get_len /\ Tree RL t (X ++ (5, e) :: Y) /\ tlen X + 1 <= tlen (X ++ (5, e) :: Y) /\ evalid RL (gbs [1; 2]) /\ fl (RopeF 4) (gbs [1; 2]) = [1; 2].
Proof.
  destruct demo_mid as (t & X & e & Y & T & M & S & _ & _ & Hv & Hl & Hg). exists t, X, e, Y.
  split; [exact (rope_LenCache 4)|]. split; [exact T|]. split; [rewrite tlen_app, tlen_cons, Hl; lia|]. split; [exact Hg|]. by vm_compute.
Qed.
Lemma demo_many : exists (t : btree RT) (X : list (nat * Elem RT)) (e : Elem RT) (Y : list (nat * Elem RT)),
  let data := [gbs [1; 2; 3; 4]; gbs [5; 6; 7; 8]; gbs [9]] : list (Elem RT) in
  Tree RL t (X ++ (5, e) :: Y) /\ 1 <= rle_len e /\ Forall (evalid RL) data /\ NoAdj data /\
  (forall X' l0 e0 x y r, X = X' ++ [(l0, e0)] -> data = x :: y :: r -> can_merge e0 x = false) /\
  concat (map (fl (RopeF 4)) data) = [1; 2; 3; 4; 5; 6; 7; 8; 9].
Proof.
  destruct demo_el as (t & xs & T & M & S & Hx).
  assert (@length (nat * Elem RT) xs = 14) as Hl.
  { apply (f_equal length) in Hx. rewrite map_length in Hx. exact Hx. }
  assert (Hi : forall i v, zip (seq 0 14) dseq !! i = Some (i, v) -> exists e : Elem RT, xs !! i = Some (i, e) /\ @rle_len RT e = length v).
  { intros i v Hi. rewrite <- Hx in Hi. change (((λ x : nat * Elem RT, (x.1, to_vec x.2)) <$> xs) !! i = Some (i, v)) in Hi.
    rewrite list_lookup_fmap in Hi. destruct (xs !! i) as [[l e]|] eqn:E; [|done]. cbn in Hi. injection Hi as -> <-. exists e. split; [done|].
    change (gb_len e = length (to_vec e)). symmetry. apply (to_vec_length 4). apply (tree_valid RL t _ i e T). by eapply elem_of_list_lookup_2. }
  destruct (Hi 5 [30; 31; 32]) as (e & E5 & L5); [done|]. destruct (Hi 4 [30; 30; 30; 30]) as (e4 & E4 & L4); [done|].
  exists t, (take 5 xs), e, (drop 6 xs). cbv zeta. split. { rewrite (take_drop_middle _ _ _ E5). exact T. }
  split; [rewrite L5; cbn; lia|]. split.
  { repeat constructor; apply gbs_valid; cbn; lia. }
  split. { intros [|[|[|i]]] a b Ha Hb; cbn in Ha, Hb; try done; injection Ha as <-; injection Hb as <-; by vm_compute. }
  split; [|by vm_compute].
  intros X' l0 e0 x y r EX Ed. injection Ed as <- <- <-.
  assert (e0 = e4) as ->.
  { rewrite (take_S_r _ _ _ E4) in EX. apply app_inj_tail in EX as [_ EX]. by injection EX. }
  change (bool_decide (gb_len e4 + gb_len (gbs [1; 2; 3; 4]) <= 4) = false). apply bool_decide_eq_false.
  change (@rle_len RT e4 + 4 <= 4 -> False). rewrite L4. cbn. lia.
Qed.
