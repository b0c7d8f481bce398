(** Demo.v — concrete trees built through the API; used to show that the hypotheses of the
    property theorems are met by non-trivial reachable states. *)
From Verif Require Export Inst Ops2 Refuted.

Notation RL := (RopeLaw 4).
Section gen.
Context {B : BTreeTrait} (L : Lawful B).
Fixpoint push_all (t : btree B) (l : list (Elem B)) : res (btree B) :=
  match l with [] => Ok t | x :: l' => let? (_, t) := push t x in push_all t l' end.
Lemma push_all_ok l : forall t xs, Tree L t xs -> MD t -> Forall (evalid L) l ->
  exists t' ys, push_all t l = Ok t' /\ Tree L t' ys /\ MD t'.
Proof.
  induction l as [|x l IH]; intros t xs T M F; [by exists t, xs|]. cbn [push_all].
  apply Forall_cons in F as [Vx F].
  destruct (t_push L t xs x T Vx) as (cur & t' & -> & M' & _ & [(X & l0 & e & e' & _ & _ & _ & T' & _)|(n & _ & T' & _ & _)]); cbn [rbind];
    (eapply IH; [exact T'|by apply M'|done]).
Qed.
Lemma push_all_new l t : Forall (evalid L) l -> push_all bt_new l = Ok t -> Tree L t (elems t) /\ MD t.
Proof.
  intros F E. destruct (push_all_ok l bt_new [] (Tree_new L) (MD_new false) F) as (t' & ys & E' & T & M).
  rewrite E in E'. injection E' as <-. split; [|done]. by rewrite (Tree_elems L _ _ T).
Qed.
End gen.

Lemma gbs_valid s : length s <= 4 -> gwf 4 (gbs s) /\ to_vec (gbs s) = s.
Proof.
  intros Hl. unfold gbs. destruct (p_from_str 4 s) as (gs & E & F & C & F1 & Hfull); [lia|]. rewrite E.
  destruct gs as [|g gs].
  - cbn in C. subst s. split; [|done]. unfold gwf. cbn. lia.
  - apply Forall_cons in F as [Wg _]. split; [done|]. destruct gs as [|g2 gs]; [by cbn in C; rewrite app_nil_r in C|]. exfalso.
    destruct (exists_last (l := g2 :: gs)) as (gs' & gl & Eg); [done|]. 
    assert (length (to_vec g) = 4) as Hg.
    { specialize (Hfull (g :: gs') gl). rewrite Eg in Hfull. specialize (Hfull eq_refl). by apply Forall_cons in Hfull as [? _]. }
    apply Forall_cons in F1 as [_ F1]. apply Forall_cons in F1 as [F1 _]. cbn in C. subst s. rewrite !app_length in Hl. lia.
Qed.

(** fourteen leaves of 4, 3, 4, 3, … bytes: a root with two nodes *)
Definition dseq : list (list nat) := concat (map (fun i => [[i; i; i; i]; [i; i + 1; i + 2]]) [10; 20; 30; 40; 50; 60; 70]).
Definition dgb : list gbuf := map gbs dseq.
Lemma dgb_valid : Forall (gwf 4) dgb.
Proof.
  unfold dgb. apply Forall_fmap. eapply Forall_impl; [|intros s Hs; apply (gbs_valid s), Hs].
  unfold dseq. cbn [concat map app]. repeat constructor; cbn; lia.
Qed.
Lemma demo_tree : exists (t : btree RT), push_all (B := RT) bt_new dgb = Ok t /\ Tree RL t (elems t) /\ MD t /\ Shallow t 9 /\ depth t = Ok 2 /\
  map (fun x => (fst x, to_vec (snd x))) (elems t) = zip (seq 0 14) dseq.
Proof.
  destruct (push_all_ok RL dgb bt_new [] (Tree_new RL) (MD_new false) dgb_valid) as (t & ys & E & T & M).
  exists t. rewrite (Tree_elems RL _ _ T). split; [done|]. split; [done|]. split; [done|].
  assert (H : (let? t := push_all (B := RT) bt_new dgb in Ok (depth t, map (fun x => (fst x, to_vec (snd x))) (elems t))) =
    Ok (Ok 2, zip (seq 0 14) dseq)) by (vm_compute; reflexivity).
  rewrite E in H. cbn [rbind] in H. apply Ok_inj, pair_inj in H as [Hd He]. rewrite (Tree_elems RL _ _ T) in He. split; [|split; [exact Hd|exact He]].
  destruct (Tree_content RL _ _ T) as [d Hd']. exists d, ys. split; [done|].
  assert (ys <> []) as Hne by (destruct ys; [done|done]).
  rewrite (t_depth RL t d ys T Hne Hd') in Hd. injection Hd as ->. lia.
Qed.
(** the sixth leaf, with its neighbours *)
Lemma demo_mid : exists (t : btree RT) (X : list (nat * Elem RT)) (e : Elem RT) (Y : list (nat * Elem RT)), Tree RL t (X ++ (5, e) :: Y) /\ MD t /\ Shallow t 9 /\ length X = 5 /\ length Y = 8 /\
  to_vec e = [30; 31; 32] /\ @rle_len RT e = 3 /\ evalid RL (gbs [1; 2]).
Proof.
  destruct demo_tree as (t & _ & T & M & S & _ & Hx). exists t.
  assert (@length (nat * Elem RT) (elems t) = 14) as Hl.
  { apply (f_equal length) in Hx. rewrite map_length in Hx. exact Hx. }
  destruct (lookup_lt_is_Some_2 (elems t) 5) as [[l e] E5]; [rewrite Hl; lia|].
  assert (((fun x : nat * Elem RT => (fst x, to_vec (snd x))) <$> (elems t !! 5)) = Some (5, [30; 31; 32])) as H5.
  { rewrite <- list_lookup_fmap. exact (f_equal (fun l => l !! 5) Hx). }
  rewrite E5 in H5. injection H5 as -> He.
  exists (take 5 (elems t)), e, (drop 6 (elems t)).
  assert (evalid RL e) as V. { apply (tree_valid RL t _ 5 e T). by eapply elem_of_list_lookup_2. }
  split. { pose proof (take_drop_middle _ _ _ E5) as Em. rewrite <- Em in T at 1. exact T. }
  split; [exact M|]. split; [exact S|]. split; [rewrite take_length, Hl; done|]. split; [rewrite drop_length, Hl; done|].
  split; [exact He|]. split.
  - change (gb_len e = 3). rewrite <- (to_vec_length 4) by done. by rewrite He.
  - apply gbs_valid; cbn; lia.
Qed.
