(** Demo4.v — concrete histories of rope edits meet the hypotheses of PropRope.v's theorems. *)
From Verif Require Export Demo3 RopeP OrdM.

Definition depth_ok (r : rope 4) : bool := match @depth RT (rp_tree 4 r) with Ok d => d <=? 7 | _ => rope_is_empty 4 r end.
Fixpoint run_chk (os : list redit) (r : rope 4) : bool :=
  depth_ok r && match os with [] => true | o :: os' => match redit_run 4 o r with Ok r' => run_chk os' r' | _ => false end end.
Lemma depth_ok_shallow r s : RopeOf 4 r s -> depth_ok r = true -> Shallow (rp_tree 4 r) 7.
Proof.
  intros HR Hd. unfold depth_ok in Hd. pose proof (rope_empty_ok 4 ltac:(lia) r s HR) as He. destruct HR as (xs & T & Ex & Hn & _).
  destruct (decide (xs = [])) as [->|Hne]. { apply (empty_shallow RL _ 7 T). lia. }
  destruct (@depth RT (rp_tree 4 r)) as [d| |] eqn:E.
  - apply (shallow_depth RL _ d 7 xs T Hne E). by apply Nat.leb_le.
  - exfalso. rewrite Hd in He. symmetry in He. apply bool_decide_eq_true in He. subst s. destruct xs as [|[l e] xs]; [done|].
    rewrite ft_cons in He. apply app_nil in He as [He _]. apply (Hn l e); [left|]. pose proof (rv 4 _ _ l e T ltac:(left)) as V.
    cbn in He. change (gb_len e = 0). by rewrite <- (to_vec_length 4 e V), He.
  - exfalso. rewrite Hd in He. symmetry in He. apply bool_decide_eq_true in He. subst s. destruct xs as [|[l e] xs]; [done|].
    rewrite ft_cons in He. apply app_nil in He as [He _]. apply (Hn l e); [left|]. pose proof (rv 4 _ _ l e T ltac:(left)) as V.
    cbn in He. change (gb_len e = 0). by rewrite <- (to_vec_length 4 e V), He.
Qed.
Lemma run_shallow os : forall r s, RopeOf 4 r s -> fits os s -> run_chk os r = true ->
  forall os1 os2 r', os = os1 ++ os2 -> rope_run 4 os1 r = Ok r' -> Shallow (rp_tree 4 r') 7.
Proof.
  induction os as [|o os IH]; intros r s HR Hf Hc os1 os2 r' E Er.
  - symmetry in E. apply app_nil in E as [-> ->]. injection Er as <-. cbn in Hc. rewrite andb_true_r in Hc. by eapply depth_ok_shallow.
  - cbn [run_chk] in Hc. apply andb_true_iff in Hc as [H1 H2]. pose proof (depth_ok_shallow _ _ HR H1) as Sh.
    destruct os1 as [|o1 os1]; [by injection Er as <-|]. injection E as <- ->. cbn [rope_run] in Er. destruct Hf as [Ho Hf].
    destruct (redit_run 4 o r) as [r1| |] eqn:E1; [|done|done]. cbn [rbind] in Er.
    assert (RopeOf 4 r1 (sedit o s)) as HR1.
    { destruct o as [i x|st en]; cbn [redit_run sedit] in *.
      - destruct (rope_insert_ok 4 ltac:(lia) r s i x HR Ho) as (r2 & E2 & HR2). rewrite E1 in E2. by injection E2 as ->.
      - destruct (rope_delete_ok 4 ltac:(lia) r s st en HR Sh) as (r2 & E2 & HR2). rewrite E1 in E2. by injection E2 as ->. }
    by eapply (IH r1).
Qed.
(** sixty bytes, edits through the cursor, across leaves, of single bytes, and to the end *)
Definition demo_edits : list redit :=
  [RIns 0 (seq 0 60); RIns 30 [100; 101]; RIns 31 [102]; RDel 30 31; RDel 5 50; RIns 3 (seq 200 9); RDel 0 1; RDel 20 100; RIns 20 [7]; RDel 8 8; RDel 2 4].
Lemma demo_edits_fit : fits demo_edits [].
Proof. repeat (split; [vm_compute; lia|]). done. Qed.
Lemma demo_edits_ok : (forall os1 os2 r', demo_edits = os1 ++ os2 -> rope_run 4 os1 (rope_new 4) = Ok r' -> Shallow (rp_tree 4 r') 7) /\
  str_run demo_edits [] = [1; 2; 202; 203; 204; 205; 206; 207; 208; 3; 4; 48; 49; 50; 51; 52; 53; 54; 7].
Proof.
  split; [|by vm_compute]. intros os1 os2 r'. apply (run_shallow demo_edits (rope_new 4) [] (rope_new_ok 4) demo_edits_fit). by vm_compute.
Qed.
Lemma rope_clear_new CAP (r : rope CAP) : rp_cursor CAP r = None -> rope_clear CAP r = rope_new CAP.
Proof. intros E. unfold rope_clear. by rewrite E. Qed.
Lemma demo_clear : exists r, rope_insert 4 (rope_new 4) 0 (repeat 1 6) = Ok r /\ rp_cursor 4 r = None /\ rope_len 4 r = 6.
Proof.
  assert ((let? r := rope_insert 4 (rope_new 4) 0 (repeat 1 6) in
    Ok (match rp_cursor 4 r with None => true | Some _ => false end, rope_len 4 r)) = Ok (true, 6)) as E by (vm_compute; reflexivity).
  apply rbind_Ok in E as (r & E & E'). exists r. split; [exact E|]. injection E' as E1 E2. split; [|exact E2].
  by destruct (rp_cursor 4 r).
Qed.
Lemma demo_drain_at : exists (t : btree RT) (xs : list (nat * Elem RT)), LenCache RL rope_get_len /\ Tree RL t xs /\ Shallow t 7 /\ NZ xs /\ tlen xs = 49.
Proof.
  destruct demo_el as (t & xs & T & M & S & Hx). exists t, xs. split; [exact (rope_LenCache 4)|]. split; [exact T|].
  split; [apply (shallow_le 4 ltac:(lia) _ 2); [exact S|lia]|].
  assert (Hl : forall i l (e : Elem RT), xs !! i = Some (l, e) -> zip (seq 0 14) dseq !! i = Some (l, to_vec e)).
  { intros i l e E. rewrite <- Hx. change (((λ x : nat * Elem RT, (x.1, to_vec x.2)) <$> xs) !! i = Some (l, to_vec e)).
    rewrite list_lookup_fmap. by rewrite E. }
  assert (V : forall l (e : Elem RT), (l, e) ∈ xs -> @rle_len RT e = length (to_vec e)).
  { intros l e Hin. symmetry. apply (to_vec_length 4). by apply (tree_valid RL t _ l e T). }
  split.
  - intros l e Hin. rewrite (V l e Hin). apply elem_of_list_lookup in Hin as [i Hi]. apply Hl in Hi.
    assert (Forall (fun x : nat * list nat => 0 < length (snd x)) (zip (seq 0 14) dseq)) as Hf by (vm_compute; repeat constructor; lia).
    rewrite Forall_lookup in Hf. specialize (Hf _ _ Hi). cbn in Hf. lia.
  - assert (tlen xs = length (concat (map (fun x => to_vec (snd x)) xs))) as ->.
    { clear Hx Hl T S M. induction xs as [|[l e] xs IH]; [done|]. rewrite tlen_cons. cbn [map concat snd]. rewrite app_length, <- IH; [|intros l0 e0 Hin; apply (V l0); by right].
      by rewrite (V l e) by left. }
    pose proof (f_equal (map snd) Hx) as G. rewrite map_map in G.
    pose proof (f_equal (fun z => length (concat z)) G) as G2. etrans; [exact G2|]. by vm_compute.
Qed.
