(** Demo20.v — a lookup after a history, watched. *)
From Verif Require Export Demo19 Steps.

Lemma dw_example : exists (t : btree RT) xs, run_ops2 ds_hist bt_new = Ok t /\ Tree RL t xs /\ InOrder t (root t) 2 xs /\ length xs = 38 /\ Shallow t 9 /\ 20 ∈ xs.*1 /\
  (exists a s, query_with_finder_return (RopeFinder 4) t 50 = Ok (a, s) /\ query_with_finder_return (Watch (RopeFinder 4)) t 50 = Ok (a, (s, ([5; 6], 1)))) /\
  exists w, visit_previous_caches t (mkCur 20 1) = Ok w /\ length w = 5.
Proof.
  destruct ds_valid as (V & C & _ & _).
  destruct (history_md RL (RopeF 4) ds_hist bt_new [] (Tree_new RL)) as (t & xs & E & T & M); [right; apply MD_new|exact V|exact C|apply MD_new|].
  exists t, xs. split; [exact E|]. split; [exact T|].
  assert (H : (let? t := run_ops2 ds_hist bt_new in Ok (length (elems t))) = Ok 38) by (by vm_compute).
  assert (H0 : (let? t := run_ops2 ds_hist bt_new in Ok (bool_decide (20 ∈ (elems t).*1))) = Ok true) by (by vm_compute).
  assert (H1 : (let? t := run_ops2 ds_hist bt_new in depth t) = Ok 2) by (by vm_compute).
  assert (H2 : (let? t := run_ops2 ds_hist bt_new in query_with_finder_return (Watch (RopeFinder 4)) t 50) =
    Ok (Some (mkQR (mkCur 19 0) true), (mkLF 0 1 (Some 4), ([5; 6], 1)))) by (by vm_compute).
  assert (H3 : (let? t := run_ops2 ds_hist bt_new in query_with_finder_return (RopeFinder 4) t 50) =
    Ok (Some (mkQR (mkCur 19 0) true), mkLF 0 1 (Some 4))) by (by vm_compute).
  assert (H4 : (let? t := run_ops2 ds_hist bt_new in let? w := visit_previous_caches t (mkCur 20 1) in Ok (length w)) = Ok 5) by (by vm_compute).
  rewrite E in H, H0, H1, H2, H3, H4. cbn [rbind] in H, H0, H1, H2, H3, H4.
  assert (Hl : length xs = 38). { rewrite <- (Tree_elems RL t xs T). by injection H as H. }
  assert (Hne : xs <> []) by (intros ->; discriminate Hl).
  assert (Hd : InOrder t (root t) 2 xs).
  { pose proof T as [D I]. pose proof (in_order _ _ _ _ I) as Hio. pose proof (t_depth RL t D xs T Hne Hio) as Hd. rewrite H1 in Hd. injection Hd as <-. exact Hio. }
  split; [exact Hd|]. split; [exact Hl|]. split; [exists 2, xs; split; [exact Hd|lia]|].
  split. { rewrite <- (Tree_elems RL t xs T). injection H0 as H0. by apply bool_decide_eq_true in H0. }
  split. { eexists _, _. split; [exact H3|exact H2]. }
  destruct (visit_previous_caches t (mkCur 20 1)) as [w| |]; [|discriminate H4|discriminate H4]. exists w. split; [reflexivity|]. cbn [rbind] in H4. by injection H4 as H4.
Qed.
