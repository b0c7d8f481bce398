(** Demo9.v — instances of the hypotheses of PropPos.v. *)
From Verif Require Export Demo4 Pos.

Lemma demo_many_all : exists (t : btree RT) (X : list (nat * Elem RT)) (e : Elem RT) (Y : list (nat * Elem RT)),
  let data := [gbs [1]; gbs [2]; gbs [3; 3; 3]; gbs [4; 4]; gbs [5]] : list (Elem RT) in
  Tree RL t (X ++ (5, e) :: Y) /\ 1 <= rle_len e /\ Forall (evalid RL) data /\ ~ NoAdj data.
Proof.
  destruct demo_mid as (t & X & e & Y & T & M & S & _ & _ & Hv & Hl & Hg). exists t, X, e, Y. cbv zeta.
  split; [exact T|]. split; [rewrite Hl; lia|]. split; [repeat constructor; apply gbs_valid; cbn; lia|].
  intros H. specialize (H 0 _ _ eq_refl eq_refl). vm_compute in H. discriminate H.
Qed.
Lemma demo_empty_range : exists (t : btree RT) (xs : list (nat * Elem RT)) (ea : Elem RT), Tree RL t xs /\ Shallow t 9 /\
  Fits t (mkCur 3 1) (mkCur 3 1) /\ (3, ea) ∈ xs /\ 1 < @rle_len RT ea.
Proof.
  destruct demo_range as (t & xs & ea & eb & T & S & Ha & Hl & _). exists t, xs, ea. split; [exact T|].
  destruct S as (d & ys & Hd & Hle). assert (S7 : Shallow t 7) by (exists d, ys; split; [exact Hd|lia]).
  split; [exists d, ys; split; [exact Hd|lia]|]. split; [|by split].
  destruct (cuts_shallow RL t xs (mkCur 3 1) (mkCur 3 1) ea ea T Ha) as (t2 & E & G); [cbn [cu_offset]; lia|exact Ha|cbn [cu_offset]; lia|by left|].
  exists t2. split; [exact E|]. exact (G 7 S7).
Qed.
