(** Touch4.v — how many arena entries [update_leaf] writes. *)
From Verif Require Export Touch3.
From Verif Require Import UpdLeaf.

Section ul.
Context {B : BTreeTrait} (L : Lawful B).
Notation btree := (btree B).
Notation child := (child B).
Notation OK := (OK L).
Notation Tree := (Tree L).
Implicit Types (t : btree) (i m p k : nat) (a b : aidx) (cs : list child).

Lemma ul_alloc_st H lv p es : forall acc t cs t', foldl (fun '(cs, t) e => let (c, t) := alloc_leaf_child t e p in (cs ++ [c], t)) (acc, t) es = (cs, t') -> Lev t H lv ->
  (forall c, c ∈ acc -> exists l, c_arena c = ALeaf l) ->
  Touched (length es) t t' /\ Lev t' H lv /\ (forall c, c ∈ cs -> exists l, c_arena c = ALeaf l).
Proof.
  induction es as [|e es IH]; intros acc t cs t'; cbn [foldl length].
  - intros [= <- <-] HL Hc. split_and!; try done. apply to_refl0.
  - destruct (alloc_leaf_child t e p) as [c t1] eqn:Ea. intros E HL Hc. destruct (alloc_lev _ _ _ _ _ _ _ Ea HL) as (A1 & A2 & A3).
    destruct (IH _ _ _ _ E A2) as (I1 & I2 & I3). { intros c' [Hc'| ->%elem_of_list_singleton]%elem_of_app; [by apply Hc|done]. }
    split_and!; try done. exact (to_trans 1 _ _ _ _ A1 I1).
Qed.
Lemma ul_insert_in new : forall cs s sl cs' sl', ul_insert cs s new sl = Ok (cs', sl') -> length cs <= 12 ->
  length cs' <= 12 /\ forall c : child, c ∈ cs' -> c ∈ cs \/ c ∈ new.
Proof.
  induction new as [|v new IH]; intros cs s sl cs' sl'; cbn [ul_insert].
  - intros [= <- <-] Hl. split; [done|by left].
  - intros E Hl. rs E. apply vec_insert_in in Ey0 as [V1 V2]. destruct (IH _ _ _ _ _ E V1) as [I1 I2]. split; [done|].
    intros c Hc. destruct (I2 c Hc) as [H1|H1]; [|right; by right]. destruct (V2 c H1) as [->|H2]; [right; left|by left].
Qed.

Theorem update_leaf_to t H lv l e f e1 (upd : bool) n1 n2 r t' : OK t H lv -> el t l = Some e ->
  f e = (e1, (upd, n1, n2)) -> evalid L e1 -> (forall x, n1 = Some x -> evalid L x) -> (forall x, n2 = Some x -> evalid L x) ->
  (upd = false -> get_elem_cache (default e1 (head (ul_parts e1 n1 n2))) = get_elem_cache e) ->
  update_leaf t l f = Ok (r, t') -> Touched (31 * H + 40) t t'.
Proof.
  intros O He Hf V1 Vn1 Vn2 Hu E.
  pose proof (ok_wt _ _ _ _ O) as W. pose proof (ok_lk _ _ _ _ O) as K.
  destruct (at_leaf_ok t H lv l e W K He) as (p & A & c & Z & AL). pose proof AL as (_ & _ & Hlvp & _ & _ & Hget & _).
  unfold update_leaf in E. rewrite Hget in E. cbn [rbind l_elem l_parent] in E. rewrite Hf in E.
  pose proof (ul_norm e1 n1 n2) as Hn. pose proof (ul_parts_len e1 n1 n2) as Hpl. pose proof (ul_parts_valid L e1 n1 n2 V1 Vn1 Vn2) as Vp.
  assert (First : forall x t1, evalid L x -> (upd = false -> get_elem_cache x = get_elem_cache e) ->
    (if upd then recursive_update_cache (set_lf t l (mkLeaf x p)) (ALeaf l) (USE_DIFF (b := B)) None else Ok (set_lf t l (mkLeaf x p))) = Ok t1 ->
    OK t1 H lv /\ Touched (H + 3) t t1 /\ el t1 l = Some x).
  { intros x t1 Vx Hux E1. destruct (set_leaf_ok L t H lv l e x p A c Z upd O AL Vx Hux) as (t1' & E1' & O1 & Sh & Cn & El).
    rewrite E1 in E1'. injection E1' as <-. split; [done|]. split; [|rewrite El; by rewrite decide_True].
    assert (L0 : Lev (set_lf t l (mkLeaf x p)) H lv) by (apply (lev_same t); [done|by apply (lev_ok L)]).
    destruct upd; [|injection E1 as <-; eapply to_le; [apply to_set_lf|lia]].
    destruct (ruc_st H lv _ _ _ _ _ E1 L0) as (T2 & _). eapply to_le; [eapply to_trans; [apply to_set_lf|exact T2]|lia]. }
  destruct (ul_parts e1 n1 n2) as [|x rr].
  - destruct Hn as [Hn Hcr]. rewrite Hn in E. unfold with_elem in E. cbn [l_parent] in E. rewrite Hcr in E.
    match type of E with rbind ?m _ = _ => destruct m as [t1| |] eqn:E1; cbn [rbind] in E; [|done..] end.
    destruct (First e1 t1 V1 Hu E1) as (O1 & T1 & He1). pose proof (lev_ok L _ _ _ O1) as L1.
    cbn [is_none rassert rbind] in E. destruct (get_lf t1 l) as [lf| |]; cbn [rbind] in E; [|done..].
    destruct (get_in (rem_lf t1 l) p) as [pn| |] eqn:Gp; cbn [rbind] in E; [|done..].
    destruct (get_leaf_slot l pn) as [s0| |]; cbn [rbind] in E; [|done..].
    destruct (vec_remove _ _) as [[cr cs]| |] eqn:Ev; cbn [rbind] in E; [|done..]. apply vec_remove_in in Ev as (D1 & _ & D2).
    assert (L2 : Lev (rem_lf t1 l) H lv) by (by apply (lev_same t1)). pose proof (lev_get _ _ _ _ _ L2 Gp) as Hpn. pose proof Hpn as (_ & P2 & P3 & _).
    assert (L3 : Lev (set_in (rem_lf t1 l) p (with_children pn cs)) H lv).
    { apply lev_set; [done|]. apply (ln_with _ _ _ _ _ _ Hpn); [cbn; lia|by left|]. cbn. intros c' m Hc Ha. left. exists c'. split; [by apply D2|done]. }
    rs E. injection E as <- <-.
    assert (T3 : Touched (28 * H + 2 * H + 28) (set_in (rem_lf t1 l) p (with_children pn cs)) y).
    { destruct (is_lack _).
      - unfold handle_lack_recursively in Ey. apply (lack_to H lv) in Ey; [|done|lia]. eapply to_le; [exact Ey|lia].
      - injection Ey as <-. eapply to_le; [apply to_refl0|lia]. }
    eapply to_le; [eapply to_trans; [exact T1|eapply to_trans; [eapply (to_trans 1 1); [apply (to_rem_lf t1 l)|apply to_set_in]|exact T3]]|lia].
  - destruct Hn as [Hn Hcr]. rewrite Hn in E. unfold with_elem in E. cbn [l_parent] in E. rewrite Hcr in E.
    apply Forall_cons in Vp as [Vx Vr].
    match type of E with rbind ?m _ = _ => destruct m as [t1| |] eqn:E1; cbn [rbind] in E; [|done..] end.
    destruct (First x t1 Vx Hu E1) as (O1 & T1 & He1). pose proof (lev_ok L _ _ _ O1) as L1. clear First.
    pose proof (ok_wt _ _ _ _ O1) as W1. pose proof (ok_lk _ _ _ _ O1) as K1.
    destruct (rr !! 0) as [x1|] eqn:Er0.
    2:{ rs E. injection E as <- <-. eapply to_le; [exact T1|lia]. }
    match type of E with rbind ?m _ = _ => destruct m as [mg| |] eqn:Em; cbn [rbind] in E; [|done..] end.
    destruct mg as [[[al sl] t2]|].
    { injection E as <- <-. assert (Touched (H + 3) t1 t2) as T2; [|eapply to_le; [eapply to_trans; [exact T1|exact T2]|lia]].
      destruct (rr !! 1); [done|]. rs Em. destruct (n_children y !! S y0) as [c'|]; [|done]. rs Em. destruct (can_merge _ _); [|done]. rs Em. injection Em as <- <- <-.
      assert (L2 : Lev (set_lf t1 (raw (c_arena c')) (with_elem y1 y2)) H lv) by (by apply (lev_same t1)).
      destruct (ruc_st H lv _ _ _ _ _ Ey3 L2) as (T3 & _). eapply to_le; [eapply to_trans; [apply to_set_lf|exact T3]|lia]. }
    clear Em. match type of E with context [?w :: match rr !! 1 with Some _ => _ | None => _ end] => set (new := w :: match rr !! 1 with Some x2 => [x2] | None => [] end) in E end.
    assert (Hnew : length new <= 2) by (unfold new; destruct (rr !! 1); cbn; lia). clearbody new.
    destruct (get_in t1 p) as [pn| |] eqn:Gp; cbn [rbind] in E; [|done..].
    match type of E with rbind ?m _ = _ => destruct m as [[p2 t2]| |] eqn:Em; cbn [rbind] in E; [|done..] end.
    assert (exists H2 lv2, H2 <= S H /\ Lev t2 H2 lv2 /\ Touched (28 * H + 31) t1 t2) as (H2 & lv2 & HH & L2 & T2).
    { case_decide as D; [|injection Em as <- <-; exists H, lv; split_and!; [lia|done|eapply to_le; [apply to_refl0|lia]]].
      destruct (split t1 (AInt p)) as [t3| |] eqn:Es; cbn [rbind] in Em; [|done..]. rs Em. injection Em as <- <-.
      assert (G : a_get (in_nodes t1) p = Some pn) by (by apply get_in_some). assert (Hk1 : kids t1 p = Some (n_children pn)) by (unfold kids; by rewrite G).
      assert (Hlen : length (n_children pn) <= 11). { pose proof (ok_sz _ _ _ _ O1 p) as Hz. by rewrite (chs_kids _ _ _ Hk1), map_length in Hz. }
      destruct (split_ok L (H - lv p) t1 H lv p (fuel t1) W1 K1) as (t2' & H2 & lv2 & Es' & O2 & _ & _ & _ & _ & _ & _ & HH); try apply O1.
      + rewrite Hk1. eauto.
      + rewrite (chs_kids _ _ _ Hk1), map_length. lia.
      + intros j _. apply O1.
      + done.
      + pose proof (wt_depth_bound W1 p ltac:(rewrite Hk1; eauto)). unfold fuel. lia.
      + unfold split in Es. rewrite Es' in Es. injection Es as <-. exists H2, lv2. split_and!; [done|by apply (lev_ok L)|].
        eapply to_le; [eapply (split_f_to H _ _ lv); [exact Es'|done|lia]|lia]. }
    unfold ul_alloc in E. destruct (foldl _ ([], t2) new) as [cs t3] eqn:Ea.
    destruct (ul_alloc_st H2 lv2 p2 _ _ _ _ _ Ea L2) as (T3 & L3 & Hcs); [by intros c' Hc'%elem_of_nil|].
    destruct (get_in t3 p2) as [pn2| |] eqn:Gp2; cbn [rbind] in E; [|done..]. destruct (get_leaf_slot l pn2) as [s2| |]; cbn [rbind] in E; [|done..].
    destruct (ul_insert _ _ _ _) as [[cs2 sl2]| |] eqn:Eu; cbn [rbind] in E; [|done..]. pose proof (lev_get _ _ _ _ _ L3 Gp2) as Hpn. pose proof Hpn as (_ & P2 & P3 & _).
    destruct (ul_insert_in _ _ _ _ _ _ Eu P3) as [U1 U2].
    assert (L4 : Lev (set_in t3 p2 (with_children pn2 cs2)) H2 lv2).
    { apply lev_set; [done|]. apply (ln_with _ _ _ _ _ _ Hpn); [done|by left|]. cbn. intros c' m Hc Ha. destruct (U2 c' Hc) as [Hc'|Hc']; [left; eauto|]. destruct (Hcs c' Hc') as [l' Hl']. congruence. }
    rs E. injection E as <- <-. destruct (ruc_st H2 lv2 _ _ _ _ _ Ey0 L4) as (T5 & _).
    eapply to_le; [eapply to_trans; [exact T1|eapply to_trans; [exact T2|eapply to_trans; [exact T3|eapply to_trans; [apply to_set_in|exact T5]]]]|lia].
Qed.
Theorem t_update_leaf_to t d X l e Y f e1 (upd : bool) n1 n2 r t' : Tree t (X ++ (l, e) :: Y) -> InOrder t (root t) d (X ++ (l, e) :: Y) ->
  f e = (e1, (upd, n1, n2)) -> evalid L e1 -> (forall x, n1 = Some x -> evalid L x) -> (forall x, n2 = Some x -> evalid L x) ->
  (upd = false -> get_elem_cache (default e1 (head (ul_parts e1 n1 n2))) = get_elem_cache e) ->
  update_leaf t l f = Ok (r, t') -> Touched (31 * d + 9) t t'.
Proof.
  intros T Hio Hf V1 Vn1 Vn2 Hu E. destruct (tree_ok_d L t d _ T Hio ltac:(by destruct X)) as (H & lv & O & -> & Hc).
  eapply to_le; [eapply update_leaf_to; try done|lia]. apply (cont_el (H := H)). rewrite Hc. set_solver.
Qed.
End ul.
