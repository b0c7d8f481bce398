(** Ops2.v — further operations on intact trees: splitting a leaf for an update or a drain,
    rebalancing, range iteration, trees too deep for the fixed path buffer. *)
From Verif Require Export Ops.

Section ops.
Context {B : BTreeTrait} (L : Lawful B).
Notation btree := (btree B).
Notation child := (child B).
Notation act := (act L).
Notation OK := (OK L).
Notation Tree := (Tree L).
Implicit Types (t : btree) (l n off : nat) (e : Elem B) (X Y xs : list (nat * Elem B)).

(** a replacement of a leaf by leaves with the same aggregate needs no propagation *)
Lemma rp_same t t' H lv p l e A c Z N (N' : list child) :
  OK t H lv -> lv p = 0 -> el t l = Some e -> RP t t' p l A c Z N N' ->
  (forall c0, c0 ∈ N' -> c_cache c0 = act t' (c_arena c0)) -> N' <> [] ->
  (forall x e, (x, e) ∈ N -> evalid L e) -> (forall c0, c0 ∈ N' -> cvalid L (c_cache c0)) ->
  length (A ++ N' ++ Z) <= 11 ->
  (forall u v, Forall (cvalid L) u -> Forall (cvalid L) v -> summ L (u ++ map c_cache N' ++ v) = summ L (u ++ get_elem_cache e :: v)) ->
  OK t' H lv /\ (forall X Y, cont t H = X ++ (l, e) :: Y -> cont t' H = X ++ N ++ Y).
Proof.
  intros O Hlp He R Hnew Hne Hev Hcv Hlen Hs. destruct O as [W K Z11 C HR V].
  pose proof (rp_ED L W K Hlp R) as D.
  assert (W' : WT NoE t' H lv).
  { apply (ed_WT_ne W Hlp D). destruct A; [|done]. by destruct N'. }
  split; [|intros X Y Hc; by eapply (rp_cont L W K Hlp R)].
  assert (HcA : Forall (cvalid L) (map c_cache A) /\ Forall (cvalid L) (map c_cache Z)).
  { pose proof (VA_kids L _ _ _ V (rp_p _ _ _ _ _ _ _ _ _ R)) as F. rewrite map_app in F. apply Forall_app in F as [F1 F2].
    cbn in F2. by apply Forall_cons in F2 as [_ F2]. }
  assert (Hact : act t' (AInt p) = act t (AInt p)).
  { rewrite (act_int _ _ _ _ (rp_p _ _ _ _ _ _ _ _ _ R)), (act_int _ _ _ _ (rp_p' _ _ _ _ _ _ _ _ _ R)), !map_app. cbn [map].
    rewrite (C p _ c (rp_p _ _ _ _ _ _ _ _ _ R)); [|set_solver|tauto].
    rewrite (rp_c _ _ _ _ _ _ _ _ _ R), (act_leaf _ _ _ _ He). destruct HcA. by apply Hs. }
  pose proof (chs_kids _ _ _ (rp_p' _ _ _ _ _ _ _ _ _ R)) as Hc'.
  constructor.
  - done.
  - by apply (ed_LK W D).
  - intros j. destruct (decide (j = p)) as [->|Hj]; [rewrite Hc', map_length; done|]. unfold chs.
    rewrite (rp_other _ _ _ _ _ _ _ _ _ R) by done. apply Z11.
  - intros q cs c0 Hk Hc0 _. destruct (decide (c_arena c0 = AInt p)) as [Ea|Ea].
    + assert (q <> p) as Hqp.
      { intros ->. assert (AInt p ∈ chs t' p) as Hin by (rewrite (chs_kids _ _ _ Hk), <- Ea; by apply elem_of_list_fmap_1).
        apply elem_of_list_lookup in Hin as [kk Hin]. apply (wt_ch W') in Hin as [_ Hin]. cbn in Hin. lia. }
      rewrite Ea, Hact. rewrite (rp_other _ _ _ _ _ _ _ _ _ R) in Hk by done. by rewrite (C q cs c0 Hk Hc0), Ea by tauto.
    + eapply (rp_CO_all L W K Hlp R); [done|done|exact Hk|done|done].
  - intros Hr. destruct (decide (root t' = AInt p)) as [Ep|Ep].
    + rewrite Ep, Hact, (rp_rc _ _ _ _ _ _ _ _ _ R). rewrite (rp_root _ _ _ _ _ _ _ _ _ R) in Ep. rewrite <- Ep. apply HR.
      left. rewrite Ep. cbn [raw]. rewrite (chs_kids _ _ _ (rp_p _ _ _ _ _ _ _ _ _ R)). by destruct A.
    + by apply (ed_RC1 L W D).
  - by eapply (rp_VA L W K Hlp R).
Qed.

(** the successor computed by [split_leaf_if_needed] at the end of a leaf *)
Lemma split_end_next t H lv l e p A c Z : OK t H lv -> at_leaf t lv l e p A c Z ->
  (match (A ++ c :: Z) !! S (length A) with
   | Some c1 => Ok (Some (mkCur (raw (c_arena c1)) 0)) | None => next_elem t (mkCur l (rle_len e)) end) = next_elem t (mkCur l (rle_len e)).
Proof.
  intros O (Hk & Ha & Hlv & He & Hl & Hget & Hrp & Hsl & po & s & Hg & Hlk).
  destruct ((A ++ c :: Z) !! S (length A)) as [c1|] eqn:E1; [|done].
  assert (exists x, c_arena c1 = ALeaf x) as [x Ex].
  { apply (wt_leaf_child (ok_wt _ _ _ _ O) p); [|done]. rewrite (chs_kids _ _ _ Hk). apply elem_of_list_fmap_1. by eapply elem_of_list_lookup_2. }
  unfold next_elem. cbn [cu_leaf]. unfold next_same_level_in_node.
  rewrite Hget. cbn [rbind l_parent]. rewrite Hg. cbn [rbind n_children]. unfold get_leaf_slot. cbn [n_children].
  rewrite Hsl. cbn [rbind n_children]. rewrite E1. cbn. rewrite Ex. done.
Qed.
Lemma split_leaf_end_pos t H lv l e p A c Z X Y : OK t H lv -> at_leaf t lv l e p A c Z -> 0 < rle_len e ->
  cont t H = X ++ (l, e) :: Y ->
  exists lft, split_leaf_if_needed t (mkCur l (rle_len e)) = Ok (mkSI ((fun y => mkCur (fst y) 0) <$> head Y) lft p (S (length A)) None, t).
Proof.
  intros O AL Hpos Hc. pose proof AL as (Hk & Ha & Hlv & He & Hl & Hget & Hrp & _ & po & s & Hg & Hlk). unfold split_leaf_if_needed.
  cbn [split_leaf_f cu_leaf cu_offset]. rewrite Hget. rb. cbn [l_parent l_elem]. rewrite Hg. rb. rewrite Hrp. rb.
  assert (exists lft, (match length A with 0 => Ok None | S s0 => let? c0 := vec_get (A ++ c :: Z) s0 in Ok (Some (raw (c_arena c0))) end) = Ok lft) as [lft' ->].
  { destruct (length A) as [|s0] eqn:EA; [eauto|]. unfold vec_get.
    destruct (lookup_lt_is_Some_2 (A ++ c :: Z) s0) as [c1 ->]; [rewrite app_length; cbn; lia|]. rb. eauto. }
  rb. rewrite (decide_False (P := rle_len e = 0)) by lia. rewrite decide_True by done.
  rewrite (split_end_next t H lv l e p A c Z O AL).
  pose proof (OK_Tree L _ _ _ O) as T. rewrite Hc in T. rewrite (t_next L t X l e Y _ T). cbn [rbind]. eauto.
Qed.
Theorem t_split_depth t X l e Y off : Tree t (X ++ (l, e) :: Y) -> off <= rle_len e ->
  exists si t', split_leaf_if_needed t (mkCur l off) = Ok (si, t') /\ anext (leaf_nodes t) <= anext (leaf_nodes t') /\
    (forall k, Shallow t k -> Shallow t' (S k)) /\ ((off = 0 /\ t' = t /\ si_new_pos si = Some (mkCur l 0) /\ si_new_leaf si = None) \/
     (off <> 0 /\ off = rle_len e /\ t' = t /\ si_new_pos si = (fun y => mkCur (fst y) 0) <$> head Y /\ si_new_leaf si = None) \/
     (0 < off < rle_len e /\ exists n e1 e2, e_split e off = Ok (e1, e2) /\ rle_len e1 = off /\ rle_len e2 = rle_len e - off /\
        anext (leaf_nodes t) <= n < anext (leaf_nodes t') /\
        Tree t' (X ++ (l, e1) :: (n, e2) :: Y) /\ si_new_pos si = Some (mkCur n 0) /\ si_new_leaf si = Some (ALeaf n))).
Proof.
  intros T Hoff. pose proof (tree_el L _ _ _ _ _ T) as He. destruct (Tree_OK L _ _ T) as (H & lv & O & Hc).
  assert (Sh0 : forall k, Shallow t k -> Shallow t (S k)) by (intros k (d & ys & ? & ?); exists d, ys; split; [done|lia]).
  destruct (at_leaf_ok t H lv l e (ok_wt _ _ _ _ O) (ok_lk _ _ _ _ O) He) as (p & A & c & Z & AL).
  destruct (decide (off = 0)) as [->|H0].
  { destruct (split_leaf_0 L t H lv l e p A c Z O AL) as [lft Hs]. eexists _, t. split; [exact Hs|]. split; [done|]. split; [done|]. by left. }
  destruct (decide (off = rle_len e)) as [->|H1].
  { destruct (split_leaf_end_pos t H lv l e p A c Z X Y O AL ltac:(lia) (eq_sym Hc)) as [lft Hs]. eexists _, t. split; [exact Hs|].
    split; [done|]. split; [done|]. right. by left. }
  destruct (split_leaf_mid L t H lv l e off O He ltac:(lia)) as (t0 & H' & lv' & p0 & A0 & c0 & Z0 & e1 & e2 & lft & t1 & G).
  cbn zeta in G. destruct G as (HH & O0 & Hc0 & El0 & Al0 & AL0 & Hlen0 & Hs & Hsp & V1 & V2 & Hl1 & Hl2 & Hsum & R0 & An1).
  eexists _, t1. split; [exact Hs|]. split; [lia|].
  pose proof AL0 as (_ & _ & Hlv0 & He0 & _).
  destruct (rp_same t0 t1 H' lv' p0 l e A0 c0 Z0 _ _ O0 Hlv0 He0 R0) as [O1 C1].
  - pose proof (rp_new _ _ _ _ _ _ _ _ _ R0) as Hnew.
    intros c3 [-> | ->%elem_of_list_singleton]%elem_of_cons.
    + destruct (Hnew l e1) as [Hx _]; [left|]. unfold Law.act. cbn [c_arena]. by rewrite Hx.
    + destruct (Hnew (anext (leaf_nodes t0)) e2) as [Hx _]; [right; left|]. unfold Law.act. cbn [c_arena]. by rewrite Hx.
  - done.
  - by intros ? ? [[= -> ->]|[= -> ->]%elem_of_list_singleton]%elem_of_cons.
  - intros c3 [-> | ->%elem_of_list_singleton]%elem_of_cons; by apply lw_get.
  - rewrite app_length in *. cbn in *. lia.
  - intros u v Hu Hv. cbn [map c_cache app]. rewrite <- Hsum. symmetry. apply flat2; try done; by apply lw_get.
  - split.
    { intros k (d & ys & Hd & Hk). pose proof (content_cont _ _ _ (ok_wt _ _ _ _ O)) as Hio.
      assert (d = S H) as -> by (symmetry; eapply (proj1 (io_depth t)); [exact Hio|exact Hd|rewrite <- Hc; by destruct X]).
      eexists _, _. split; [exact (content_cont _ _ _ (ok_wt _ _ _ _ O1))|lia]. }
    right; right. split; [lia|]. exists (anext (leaf_nodes t0)), e1, e2. split_and!; try done; try lia.
    pose proof (OK_Tree L _ _ _ O1) as T1. rewrite (C1 X Y) in T1 by congruence. done.
Qed.
Theorem t_split t X l e Y off : Tree t (X ++ (l, e) :: Y) -> off <= rle_len e ->
  exists si t', split_leaf_if_needed t (mkCur l off) = Ok (si, t') /\ anext (leaf_nodes t) <= anext (leaf_nodes t') /\ ((off = 0 /\ t' = t /\ si_new_pos si = Some (mkCur l 0)) \/
     (off <> 0 /\ off = rle_len e /\ t' = t /\ si_new_pos si = (fun y => mkCur (fst y) 0) <$> head Y) \/
     (0 < off < rle_len e /\ exists n e1 e2, e_split e off = Ok (e1, e2) /\ rle_len e1 = off /\ rle_len e2 = rle_len e - off /\
        anext (leaf_nodes t) <= n < anext (leaf_nodes t') /\
        Tree t' (X ++ (l, e1) :: (n, e2) :: Y) /\ si_new_pos si = Some (mkCur n 0))).
Proof.
  intros T Hoff. destruct (t_split_depth t X l e Y off T Hoff) as (si & t' & Hs & Ha & _ & G). exists si, t'. split; [done|]. split; [done|].
  destruct G as [(? & ? & ? & _)|[(? & ? & ? & ? & _)|(? & n & e1 & e2 & ? & ? & ? & ? & ? & ? & _)]]; [by left|by right; left|].
  right; right. split; [done|]. by exists n, e1, e2.
Qed.

(** ** rebalancing *)
Theorem t_lack t xs i nd : Tree t xs -> a_get (in_nodes t) i = Some nd ->
  exists t', handle_lack_recursively t (AInt i) = Ok t' /\ Tree t' xs /\ anext (leaf_nodes t) <= anext (leaf_nodes t').
Proof.
  intros (H & lv & O & ->)%Tree_OK Hi.
  destruct (handle_lack_ok L t H lv i O) as (t' & H' & lv' & E & O' & Hg & He & _ & Ha & _); [apply get_kids; eauto|].
  exists t'. split; [done|]. split; [|done]. rewrite <- (cont_ext t t' H H' Hg He). by eapply OK_Tree.
Qed.

(** ** range iteration *)
Lemma shallow_OK t xs k : 1 <= k -> Tree t xs -> Shallow t k -> exists H lv, OK t H lv /\ S H <= k /\ cont t H = xs.
Proof.
  intros Hk T Hs. destruct (decide (length xs = 0)) as [E|E].
  - apply nil_length_inv in E as ->. destruct (Tree_OK L _ _ T) as (H & lv & O & Hc).
    pose proof (OK_relevel L t H lv O (cont_nil t H lv (ok_wt _ _ _ _ O) (eq_sym Hc))) as O0.
    exists 0, (fun _ => 0). split_and!; [done|lia|]. by apply (cont_tree L _ _ _ _ O0).
  - apply (shallow_ok L t xs k T); [by destruct xs|done].
Qed.
Definition slice t (a b : cursor) (l : nat) e : elem_slice :=
  mkES (mkCur l 0) e (if decide (cu_leaf a = l) then Some (cu_offset a) else None)
       (if decide (cu_leaf b = l) then Some (cu_offset b) else None).
Lemma t_iter_range_gen t X M Y (a b : cursor) inc : Tree t (X ++ M ++ Y) -> Shallow t 9 ->
  fst <$> head M = Some (cu_leaf a) -> fst <$> last M = Some (cu_leaf b) ->
  iter_range_ t a b inc = Ok (omap (fun x =>
    if bool_decide (cu_leaf b = fst x) && bool_decide (cu_offset b = 0) && negb inc then None else Some (slice t a b (fst x) (snd x))) M).
Proof.
  intros T Hs Ha Hb. pose proof (tree_leaves L _ _ T) as HL. rewrite !fmap_app in HL.
  destruct (shallow_OK t _ 9 ltac:(lia) T Hs) as (H & lv & O & HH & Hc).
  rewrite (iter_range_ok (ok_wt _ _ _ _ O) (ok_lk _ _ _ _ O) X.*1 M.*1 Y.*1 a b); [|lia|done| |].
  - f_equal. assert (forall x, x ∈ M -> el t (fst x) = Some (snd x)) as Hel.
    { intros [l e] Hx. apply (tree_in L t _ l e T). clear -Hx. set_solver. }
    clear -Hel. induction M as [|x M IH]; [done|]. cbn. rewrite (Hel x) by left. rewrite IH by (intros; apply Hel; by right).
    by destruct (_ && _ && _).
  - rewrite <- Ha. by destruct M.
  - rewrite <- Hb. by rewrite fmap_last.
Qed.
Lemma slices_out t a b xs : cu_leaf a ∉ xs.*1 -> cu_leaf b ∉ xs.*1 -> forall inc,
  omap (fun x => if bool_decide (cu_leaf b = fst x) && bool_decide (cu_offset b = 0) && negb inc then None else Some (slice t a b (fst x) (snd x))) xs
  = map (fun x => mkES (mkCur (fst x) 0) (snd x) None None) xs.
Proof.
  intros Ha Hb inc. induction xs as [|x xs IH]; [done|]. cbn in Ha, Hb. rewrite not_elem_of_cons in Ha, Hb. destruct Ha as [Ha Ha'], Hb as [Hb Hb'].
  cbn. rewrite bool_decide_false by done. cbn [andb]. rewrite IH by done. f_equal. unfold slice. by rewrite !decide_False by done.
Qed.
(** the leaves from [a]'s to [b]'s, with the bounds set on the two end leaves *)
Theorem t_iter_range t X la ea M lb eb Y oa ob : Tree t (X ++ (la, ea) :: M ++ (lb, eb) :: Y) -> Shallow t 9 ->
  let mid := map (fun x => mkES (mkCur (fst x) 0) (snd x) None None) M in
  let first := mkES (mkCur la 0) ea (Some oa) None in
  let last := mkES (mkCur lb 0) eb None (Some ob) in
  iter_range t (Included (mkCur la oa)) (Included (mkCur lb ob)) = Ok (first :: mid ++ [last]) /\
  iter_range t (Included (mkCur la oa)) (Excluded (mkCur lb ob)) = Ok (first :: mid ++ (if decide (ob = 0) then [] else [last])).
Proof.
  intros T Hs mid first lst. pose proof (tree_nodup L _ _ T) as N. rewrite fmap_app in N. cbn in N. rewrite fmap_app in N. cbn in N.
  apply NoDup_app in N as (_ & _ & N). apply NoDup_cons in N as [N1 N]. apply NoDup_app in N as (_ & N2 & _).
  assert (Nab : la <> lb) by (intros ->; apply N1; clear; set_solver).
  assert (Na : la ∉ M.*1) by (intros Hx; apply N1; clear -Hx; set_solver).
  assert (Nb : lb ∉ M.*1) by (intros Hx; apply (N2 lb Hx); left).
  assert (forall inc, iter_range_ t (mkCur la oa) (mkCur lb ob) inc =
    Ok (first :: mid ++ (if bool_decide (ob = 0) && negb inc then [] else [lst]))) as G.
  { intros inc. rewrite (t_iter_range_gen t X ((la, ea) :: M ++ [(lb, eb)]) Y).
    - f_equal. cbn. rewrite bool_decide_false by done. cbn [andb]. unfold slice at 1. cbn. rewrite decide_True by done. rewrite decide_False by done.
      fold first. f_equal. rewrite omap_app. pose proof (slices_out t (mkCur la oa) (mkCur lb ob) M Na Nb inc) as Gm. cbn [cu_leaf cu_offset] in Gm.
      rewrite Gm. fold mid. f_equal. cbn.
      rewrite bool_decide_true by done. cbn [andb]. destruct (bool_decide (ob = 0) && negb inc); [done|].
      unfold slice. cbn. rewrite decide_False by done. by rewrite decide_True by done.
    - cbn. by rewrite <- app_assoc.
    - done.
    - done.
    - change ((la, ea) :: M ++ [(lb, eb)]) with (((la, ea) :: M) ++ [(lb, eb)]). by rewrite last_snoc. }
  unfold iter_range. cbn [rbind]. rewrite !G. cbn [negb]. rewrite andb_false_r, andb_true_r. split; [done|]. by rewrite bd_if.
Qed.
Theorem t_iter_range_one t X l e Y oa ob : Tree t (X ++ (l, e) :: Y) -> Shallow t 9 ->
  let it := mkES (mkCur l 0) e (Some oa) (Some ob) in
  iter_range t (Included (mkCur l oa)) (Included (mkCur l ob)) = Ok [it] /\
  iter_range t (Included (mkCur l oa)) (Excluded (mkCur l ob)) = Ok (if decide (ob = 0) then [] else [it]).
Proof.
  intros T Hs it. assert (forall inc, iter_range_ t (mkCur l oa) (mkCur l ob) inc =
    Ok (if bool_decide (ob = 0) && negb inc then [] else [it])) as G.
  { intros inc. rewrite (t_iter_range_gen t X [(l, e)] Y) by done. f_equal. cbn. rewrite bool_decide_true by done. cbn [andb].
    destruct (bool_decide (ob = 0) && negb inc); [done|]. unfold slice. cbn. by rewrite !decide_True by done. }
  unfold iter_range. cbn [rbind]. rewrite !G. cbn [negb]. rewrite andb_false_r, andb_true_r. split; [done|]. by rewrite bd_if.
Qed.
Theorem t_iter_range_start t xs b : Tree t xs -> 
  iter_range t Unbounded b = match xs with [] => Panic | (l, _) :: _ => iter_range t (Included (mkCur l 0)) b end.
Proof. intros T. unfold iter_range. rewrite (t_start L t xs T). by destruct xs as [|[l e] xs]. Qed.
Theorem t_iter_range_end t xs c l e : Tree t (xs ++ [(l, e)]) -> 
  iter_range t (Included c) Unbounded = iter_range t (Included c) (Included (mkCur l (rle_len e))).
Proof. intros T. unfold iter_range. rewrite (t_end L t _ T). by rewrite last_snoc. Qed.

(** ** trees deeper than the fixed path buffer *)
Lemma first_path_f_panic t H lv n : WT NoE t H lv -> forall f x acc, live t x -> alv lv x = n -> n < f -> length acc <= 10 -> 10 < length acc + S n ->
  achs t x <> [] \/ n = 0 -> first_path_f f t x acc = Panic.
Proof.
  intros W. induction n as [|n IH]; intros f x acc Hx Hlv Hf Ha Hl Hne; (destruct f as [|f]; [lia|]); cbn [first_path_f]; unfold vec_push.
  - by rewrite decide_False by lia.
  - destruct (decide (length acc < 10)) as [D|D]; [|done]. cbn [rbind].
    destruct x as [l|m]; [done|]. destruct Hne as [Hne|?]; [|lia]. cbn in Hne, Hlv, Hx.
    destruct (live_get_in t m Hx) as [nd Hg].
    rewrite Hg. cbn [rbind]. apply get_in_inv in Hg as [Hk _]. pose proof (chs_kids _ _ _ Hk) as Hc.
    destruct (n_children nd) as [|c cs]; [done|]. unfold vec_get. cbn [lookup list_lookup ropt rbind].
    assert (chs t m !! 0 = Some (c_arena c)) as H0 by (by rewrite Hc).
    pose proof (wt_ch W _ _ _ H0) as [Hcl Hclv]. apply IH; try done; try lia.
    + rewrite app_length. cbn. lia.
    + rewrite app_length. cbn. lia.
    + destruct (c_arena c) as [lf|q] eqn:Ec; cbn in *; [right; lia|left]. apply (child_ne W m). by eapply elem_of_list_lookup_2.
Qed.
Theorem t_iter_deep t xs : Tree t xs -> ~ Shallow t 9 -> BTree.iter t = Panic.
Proof.
  intros T Hns. destruct (Tree_OK L _ _ T) as (H & lv & O & Hc). pose proof (ok_wt _ _ _ _ O) as W.
  assert (9 < S H) as HH.
  { destruct (decide (9 < S H)); [done|]. exfalso. apply Hns. exists (S H), (cont t H). split; [|lia]. by eapply content_cont. }
  assert (xs <> []) as Hne.
  { intros ->. apply Hns. exists 1, []. split; [|lia]. 
    pose proof (OK_relevel L t H lv O (cont_nil t H lv W (eq_sym Hc))) as O0.
    rewrite <- (cont_tree L _ _ _ _ O0 T). by eapply content_cont, ok_wt. }
  assert (chs t (raw (root t)) <> []) as Hr.
  { intros He. apply Hne. rewrite Hc. unfold cont. cbn [gen]. rewrite (wt_root_id W). cbn. by rewrite He. }
  unfold BTree.iter, first_path. unfold get_internal. rewrite (wt_root_id W). cbn [unwrap_internal rbind].
  destruct (live_get_in t _ (wt_root_live W)) as [nd Hg]. rewrite Hg. cbn [rbind]. apply get_in_inv in Hg as [Hk _].
  unfold n_is_empty. rewrite bool_decide_eq_false_2.
  2:{ intros Hx. rewrite (chs_kids _ _ _ Hk), Hx in Hr. done. }
  rewrite <- (wt_root_id W). rewrite (first_path_f_panic t H lv (S H) W); [done|apply (root_live W)|apply (alv_root W)| |cbn; lia|cbn; lia|].
  - pose proof (wt_height_bound W Hr). unfold fuel. lia.
  - left. by rewrite (wt_root_id W).
Qed.

(** ** counting nodes *)
Theorem t_counts t xs : Tree t xs -> a_len (leaf_nodes t) = length xs.
Proof. apply leaf_count. Qed.

(** ** compare_pos: lexicographic in (position of the leaf, offset) *)
Theorem t_compare_lex t xs i j la ea lb eb oa ob : Tree t xs -> xs !! i = Some (la, ea) -> xs !! j = Some (lb, eb) ->
  compare_pos t (mkCur la oa) (mkCur lb ob) = Ok (match Nat.compare i j with Eq => Nat.compare oa ob | r => r end).
Proof.
  intros T Hi Hj. destruct (lt_eq_lt_dec i j) as [[D| ->]|D].
  - rewrite (proj2 (Nat.compare_lt_iff i j) D).
    pose proof (take_drop_middle _ _ _ Hi) as E. assert (drop (S i) xs !! (j - S i) = Some (lb, eb)) as Hj'.
    { rewrite lookup_drop. by replace (S i + (j - S i)) with j by lia. }
    rewrite <- (take_drop_middle _ _ _ Hj') in E. rewrite <- E in T. by apply (t_compare L t _ _ _ _ _ oa ob T).
  - assert ((la, ea) = (lb, eb)) as [= -> ->] by congruence. rewrite Nat.compare_refl. apply t_compare_same.
  - rewrite (proj2 (Nat.compare_gt_iff i j) D).
    pose proof (take_drop_middle _ _ _ Hj) as E. assert (drop (S j) xs !! (i - S j) = Some (la, ea)) as Hi'.
    { rewrite lookup_drop. by replace (S j + (i - S j)) with i by lia. }
    rewrite <- (take_drop_middle _ _ _ Hi') in E. rewrite <- E in T. by apply (t_compare L t _ _ _ _ _ ob oa T).
Qed.
End ops.
