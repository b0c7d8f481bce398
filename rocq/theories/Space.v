(** Space.v — how many nodes a tree needs for its elements. *)
From Verif Require Export Demo29 Stats RopeP OrdM.

Section space.
Context {B : BTreeTrait} (L : Lawful B).
Notation btree := (btree B).
Notation Tree := (Tree L).
Implicit Types (t : btree) (xs : list (nat * Elem B)).

(** the left spine has one node on each level *)
Lemma SP_live t H lv x : WT NoE t H lv -> SP t x -> is_Some (kids t x).
Proof.
  intros W Hx. destruct Hx as [|p m Hp Hm]; [destruct (wt_root W) as (r & -> & Hr & _); exact Hr|].
  apply head_Some_in, elem_of_list_lookup in Hm as [k Hm]. by destruct (wt_ch W _ _ _ Hm) as [Hl _].
Qed.
Lemma SP_step t H lv p m : WT NoE t H lv -> SP t p -> head (chs t p) = Some (AInt m) -> lv p = S (lv m) /\ lv p <= H.
Proof.
  intros W Hp Hm. apply head_Some_in, elem_of_list_lookup in Hm as [k Hm]. destruct (wt_ch W _ _ _ Hm) as [_ Hv]. cbn in Hv. split; [done|].
  apply (wt_lv W). by eapply SP_live.
Qed.
Lemma SP_inj t H lv x : WT NoE t H lv -> SP t x -> forall y, SP t y -> lv x = lv y -> x = y.
Proof.
  intros W Hx. induction Hx as [|p m Hp IH Hm]; intros y Hy Hl.
  - destruct Hy as [|q n Hq Hn]; [done|]. destruct (SP_step t H lv q n W Hq Hn). destruct (wt_root W) as (r & Er & _ & Hr). rewrite Er in Hl. cbn in Hl. lia.
  - destruct (SP_step t H lv p m W Hp Hm) as [H1 H2]. destruct Hy as [|q n Hq Hn].
    + destruct (wt_root W) as (r & Er & _ & Hr). rewrite Er in Hl. cbn in Hl. lia.
    + destruct (SP_step t H lv q n W Hq Hn) as [H3 H4]. assert (p = q) as <- by (apply IH; [done|lia]). congruence.
Qed.
(** distinct nodes of the left spine: at most one per level *)
Lemma SP_count t H lv l : WT NoE t H lv -> NoDup l -> Forall (SP t) l -> length l <= S H.
Proof.
  intros W Hn HF. rewrite Forall_forall in HF. assert (Hm : NoDup (lv <$> l)).
  { apply NoDup_fmap_2_strong; [|done]. intros x y Hx Hy E. by eapply (SP_inj t H lv); [done|by apply HF|by apply HF|]. }
  rewrite <- (fmap_length lv l), <- (seq_length (S H) 0). apply submseteq_length, NoDup_submseteq; [done|].
  intros v (x & -> & Hx)%elem_of_list_fmap. apply elem_of_seq. pose proof (wt_lv W x (SP_live _ _ _ _ W (HF x Hx))). lia.
Qed.
Lemma nsum_split {A} (f : A -> nat) (b : nat) (l : list A) : b * length l <= nsum f l + b * length (filter (fun x => f x < b) l).
Proof.
  unfold nsum. induction l as [|x l IH]; cbn [foldr length]; [lia|]. rewrite filter_cons. case_decide; cbn [length]; lia.
Qed.
Lemma nodup_filter_fst {A} (P : nat * A -> Prop) `{!forall x, Decision (P x)} (l : list (nat * A)) : NoDup l.*1 -> NoDup (filter P l).*1.
Proof.
  induction l as [|x l IH]; [done|]. cbn [fmap list_fmap]. intros [Hx Hn]%NoDup_cons. rewrite filter_cons. case_decide; [|by apply IH].
  cbn [fmap list_fmap]. apply NoDup_cons. split; [|by apply IH]. intros (y & E & Hy)%elem_of_list_fmap. apply elem_of_list_filter in Hy as [_ Hy]. apply Hx. rewrite E. by apply elem_of_list_fmap_1.
Qed.
Lemma kids_list t i n : (i, n) ∈ map_to_list (amap (in_nodes t)) -> kids t i = Some (n_children n) /\ chs t i = map c_arena (n_children n).
Proof. intros Hi%elem_of_map_to_list. unfold chs, kids, a_get. by rewrite Hi. Qed.
(** with [b] thin nodes *)
Lemma thin_len w b t xs : Tree t xs -> length (filter (fun kn => length (n_children (snd kn)) < w) (map_to_list (amap (in_nodes t)))) <= b -> 1 <= w -> (w - 1) * node_len t + 1 <= w * length xs + w * b.
Proof.
  intros T Hb Hw. pose proof (avg_nsum t) as Ha. destruct (t_avg L t xs _ _ T Ha) as ((ks & Nk & Hk & En) & _ & Es & _).
  destruct (t_node_len L t xs T) as (_ & ks' & Nk' & Hk' & El).
  assert (length ks' = length ks) as E' by (apply Permutation_length, NoDup_Permutation; [done..|]; intros i; by rewrite Hk, Hk').
  pose proof (nsum_split (fun kn => length (n_children (snd kn))) w (map_to_list (amap (in_nodes t)))) as Hs.
  pose proof (Nat.mul_le_mono_l _ _ w Hb) as Hb'. rewrite El, E', En. destruct w as [|w]; [lia|]. replace (S w - 1) with w by lia.
  set (N := length (map_to_list (amap (in_nodes t)))) in *. rewrite Nat.mul_add_distr_l. lia.
Qed.
Theorem t_space t xs d : Tree t xs -> MDw true t -> InOrder t (root t) d xs -> 4 * node_len t < 5 * length xs + 5 * d.
Proof.
  intros T M Hio.
  assert (exists H lv, WT NoE t H lv /\ (S H <= d \/ (xs = [] /\ 1 <= d))) as (H & lv & W & HH).
  { destruct (decide (xs = [])) as [->|Hne].
    - destruct (Tree_OK L _ _ T) as (H & lv & O & _). exists H, lv. split; [apply (ok_wt _ _ _ _ O)|right]. split; [done|].
      destruct T as [d0 I]. destruct (in_top _ _ _ _ I) as (r & rn & Er & _). rewrite Er in Hio. inversion Hio. lia.
    - destruct (tree_ok_d L t d xs T Hio Hne) as (H & lv & O & -> & _). exists H, lv. split; [apply (ok_wt _ _ _ _ O)|left; lia]. }
  destruct HH as [HH|[-> Hd]].
  - assert (Hc : length (filter (fun kn => length (n_children (snd kn)) < 5) (map_to_list (amap (in_nodes t)))) <= S H).
    { rewrite <- (fmap_length fst). eapply SP_count; [exact W| |].
      - apply nodup_filter_fst, NoDup_fst_map_to_list.
      - apply Forall_forall. intros i ([i' n] & -> & Hi)%elem_of_list_fmap. apply elem_of_list_filter in Hi as [Hl Hi]. cbn [fst snd] in *.
        destruct (kids_list _ _ _ Hi) as [Hk Hch]. destruct (decide (AInt i' = root t)) as [Er|Er]; [change i' with (raw (AInt i')); rewrite Er; constructor|].
        destruct (md_in _ _ M i' ltac:(rewrite Hk; eauto) Er) as [?|Hb]; [done|]. rewrite Hch, map_length in Hb. lia. }
    pose proof (thin_len 5 _ t xs T Hc ltac:(lia)). cbn [Nat.sub] in *. lia.
  - destruct (t_node_len L t [] T) as (_ & ks & Nk & Hk & El). destruct T as [d0 I].
    assert (length ks <= 1) as Hks.
    { pose proof (lev_empty L t (ex_intro _ d0 I)) as HL. destruct ks as [|i [|j ks]]; cbn; [lia|lia|exfalso].
      assert (forall i, i ∈ i :: j :: ks -> True) by done.
      assert (HR : forall x, x ∈ i :: j :: ks -> AInt x = root t).
      { intros x Hx. apply Hk in Hx. apply (in_reach_in _ _ _ _ I) in Hx as [n Hn]. destruct (decide (AInt x = root t)); [done|exfalso].
        destruct (wt_up W (AInt x)) as (p & k & Hp); [cbn; unfold kids; rewrite Hn; eauto|done|]. unfold chs, kids in Hp. destruct (a_get (in_nodes t) p) as [pn|] eqn:Gp; [|done]. cbn in Hp.
        apply list_lookup_fmap_inv in Hp as (c & Ec & Hc%elem_of_list_lookup_2). destruct (HL p pn Gp) as (_ & _ & _ & _ & HN). destruct (HN c x Hc (eq_sym Ec)) as [_ Hv]. lia. }
      pose proof (HR i ltac:(left)). pose proof (HR j ltac:(right; left)). apply NoDup_cons in Nk as [Nk _]. apply Nk. assert (i = j) as -> by congruence. left. }
    rewrite El. cbn [length]. lia.
Qed.
(** six children in every node but the root: no term for the depth *)
Theorem t_space6 t xs : Tree t xs -> MDw false t -> 5 * node_len t < 6 * length xs + 6.
Proof.
  intros T M. destruct (Tree_OK L _ _ T) as (H & lv & O & _). pose proof (ok_wt _ _ _ _ O) as W.
  assert (Hc : length (filter (fun kn => length (n_children (snd kn)) < 6) (map_to_list (amap (in_nodes t)))) <= 1).
  { rewrite <- (fmap_length fst). destruct (wt_root W) as (r & Er & _ & _).
    change 1 with (length [r]). apply submseteq_length, NoDup_submseteq.
    - apply nodup_filter_fst, NoDup_fst_map_to_list.
    - intros i ([i' n] & -> & Hi)%elem_of_list_fmap. apply elem_of_list_filter in Hi as [Hl Hi]. cbn [fst snd] in *. apply elem_of_list_singleton.
      destruct (kids_list _ _ _ Hi) as [Hk Hch]. destruct (decide (AInt i' = root t)) as [E|E]; [congruence|].
      pose proof (md_in _ _ M i' ltac:(rewrite Hk; eauto) E) as Hb. cbn in Hb. rewrite Hch, map_length in Hb. cbn [length] in Hl. lia. }
  pose proof (thin_len 6 _ t xs T Hc ltac:(lia)). cbn [Nat.sub] in *. lia.
Qed.
Theorem t_space_log t xs k : Tree t xs -> MDw true t -> 1 <= k -> length xs <= 5 ^ k -> 4 * node_len t < 5 * length xs + 5 * k.
Proof. intros T M Hk Hl. destruct (thick_d L t xs k T M Hk Hl) as (d & Hd & Hdk). pose proof (t_space t xs d T M Hd). lia. Qed.
End space.

(** ** Histories and containers *)
Section hist.
Context {B : BTreeTrait} (L : Lawful B) {U : Type} (F : Flatten L U) {S0 : Type}.
Theorem history_space (os : list (op2 B S0)) : valid_ops2 L bt_new os -> Forall (fun o => ~ collects o) os ->
  exists t xs, run_ops2 os bt_new = Ok t /\ Content t xs /\
    (forall d, InOrder t (root t) d xs -> 4 * node_len t < 5 * length xs + 5 * d) /\
    (forall k, 1 <= k -> length xs <= 5 ^ k -> 4 * node_len t < 5 * length xs + 5 * k).
Proof using F.
  intros Hv Hc. destruct (history_md L F os bt_new [] (Tree_new L)) as (t & xs & E & T & M); [right; apply MD_new|done|done|apply MD_new|].
  exists t, xs. split; [done|]. split; [by eapply Tree_content|]. split; [intros d; by apply (t_space L)|intros k; by apply (t_space_log L)].
Qed.
End hist.
Section rope.
Context (CAP : nat) (HC : 0 < CAP).
Theorem rope_space (r : rope CAP) str k : RopeOf CAP r str -> 1 <= k -> length str <= 5 ^ k -> 4 * node_len (rp_tree CAP r) < 5 * length str + 5 * k.
Proof using HC.
  intros (xs & T & <- & Hn & _ & M) Hk Hl. rewrite (rft_len CAP _ _ T) in *. pose proof (nz_length CAP HC xs Hn) as Hx.
  pose proof (t_space_log _ (rp_tree CAP r) xs k T M Hk ltac:(lia)). lia.
Qed.
End rope.
Section map.
Context {Key Value : Type} {kcmp : Key -> Key -> comparison} (TO : TOrd kcmp).
Theorem map_space (m : omap_t Key Value kcmp) s : MapOf TO m s -> 5 * node_len (om_tree kcmp m) < 6 * length s + 6.
Proof. intros (xs & T & M & <- & _). pose proof (t_space6 _ (om_tree kcmp m) xs T M). by rewrite map_length. Qed.
End map.
