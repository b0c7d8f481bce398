(** Ranges.v — update_leaves_with_arg_in_ranges (lib.rs:1386-1504, C31). *)
From Coq Require Export Sorting.Sorted.
From Verif Require Export Many.

(** ** Grouping *)
Section group.
Context {A : Type}.
Implicit Types (l : list (nat * A)) (k : nat).
Definition of_key k l : list A := map snd (filter (fun x => fst x = k) l).
Definition key_sorted l : Prop := StronglySorted (fun x y => fst x <= fst y) l.
Lemma of_key_cons k x l : of_key k (x :: l) = if decide (fst x = k) then snd x :: of_key k l else of_key k l.
Proof. unfold of_key. rewrite filter_cons. by case_decide. Qed.
Lemma sort_insert_key k x l : of_key k (sort_insert x l) = of_key k (x :: l).
Proof.
  induction l as [|y l IH]; [done|]. cbn [sort_insert]. case_decide as E; [done|]. rewrite !of_key_cons, IH, of_key_cons.
  destruct (decide (fst y = k)), (decide (fst x = k)); try done. lia.
Qed.
Lemma sort_insert_in x l z : z ∈ sort_insert x l <-> z = x \/ z ∈ l.
Proof. induction l as [|y l IH]; cbn [sort_insert]; [set_solver|]. case_decide; [set_solver|]. rewrite elem_of_cons, IH. set_solver. Qed.
Lemma sort_insert_sorted x l : key_sorted l -> key_sorted (sort_insert x l).
Proof.
  unfold key_sorted. induction 1 as [|y l Hs IH Hy]; cbn [sort_insert]; [repeat constructor|]. case_decide as E.
  - constructor; [by constructor|]. constructor; [done|]. eapply Forall_impl; [exact Hy|]. cbn. intros; lia.
  - constructor; [done|]. apply Forall_forall. intros z [->|Hz]%sort_insert_in; [lia|]. rewrite Forall_forall in Hy. by apply Hy.
Qed.
Lemma sort_by_leaf_sorted l : key_sorted (sort_by_leaf l).
Proof. induction l as [|x l IH]; [constructor|]. by apply sort_insert_sorted. Qed.
Lemma sort_by_leaf_key k l : of_key k (sort_by_leaf l) = of_key k l.
Proof. induction l as [|x l IH]; [done|]. cbn [sort_by_leaf foldr]. rewrite sort_insert_key, !of_key_cons. unfold sort_by_leaf in IH. by rewrite IH. Qed.
Lemma group_keys l : key_sorted l -> NoDup (group_by_leaf l).*1 /\ (forall k g, (k, g) ∈ group_by_leaf l -> g = of_key k l /\ g <> []) /\
  (forall k, k ∉ (group_by_leaf l).*1 -> of_key k l = []) /\
  (forall k g r, group_by_leaf l = (k, g) :: r -> exists x, head l = Some x /\ fst x = k) /\
  (forall k, k ∈ (group_by_leaf l).*1 -> exists x, x ∈ l /\ fst x = k).
Proof.
  unfold key_sorted. induction 1 as [|[k a] l Hs (IH1 & IH2 & IH3 & IH4 & IH5) Hy].
  { cbn. split_and!; try done; [constructor|..]; intros; set_solver. }
  cbn [group_by_leaf]. destruct (group_by_leaf l) as [|[k' g] r] eqn:Eg.
  { assert (l = []) as ->. { destruct l as [|[k0 a0] l]; [done|]. specialize (IH3 k0 ltac:(set_solver)). rewrite of_key_cons, decide_True in IH3 by done. done. }
    split_and!.
    - apply NoDup_singleton.
    - intros k1 g1 [= -> ->]%elem_of_list_singleton. rewrite of_key_cons, decide_True by done. done.
    - intros k1 Hk. rewrite of_key_cons, decide_False; [done|]. cbn. intros ->. set_solver.
    - intros k1 g1 r1 [= <- <- <-]. eauto.
    - intros k1 Hk. cbn in Hk. apply elem_of_list_singleton in Hk as ->. exists (k, a). split; [left|done]. }
  destruct (IH4 k' g r eq_refl) as ([k0 a0] & Hh & Hk0). cbn [fst] in Hk0. subst k0. destruct l as [|z l]; [done|]. injection Hh as ->.
  assert (Hkk : k <= k') by (apply Forall_cons in Hy as [Hy _]; exact Hy).
  case_decide as E.
  - subst k'. split_and!.
    + exact IH1.
    + intros k1 g1 [[= -> ->]|Hin]%elem_of_cons.
      * rewrite of_key_cons, decide_True by done. cbn [snd]. destruct (IH2 k g) as [-> _]; [left|]. done.
      * rewrite of_key_cons, decide_False; [apply IH2; by right|]. cbn. intros ->. cbn in IH1. apply NoDup_cons in IH1 as [IH1 _]. apply IH1. by apply (elem_of_list_fmap_1 fst) in Hin.
    + intros k1 Hk. rewrite of_key_cons, decide_False; [apply IH3; exact Hk|]. cbn. intros ->. cbn in Hk. set_solver.
    + intros k1 g1 r1 [= <- <- <-]. eauto.
    + intros k1 Hk. destruct (IH5 k1 Hk) as (x & Hx & Ex). exists x. split; [by right|done].
  - assert (Hnk : k ∉ ((k', g) :: r).*1).
    { intros Hk. destruct (IH5 k Hk) as (x & Hx & Ex). assert (k' <= fst x); [|lia]. inversion Hs as [|? ? _ HF]; subst. apply elem_of_cons in Hx as [->|Hx]; [done|].
      rewrite Forall_forall in HF. by apply HF in Hx. }
    split_and!.
    + cbn [fmap list_fmap]. apply NoDup_cons. done.
    + intros k1 g1 [[= -> ->]|Hin]%elem_of_cons.
      * rewrite of_key_cons, decide_True by done. cbn [snd]. by rewrite IH3.
      * rewrite of_key_cons, decide_False; [by apply IH2|]. cbn. intros ->. apply Hnk. by apply (elem_of_list_fmap_1 fst) in Hin.
    + intros k1 Hk. cbn [fmap list_fmap] in Hk. rewrite of_key_cons, decide_False; [apply IH3|]; set_solver.
    + intros k1 g1 r1 [= <- <- <-]. eauto.
    + intros k1 Hk. cbn [fmap list_fmap] in Hk. apply elem_of_cons in Hk as [->|Hk]; [exists (k, a); split; [left|done]|]. destruct (IH5 k1 Hk) as (x & Hx & Ex). exists x. split; [by right|done].
Qed.
End group.

(** ** BTreeSet *)
Lemma bset_in x l z : z ∈ bset_insert x l <-> z = x \/ z ∈ l.
Proof. induction l as [|y l IH]; cbn [bset_insert]; [set_solver|]. case_decide; [set_solver|]. case_decide; [set_solver|]. rewrite elem_of_cons, IH. set_solver. Qed.
Lemma bset_sorted x l : StronglySorted lt l -> StronglySorted lt (bset_insert x l).
Proof.
  induction 1 as [|y l Hs IH Hy]; cbn [bset_insert]; [repeat constructor|]. case_decide as E.
  - constructor; [by constructor|]. constructor; [done|]. eapply Forall_impl; [exact Hy|]. cbn. intros; lia.
  - case_decide as E2; [by constructor|]. constructor; [done|]. apply Forall_forall. intros z [->|Hz]%bset_in; [lia|]. rewrite Forall_forall in Hy. by apply Hy.
Qed.
Lemma filter_sorted (P : nat -> Prop) `{!forall x, Decision (P x)} l : StronglySorted lt l -> StronglySorted lt (filter P l).
Proof.
  induction 1 as [|y l Hs IH Hy]; [constructor|]. rewrite filter_cons. case_decide; [|done]. constructor; [done|].
  apply Forall_forall. intros z [_ Hz]%elem_of_list_filter. rewrite Forall_forall in Hy. by apply Hy.
Qed.

(** ** One leaf *)
Section ranges.
Context {B : BTreeTrait} (L : Lawful B) {U : Type} (F : Flatten L U) {A : Type} (fu : Elem B -> A -> Elem B).
Notation btree := (btree B).
Notation Elem := (Elem B).
Notation Tree := (Tree L).
Notation fl := (fl F).
Notation ft := (ft L F).
Notation rg := (nat * nat * A)%type.
Hypothesis fu_ok : forall e a, evalid L e -> evalid L (fu e a).
Implicit Types (t : btree) (g : list rg) (e : Elem) (ps : list Elem) (xs : list (nat * Elem)).

(** [paint g s ps]: each piece, the first one starting at offset [s], is passed to the closure
    once for every range that covers it *)
Definition covers (s n : nat) (r : rg) : bool := bool_decide (fst (fst r) <= s) && bool_decide (s + n <= snd (fst r)).
Fixpoint paint g (s : nat) ps : list Elem :=
  match ps with
  | [] => []
  | p :: ps' => foldl (fun e r => if covers s (rle_len p) r then fu e (snd r) else e) p g :: paint g (s + rle_len p) ps'
  end.
(** the end offsets of the pieces *)
Fixpoint ends (s : nat) ps : list nat := match ps with [] => [] | p :: ps' => (s + rle_len p) :: ends (s + rle_len p) ps' end.
Definition bound g (k : nat) : Prop := exists r : rg, r ∈ g /\ (k = fst (fst r) \/ k = snd (fst r)).
(** [Painted g e out]: [e] is cut exactly at the ends of the ranges in [g] *)
Definition Painted g e (out : list Elem) : Prop := exists ps,
  Forall (evalid L) ps /\ concat (map fl ps) = fl e /\ out = paint g 0 ps /\
  (forall k, k ∈ ends 0 ps <-> k = rle_len e \/ (bound g k /\ k <> 0)).

Definition plen ps : nat := sum_list (map rle_len ps).
Lemma paint_app g ps qs : forall s, paint g s (ps ++ qs) = paint g s ps ++ paint g (s + plen ps) qs.
Proof.
  induction ps as [|p ps IH]; intros s; cbn [paint app plen map sum_list]; [by rewrite Nat.add_0_r|]. rewrite IH. unfold plen. change (sum_list (map rle_len (p :: ps))) with (rle_len p + sum_list (map rle_len ps)).
  by rewrite Nat.add_assoc.
Qed.
Lemma ends_app ps qs : forall s, ends s (ps ++ qs) = ends s ps ++ ends (s + plen ps) qs.
Proof.
  induction ps as [|p ps IH]; intros s; cbn [ends app]; [unfold plen; cbn; by rewrite Nat.add_0_r|]. rewrite IH. unfold plen. change (sum_list (map rle_len (p :: ps))) with (rle_len p + sum_list (map rle_len ps)).
  by rewrite Nat.add_assoc.
Qed.
Lemma apply_args_valid p g : forall e, evalid L e -> evalid L (apply_args fu p g e).
Proof using fu_ok. unfold apply_args. induction g as [|r g IH]; intros e V; cbn [foldl]; [done|]. apply IH. destruct (p r); auto. Qed.
Lemma apply_args_ext p q g : (forall r, r ∈ g -> p r = q r) -> forall e, apply_args fu p g e = apply_args fu q g e.
Proof.
  unfold apply_args. induction g as [|r g IH]; intros H e; [done|]. cbn [foldl]. rewrite (H r) by left. apply IH. intros. apply H. by right.
Qed.
Lemma paint_cons g s p ps : paint g s (p :: ps) = apply_args fu (covers s (rle_len p)) g p :: paint g (s + rle_len p) ps.
Proof. reflexivity. Qed.
Lemma paint_valid g ps : forall s, Forall (evalid L) ps -> Forall (evalid L) (paint g s ps).
Proof using fu_ok.
  induction ps as [|p ps IH]; intros s HF; [constructor|]. apply Forall_cons in HF as [Hp HF]. rewrite paint_cons. constructor; [by apply apply_args_valid|by apply IH].
Qed.

Lemma middle_ok g len : forall sp e lasti, evalid L e -> StronglySorted lt sp -> Forall (fun x => lasti < x < len) sp -> rle_len e = len - lasti -> lasti < len ->
  exists ps lst, ranges_middle fu g e lasti sp = Ok (paint g lasti ps, lst) /\ Forall (evalid L) ps /\ evalid L lst /\
    concat (map fl ps) ++ fl lst = fl e /\ ends lasti ps = sp /\ lasti + plen ps + rle_len lst = len.
Proof.
  induction sp as [|ix sp IH]; intros e lasti Ve HS HF Hl Hll.
  { exists [], e. cbn. split_and!; try done; unfold plen; cbn; lia. }
  apply Forall_cons in HF as [Hx HF]. inversion HS as [|? ? HS' HF']; subst. cbn [ranges_middle].
  destruct (lw_split _ L e (ix - lasti) Ve) as (e1 & e2 & E & V1 & V2 & L1 & L2 & _); [lia|]. rewrite E. cbn [rbind].
  destruct (fl_split L U F e (ix - lasti) e1 e2 Ve ltac:(lia) E) as [F1 F2].
  destruct (IH e2 ix V2 HS') as (ps & lst & -> & H1 & H2 & H3 & H4 & H5); [|lia|lia|].
  { rewrite Forall_forall in HF, HF' |- *. intros y Hy. specialize (HF y Hy). specialize (HF' y Hy). lia. }
  cbn [rbind]. exists (e1 :: ps), lst. split_and!.
  - f_equal. f_equal. rewrite paint_cons, L1. replace (lasti + (ix - lasti)) with ix by lia. f_equal. apply apply_args_ext. intros [[a b] y] _. unfold covers. cbn [fst snd].
    by replace (lasti + (ix - lasti)) with ix by lia.
  - by constructor.
  - done.
  - cbn [map concat]. rewrite <- app_assoc, H3, F1, F2. by rewrite take_drop.
  - cbn [ends]. rewrite L1. replace (lasti + (ix - lasti)) with ix by lia. by rewrite H4.
  - unfold plen in *. change (sum_list (map rle_len (e1 :: ps))) with (rle_len e1 + sum_list (map rle_len ps)). lia.
Qed.
Definition in_leaf_ranges g e : Prop := forall r, r ∈ g -> fst (fst r) < snd (fst r) <= rle_len e.
Definition bset g (s : list nat) : list nat := foldl (fun s '(a, b, _) => bset_insert b (bset_insert a s)) s g.
Lemma bset_ok g : forall s, StronglySorted lt s -> StronglySorted lt (bset g s) /\ forall k, k ∈ bset g s <-> k ∈ s \/ bound g k.
Proof.
  induction g as [|[[a b] y] g IH]; intros s HS; cbn [bset foldl].
  { split; [done|]. intros k. split; [by left|]. intros [?|(r & Hr & _)]; [done|]. by apply elem_of_nil in Hr. }
  destruct (IH (bset_insert b (bset_insert a s))) as [H1 H2]; [by apply bset_sorted, bset_sorted|]. split; [exact H1|].
  intros k. rewrite H2, !bset_in. split.
  - intros [[->|[->|?]]|(r & Hr & Hk)].
    + right. exists (a, b, y). split; [left|by right].
    + right. exists (a, b, y). split; [left|by left].
    + by left.
    + right. exists r. split; [by right|done].
  - intros [?|(r & [->|Hr]%elem_of_cons & Hk)]; [tauto|cbn in Hk; tauto|]. right. exists r. done.
Qed.
Lemma leaf_ok g e : evalid L e -> g <> [] -> in_leaf_ranges g e ->
  exists e1 new, ranges_leaf fu e g = Ok (e1, new) /\ Painted g e (e1 :: new) /\ Forall (evalid L) (e1 :: new).
Proof using fu_ok.
  intros Ve Hg HR. unfold ranges_leaf. destruct (bset_ok g [] (SSorted_nil _)) as [Hs0 Hb0]. fold (bset g []).
  set (sp := filter _ (bset g [])). assert (Hs : StronglySorted lt sp) by (by apply filter_sorted).
  assert (Hb : forall k, k ∈ sp <-> bound g k /\ k <> 0 /\ k <> rle_len e).
  { intros k. unfold sp. rewrite elem_of_list_filter, Hb0. split; [intros (H1 & [Hx|H2]); [by apply elem_of_nil in Hx|tauto]|tauto]. }
  assert (Hbl : forall k, bound g k -> k <= rle_len e). { intros k (r & Hr & Hk). specialize (HR r Hr). lia. }
  destruct sp as [|first sp'] eqn:Esp.
  - assert (Hall : forall r, r ∈ g -> fst (fst r) = 0 /\ snd (fst r) = rle_len e).
    { intros r Hr. pose proof (HR r Hr) as Hx. assert (Hn : forall k, bound g k -> k = 0 \/ k = rle_len e).
      { intros k Hk. destruct (decide (k = 0)); [by left|]. destruct (decide (k = rle_len e)); [by right|]. exfalso. assert (k ∈ @nil nat) as He by (by apply Hb). by apply elem_of_nil in He. }
      split.
      - destruct (Hn (fst (fst r))) as [?|?]; [exists r; tauto|done|lia].
      - destruct (Hn (snd (fst r))) as [?|?]; [exists r; tauto|lia|done]. }
    assert (forallb (fun '(a, b, _) => bool_decide (a = 0) && bool_decide (b = rle_len e)) g = true) as ->.
    { apply forallb_forall. intros [[a b] y] Hr%elem_of_list_In. destruct (Hall _ Hr) as [H1 H2]. cbn in H1, H2. by rewrite !bool_decide_true. }
    cbn [rassert rbind]. eexists _, _. split; [reflexivity|]. split.
    + exists [e]. split_and!; [by constructor|cbn; by rewrite app_nil_r| |].
      * rewrite paint_cons. cbn [paint]. f_equal. apply apply_args_ext. intros r Hr. destruct (Hall r Hr) as [H1 H2]. unfold covers. rewrite H1, H2. by rewrite !bool_decide_true.
      * intros k. cbn [ends]. rewrite elem_of_list_singleton. split; [by left|]. intros [?|[(r & Hr & Hk) Hz]]; [done|]. destruct (Hall r Hr) as [H1 H2]. rewrite H1, H2 in Hk. destruct Hk; [done|done].
    + constructor; [by apply apply_args_valid|constructor].
  - assert (HFi : 0 < first < rle_len e). { pose proof (proj1 (Hb first) ltac:(left)) as (H1 & H2 & H3). specialize (Hbl _ H1). lia. }
    inversion Hs as [|? ? Hs' HF]; subst.
    destruct (lw_split _ L e first Ve HFi) as (p1 & rest & E & V1 & V2 & L1 & L2 & _). rewrite E. cbn [rbind].
    destruct (fl_split L U F e first p1 rest Ve HFi E) as [F1 F2].
    destruct (middle_ok g (rle_len e) sp' rest first V2 Hs') as (ps & lst & -> & H1 & H2 & H3 & H4 & H5); [|lia|lia|].
    { rewrite Forall_forall in HF |- *. intros y Hy. specialize (HF y Hy). pose proof (proj1 (Hb y) ltac:(by right)) as (Hy1 & Hy2 & Hy3). specialize (Hbl _ Hy1). lia. }
    cbn [rbind]. eexists _, _. split; [reflexivity|].
    assert (Epaint : apply_args fu (fun '(a, _, _) => bool_decide (a = 0)) g p1 :: paint g first ps ++ [apply_args fu (fun '(_, b, _) => bool_decide (b = rle_len e)) g lst] = paint g 0 (p1 :: ps ++ [lst])).
    { rewrite paint_cons. cbn [Nat.add]. rewrite L1, paint_app. rewrite paint_cons. cbn [paint]. f_equal; [|f_equal; f_equal]; apply apply_args_ext; intros [[a b] y] Hr; pose proof (HR _ Hr) as Hx; cbn [fst snd] in Hx; unfold covers; cbn [fst snd].
      - assert (Hle : first <= b).
        { destruct (decide (b = rle_len e)) as [->|Hbe]; [lia|]. assert (b ∈ first :: sp') as [->|Hin]%elem_of_cons. { apply Hb. split; [|lia]. exists (a, b, y). split; [done|by right]. } { lia. }
          rewrite Forall_forall in HF. specialize (HF b Hin). lia. }
        destruct (decide (a = 0)) as [->|Ha]; [by rewrite !bool_decide_true by lia|]. rewrite !(bool_decide_false (a = 0)), (bool_decide_false (a <= 0)) by lia. done.
      - assert (Hend : forall z, z ∈ first :: sp' -> z <= first + plen ps).
        { intros z Hz. assert (Hz' : z ∈ first :: ends first ps) by (by rewrite H4). clear -Hz'. revert Hz'. generalize first. induction ps as [|p ps IH]; intros f Hz; cbn [ends] in Hz.
          - apply elem_of_list_singleton in Hz as ->. lia.
          - unfold plen. change (sum_list (map rle_len (p :: ps))) with (rle_len p + plen ps). apply elem_of_cons in Hz as [->|Hz]; [lia|]. specialize (IH _ Hz). lia. }
        destruct (decide (b = rle_len e)) as [->|Hbe].
        + rewrite !bool_decide_true; [done|lia| |done]. destruct (decide (a = 0)); [lia|]. apply Hend, Hb. split; [|lia]. exists (a, rle_len e, y). split; [done|by left].
        + rewrite (bool_decide_false (b = rle_len e)) by done. rewrite (bool_decide_false (first + plen ps + rle_len lst <= b)) by lia. by rewrite andb_false_r. }
    split.
    + exists (p1 :: ps ++ [lst]). split_and!.
      * constructor; [done|]. apply Forall_app. split; [done|by constructor].
      * cbn [map concat]. rewrite map_app, concat_app. cbn [map concat]. rewrite app_nil_r, H3, F1, F2. apply take_drop.
      * exact Epaint.
      * intros k. cbn [ends Nat.add]. rewrite L1, ends_app, H4. cbn [ends]. rewrite H5. change (first :: sp' ++ [rle_len e]) with ((first :: sp') ++ [rle_len e]).
        rewrite elem_of_app, elem_of_list_singleton, Hb. destruct (decide (k = rle_len e)); tauto.
    + rewrite Epaint. apply paint_valid. constructor; [done|]. apply Forall_app. split; [done|by constructor].
Qed.

(** ** The pending insertions *)
Notation pnd := (list (cursor * list Elem)).
Implicit Types (ne : pnd).
Definition pend ne (l : nat) : list Elem := concat (map snd (filter (fun x => cu_leaf (fst x) = l) ne)).
Definition pkeys ne : list nat := map (fun x => cu_leaf (fst x)) ne.
Lemma pend_cons c es ne l : pend ((c, es) :: ne) l = (if decide (cu_leaf c = l) then es else []) ++ pend ne l.
Proof. unfold pend. rewrite filter_cons. cbn [fst]. by case_decide. Qed.
Lemma pend_none ne l : l ∉ pkeys ne -> pend ne l = [].
Proof.
  induction ne as [|[c es] ne IH]; [done|]. cbn [pkeys map fst]. intros Hl. rewrite pend_cons, decide_False, IH; [done| |]; set_solver.
Qed.
Lemma pend_some ne c es : NoDup (pkeys ne) -> (c, es) ∈ ne -> pend ne (cu_leaf c) = es.
Proof.
  induction ne as [|[c' es'] ne IH]; intros Hn Hin; [by apply elem_of_nil in Hin|]. cbn [pkeys map fst] in Hn. apply NoDup_cons in Hn as [Hn1 Hn2]. rewrite pend_cons.
  apply elem_of_cons in Hin as [[= -> ->]|Hin].
  - rewrite decide_True by done. rewrite pend_none by done. by rewrite app_nil_r.
  - rewrite decide_False; [by apply IH|]. intros E. apply Hn1. rewrite E. apply elem_of_list_fmap. by exists (c, es).
Qed.
Lemma pend_perm ne ne' l : NoDup (pkeys ne) -> ne' ≡ₚ ne -> pend ne' l = pend ne l.
Proof.
  intros Hn HP. assert (HK : pkeys ne' ≡ₚ pkeys ne) by (unfold pkeys; by rewrite HP). assert (Hn' : NoDup (pkeys ne')) by (by rewrite HK).
  destruct (decide (l ∈ pkeys ne)) as [Hin|Hin].
  - unfold pkeys in Hin. apply elem_of_list_fmap in Hin as ([c es] & -> & Hx). cbn [fst]. rewrite (pend_some ne c es) by done. apply pend_some; [done|]. by rewrite HP.
  - rewrite !pend_none; [done|done|]. by rewrite HK.
Qed.

(** ** The in-place part *)
Lemma groups_ok : forall (gs : list (nat * list rg)) t dm ne, NoDup gs.*1 ->
  (forall l g, (l, g) ∈ gs -> g <> [] /\ exists e, el t l = Some e /\ evalid L e /\ in_leaf_ranges g e) ->
  exists t' dm' ne', ranges_groups fu t gs dm ne = Ok (t', dm', ne ++ ne') /\
    SH t t' /\ in_nodes t' = in_nodes t /\ root_cache t' = root_cache t /\
    (forall l, l ∉ gs.*1 -> el t' l = el t l /\ dm' !! ALeaf l = dm !! ALeaf l) /\ (forall m, dm' !! AInt m = dm !! AInt m) /\
    (forall l g, (l, g) ∈ gs -> exists e e1, el t l = Some e /\ el t' l = Some e1 /\ evalid L e1 /\
       Painted g e (e1 :: pend ne' l) /\ Forall (evalid L) (pend ne' l) /\ dm' !! ALeaf l = Some (sub_cache (get_elem_cache e1) (get_elem_cache e))) /\
    (forall c es, (c, es) ∈ ne' -> cu_leaf c ∈ gs.*1 /\ Forall (evalid L) es /\ exists e1, el t' (cu_leaf c) = Some e1 /\ cu_offset c = rle_len e1) /\
    NoDup (pkeys ne').
Proof using fu_ok.
  induction gs as [|[l g] gs IH]; intros t dm ne Hnd HG.
  { exists t, dm, []. rewrite app_nil_r. split_and!; try done; [intros ? ? Hx; by apply elem_of_nil in Hx|intros ? ? Hx; by apply elem_of_nil in Hx]. }
  cbn [fmap list_fmap] in Hnd. apply NoDup_cons in Hnd as [Hl Hnd]. destruct (HG l g ltac:(left)) as (Hg & e & He & Ve & HR).
  cbn [ranges_groups]. destruct (proj1 (el_llnk t l)) as [p Hp]; [rewrite He; eauto|]. rewrite (get_lf_proj _ _ _ _ He Hp). cbn [rbind l_elem].
  destruct (leaf_ok g e Ve Hg HR) as (e1 & new & -> & HPt & HV). cbn [rbind]. apply Forall_cons in HV as [V1 VN].
  set (t1 := set_lf t l (with_elem (mkLeaf e p) e1)).
  assert (Hel1 : forall z, el t1 z = if decide (l = z) then Some e1 else el t z) by (intros z; unfold t1; by rewrite el_set_lf).
  assert (S1 : SH t t1).
  { constructor; try done. intros z. unfold t1. rewrite llnk_set_lf. case_decide; [subst; by rewrite Hp|done]. }
  set (nw := match new with [] => [] | _ => [(mkCur l (rle_len e1), new)] end : pnd).
  assert (Enw : match new with [] => ne | _ => ne ++ [(mkCur l (rle_len e1), new)] end = ne ++ nw). { unfold nw. destruct new; [by rewrite app_nil_r|done]. }
  rewrite Enw.
  destruct (IH t1 (<[ALeaf l := sub_cache (get_elem_cache e1) (get_elem_cache e)]> dm) (ne ++ nw) Hnd) as (t' & dm' & ne' & E & S' & I' & R' & HO & HM & HI & HN & HK).
  { intros l' g' Hin. destruct (HG l' g' ltac:(by right)) as (Hg' & e' & He' & Hv). split; [done|]. exists e'. rewrite Hel1, decide_False; [done|]. intros ->. apply Hl. by apply (elem_of_list_fmap_1 fst) in Hin. }
  exists t', dm', (nw ++ ne'). rewrite E, <- app_assoc. split; [done|].
  assert (Hlk : l ∉ pkeys ne'). { intros Hx. unfold pkeys in Hx. apply elem_of_list_fmap in Hx as ([c es] & Ec & Hx). destruct (HN c es Hx) as (Hc & _). cbn [fst] in Ec. rewrite <- Ec in Hc. done. }
  assert (Hpn : forall z, pend (nw ++ ne') z = (if decide (l = z) then new else []) ++ pend ne' z).
  { intros z. unfold nw. destruct new; [cbn; by case_decide|]. cbn [app]. rewrite pend_cons. cbn [cu_leaf]. done. }
  split_and!.
  - by eapply SH_trans.
  - by rewrite I'.
  - by rewrite R'.
  - intros z Hz. cbn [fmap list_fmap] in Hz. destruct (HO z ltac:(set_solver)) as [-> ->]. rewrite Hel1, decide_False by set_solver. split; [done|]. rewrite lookup_insert_ne; [done|]. set_solver.
  - intros m. rewrite HM. by rewrite lookup_insert_ne.
  - intros z gz [[= -> ->]|Hin]%elem_of_cons.
    + destruct (HO l Hl) as [Ho1 Ho2]. exists e, e1. rewrite Ho1, Ho2, Hel1, decide_True by done. rewrite lookup_insert. rewrite Hpn, decide_True, pend_none, app_nil_r by done. done.
    + assert (z <> l) as Hzl. { intros ->. apply Hl. by apply (elem_of_list_fmap_1 fst) in Hin. }
      destruct (HI z gz Hin) as (ez & e1z & Hz1 & Hz2 & Hz3 & Hz4 & Hz5 & Hz6). rewrite Hel1, decide_False in Hz1 by done. exists ez, e1z. rewrite Hpn, decide_False by done. done.
  - intros c es [Hin|Hin]%elem_of_app.
    + unfold nw in Hin. destruct new as [|n0 new0] eqn:En; [by apply elem_of_nil in Hin|]. apply elem_of_list_singleton in Hin as [= -> ->]. cbn [cu_leaf cu_offset fmap list_fmap]. split; [left|]. split; [done|].
      exists e1. destruct (HO l Hl) as [-> _]. rewrite Hel1, decide_True by done. done.
    + destruct (HN c es Hin) as (H1 & H2 & H3). split; [by right|done].
  - unfold pkeys. rewrite map_app. fold (pkeys ne'). unfold nw. destruct new; [done|]. cbn [map app fst cu_leaf]. by constructor.
Qed.

(** ** The insertions *)
Lemma ranges_insert_ok : forall (es : list Elem) t X l e Y nl, Tree t (X ++ (l, e) :: Y) -> Forall (evalid L) es ->
  exists nl2 t' R, ranges_insert t (mkCur l (rle_len e)) es nl = Ok (nl ++ nl2, t') /\ Tree t' (X ++ R ++ Y) /\ ft R = fl e ++ concat (map fl es) /\ l ∈ R.*1 /\
    (forall n, n ∈ R.*1 -> n = l \/ anext (leaf_nodes t) <= n) /\ anext (leaf_nodes t) <= anext (leaf_nodes t') /\ (forall n, n ∈ nl2 -> n ∈ R.*1) /\ (forall n, n ∈ R.*1 -> n = l \/ n ∈ nl2) /\
    (forall w, MDw w t -> MDw w t').
Proof.
  induction es as [|x es IH]; intros t X l e Y nl T HV.
  { exists [], t, [(l, e)]. cbn [ranges_insert]. rewrite app_nil_r. split_and!; [done|done|done|cbn; set_solver|cbn; set_solver|done|set_solver|cbn; set_solver|auto]. }
  apply Forall_cons in HV as [Vx HV]. pose proof (tree_ve L _ _ _ _ _ T) as Ve.
  cbn [ranges_insert]. destruct (t_insert L t X l e Y (rle_len e) x T ltac:(lia) Vx) as (cur & sl & R0 & t1 & -> & T1 & HI & HA & M1). cbn [rbind].
  assert (sl = [] /\ exists P e' Q, R0 = P ++ (cu_leaf cur, e') :: Q /\ ft P ++ fl e' = fl e ++ fl x /\ ft Q = [] /\ l ∈ R0.*1 /\
    (forall n, n ∈ R0.*1 -> n = l \/ anext (leaf_nodes t) <= n) /\ (forall n, n ∈ R0.*1 -> n = l \/ n = cu_leaf cur)) as (-> & P & e' & Q & -> & H1 & H2 & H3 & H4 & H5).
  { inversion HI as [e' K1|e' K1 K2 K3 K4|e' K1 K2 K3 K4 K5|n K1 K2 K3 K4 K5|n K1 K2 K3 K4 K5|n n2 e1 e2 K1 K2 K3 K4 K5 K6]; subst; cbn [cu_leaf]; (split; [try done; lia|]).
    - exists [], e', []. cbn [app]. split_and!; [done| |done|set_solver|set_solver|set_solver]. cbn. rewrite (fl_try L U F e (rle_len e) x e' Ve Vx ltac:(lia) K1). rewrite take_ge, drop_ge by (rewrite (fl_len L U F e Ve); lia). by rewrite app_nil_r.
    - exists [], e', []. cbn [app]. split_and!; [done| |done|set_solver|set_solver|set_solver]. cbn. rewrite (fl_ml L U F x e e' Vx Ve K3 K4).
      assert (fl e = []) as ->. { apply nil_length_inv. by rewrite (fl_len L U F e Ve). } by rewrite app_nil_r.
    - exists [], e', []. cbn [app]. split_and!; [done| |done|set_solver|set_solver|set_solver]. cbn. by rewrite (fl_mr L U F e x e' Ve Vx K4 K5).
    - exists [], x, [(l, e)]. cbn [app]. assert (fl e = []) as Efl. { apply nil_length_inv. by rewrite (fl_len L U F e Ve). }
      split_and!; [done|by rewrite Efl|rewrite ft_cons, Efl; done|cbn; set_solver| |cbn; set_solver]. cbn. intros n0 Hn. apply elem_of_cons in Hn as [->|Hn]; [right; lia|set_solver].
    - exists [(l, e)], x, []. cbn [app]. split_and!; [done|rewrite ft_cons; cbn; by rewrite app_nil_r|done|cbn; set_solver| |cbn; set_solver]. cbn. intros n0 Hn. apply elem_of_cons in Hn as [->|Hn]; [by left|]. apply elem_of_list_singleton in Hn as ->. right; lia.
    - lia. }
  assert (T2 : Tree t1 ((X ++ P) ++ (cu_leaf cur, e') :: (Q ++ Y))). { rewrite <- !app_assoc in T1 |- *. exact T1. }
  assert (get_elem t1 (cu_leaf cur) = Some e') as -> by exact (tree_el L _ _ _ _ _ T2). cbn [ropt rbind length]. rewrite bool_decide_true by done. cbn [rassert rbind].
  destruct (IH t1 (X ++ P) (cu_leaf cur) e' (Q ++ Y) (nl ++ [cu_leaf cur]) T2 HV) as (nl2 & t' & R & -> & T' & HR & Hl & Hn & HA' & Hnl & HnR & M').
  exists (cu_leaf cur :: nl2), t', (P ++ R ++ Q). split_and!.
  - by rewrite <- app_assoc.
  - rewrite <- !app_assoc in T'. rewrite <- !app_assoc. exact T'.
  - rewrite !ft_app, H2, HR, app_nil_r, app_assoc, H1. cbn [map concat]. by rewrite <- app_assoc.
  - rewrite !fmap_app in H3 |- *. cbn in H3. set_solver.
  - intros n Hin. rewrite !fmap_app in Hin. rewrite fmap_app in H4. cbn in H4. apply elem_of_app in Hin as [Hin|[Hin|Hin]%elem_of_app].
    + apply H4. set_solver.
    + apply Hn in Hin as [->|Hin]; [apply H4; set_solver|right; lia].
    + apply H4. set_solver.
  - lia.
  - intros n Hin. rewrite !fmap_app. apply elem_of_cons in Hin as [->|Hin]; [set_solver|]. apply Hnl in Hin. set_solver.
  - intros n Hin. rewrite !fmap_app in Hin. rewrite fmap_app in H5. cbn in H5. apply elem_of_app in Hin as [Hin|[Hin|Hin]%elem_of_app].
    + destruct (H5 n) as [-> | ->]; [set_solver|by left|right; left].
    + apply HnR in Hin as [->|Hin]; [right; left|right; by right].
    + destruct (H5 n) as [-> | ->]; [set_solver|by left|right; left].
  - auto.
Qed.
Definition ftN (N : nat -> list Elem) xs : list U := concat (map (fun x => fl (snd x) ++ concat (map fl (N (fst x)))) xs).
Lemma ftN_app N xs ys : ftN N (xs ++ ys) = ftN N xs ++ ftN N ys.
Proof. unfold ftN. by rewrite map_app, concat_app. Qed.
Lemma ftN_ext N N' xs : (forall l, l ∈ xs.*1 -> N l = N' l) -> ftN N xs = ftN N' xs.
Proof.
  intros H. unfold ftN. f_equal. apply map_ext_in. intros [l e] Hin%elem_of_list_In. cbn [fst snd]. rewrite (H l); [done|]. by apply (elem_of_list_fmap_1 fst) in Hin.
Qed.
Lemma ftN_nil N xs : (forall l, l ∈ xs.*1 -> N l = []) -> ftN N xs = ft xs.
Proof.
  intros H. rewrite (ftN_ext N (fun _ => [])) by done. unfold ftN, Many.ft. f_equal. apply map_ext. intros [l e]. cbn. by rewrite app_nil_r.
Qed.
(** what became of one leaf: a run of leaves *)
Definition Run (N : nat -> list Elem) (nl : list nat) (x : nat * Elem) (R : list (nat * Elem)) : Prop :=
  ft R = fl (snd x) ++ concat (map fl (N (fst x))) /\ fst x ∈ R.*1 /\ (forall z, z ∈ R.*1 -> z = fst x \/ z ∈ nl).
Lemma runs_ft N nl xs Rs : Forall2 (Run N nl) xs Rs -> ft (concat Rs) = ftN N xs.
Proof. induction 1 as [|x R xs Rs (H & _) _ IH]; [done|]. cbn [concat]. rewrite ft_app, IH, H. done. Qed.
Lemma runs_in N nl xs Rs : Forall2 (Run N nl) xs Rs -> forall z, z ∈ (concat Rs).*1 -> z ∈ xs.*1 \/ z ∈ nl.
Proof.
  induction 1 as [|x R xs Rs (_ & _ & H) _ IH]; intros z Hz; [by apply elem_of_nil in Hz|]. cbn [concat] in Hz. rewrite fmap_app in Hz. apply elem_of_app in Hz as [Hz|Hz].
  - destruct (H z Hz) as [->|?]; [left; left|by right].
  - destruct (IH z Hz) as [?|?]; [left; by right|by right].
Qed.
Lemma runs_old N nl xs Rs : Forall2 (Run N nl) xs Rs -> forall z, z ∈ xs.*1 -> z ∈ (concat Rs).*1.
Proof.
  induction 1 as [|x R xs Rs (_ & H & _) _ IH]; intros z Hz; [by apply elem_of_nil in Hz|]. cbn [concat]. rewrite fmap_app. apply elem_of_app.
  apply elem_of_cons in Hz as [->|Hz]; [by left|right; by apply IH].
Qed.
Lemma ranges_insert_all_ok : forall ne t xs nl, Tree t xs -> NoDup (pkeys ne) ->
  (forall c es, (c, es) ∈ ne -> Forall (evalid L) es /\ exists e, (cu_leaf c, e) ∈ xs /\ cu_offset c = rle_len e) ->
  exists nl2 t' Rs, ranges_insert_all t ne nl = Ok (nl ++ nl2, t') /\ Tree t' (concat Rs) /\ Forall2 (Run (pend ne) nl2) xs Rs /\
    (forall z, z ∈ nl2 -> z ∈ (concat Rs).*1) /\ (forall w, MDw w t -> MDw w t').
Proof.
  induction ne as [|[[l off] es] ne IH]; intros t xs nl T Hn HC.
  { exists [], t, (map (fun x => [x]) xs). cbn [ranges_insert_all]. rewrite app_nil_r.
    assert (concat (map (fun x => [x]) xs) = xs) as ->. { clear. induction xs as [|x xs IH]; [done|]. cbn. by rewrite IH. }
    split_and!; [done|done| |set_solver|auto]. clear. induction xs as [|[l e] xs IH]; [constructor|]. cbn [map]. constructor; [|done]. split_and!; [done|cbn; set_solver|cbn; set_solver]. }
  cbn [pkeys map fst cu_leaf] in Hn. apply NoDup_cons in Hn as [Hl Hn]. destruct (HC _ _ ltac:(left)) as (HV & e & He & Ho). cbn [cu_leaf cu_offset] in He, Ho. subst off.
  pose proof He as He0. apply elem_of_list_split in He as (X & Y & ->). pose proof (tree_nodup L _ _ T) as Hnd. cbn [ranges_insert_all].
  destruct (ranges_insert_ok es t X l e Y nl T HV) as (nl1 & t1 & R & -> & T1 & HR & HlR & HnR & HA & Hnl & HnR2 & M1). cbn [rbind].
  rewrite fmap_app in Hnd. cbn in Hnd. apply NoDup_app in Hnd as (Hnd1 & Hnd2 & Hnd3). apply NoDup_cons in Hnd3 as [Hnd3 Hnd4].
  assert (Hkey : forall z, z ∈ pkeys ne -> z < anext (leaf_nodes t) /\ z <> l).
  { intros z Hz. split; [|by intros ->]. unfold pkeys in Hz. apply elem_of_list_fmap in Hz as ([c es'] & -> & Hz). cbn [fst]. destruct (HC c es' ltac:(by right)) as (_ & e' & Hin & _). by eapply (tree_old L). }
  destruct (IH t1 (X ++ R ++ Y) (nl ++ nl1) T1 Hn) as (nl2 & t' & Rs & -> & T' & HRs & Hnl' & M').
  { intros c es' Hin. destruct (HC c es' ltac:(by right)) as (HV' & e' & Hc & Ho'). split; [done|]. exists e'. split; [|done].
    destruct (Hkey (cu_leaf c)) as [_ Hcl]. { unfold pkeys. apply elem_of_list_fmap. by exists (c, es'). }
    apply elem_of_app in Hc as [Hc|[[= E _]|Hc]%elem_of_cons]; [|done|]; rewrite !elem_of_app; tauto. }
  apply Forall2_app_inv_l in HRs as (RX & RR & HX & HRs & ->). apply Forall2_app_inv_l in HRs as (RM & RY & HM & HY & ->).
  exists (nl1 ++ nl2), t', (RX ++ [concat RM] ++ RY).
  assert (concat (RX ++ [concat RM] ++ RY) = concat (RX ++ RM ++ RY)) as ->. { rewrite !concat_app. cbn [concat]. by rewrite app_nil_r. }
  assert (Hoth : forall zs Rz, Forall2 (Run (pend ne) nl2) zs Rz -> l ∉ zs.*1 -> Forall2 (Run (pend ((mkCur l (rle_len e), es) :: ne)) (nl1 ++ nl2)) zs Rz).
  { clear. induction 1 as [|x Rx zs Rz (A1 & A2 & A3) _ IH]; intros Hz; [constructor|]. cbn in Hz. constructor; [|apply IH; set_solver].
    split_and!; [|done|intros z Hzz; destruct (A3 z Hzz); [by left|right; apply elem_of_app; by right]]. rewrite pend_cons. cbn [cu_leaf]. rewrite decide_False; [done|]. intros ->. apply Hz. left. }
  split_and!; [by rewrite app_assoc|done| | |auto].
  - apply Forall2_app; [|constructor].
    + apply Hoth; [done|]. intros Hin. apply (Hnd2 l Hin). left.
    + split_and!.
      * cbn [fst snd]. rewrite (runs_ft _ _ _ _ HM), ftN_nil.
        { rewrite HR, pend_cons. cbn [cu_leaf]. rewrite decide_True, pend_none, app_nil_r by done. done. }
        intros z Hz. apply pend_none. intros Hk. destruct (Hkey z Hk) as [K1 K2]. destruct (HnR z Hz); [done|lia].
      * by apply (runs_old _ _ _ _ HM).
      * intros z Hz. cbn [fst]. destruct (runs_in _ _ _ _ HM z Hz) as [Hz'|Hz']; [|set_solver]. destruct (HnR2 z Hz') as [->|?]; [by left|set_solver].
    + by apply Hoth.
  - intros z [Hz|Hz]%elem_of_app; [|by apply Hnl']. apply Hnl in Hz. apply (runs_old (pend ne) nl2 (X ++ R ++ Y)); [repeat apply Forall2_app; done|].
    rewrite !fmap_app. set_solver.
Qed.

(** ** The whole call *)
Notation valid_args xs args := (forall l r, (l, r) ∈ args -> exists e, (l, e) ∈ xs /\ fst (fst r) < snd (fst r) <= rle_len e) (only parsing).
(** what the in-place part leaves behind for the leaves [gs]; [P l e out]: the pieces [out] come from the element [e] of leaf [l] *)
Record InPlace (P : nat -> Elem -> list Elem -> Prop) (gs : list nat) t t1 (dm : gmap aidx (Diff B)) ne : Prop := {
  ip_sh : SH t t1;
  ip_in : in_nodes t1 = in_nodes t;
  ip_out : forall l, l ∉ gs -> el t1 l = el t l /\ dm !! ALeaf l = None;
  ip_int : forall m, dm !! AInt m = None;
  ip_one : forall l, l ∈ gs -> exists e e1, el t l = Some e /\ el t1 l = Some e1 /\ evalid L e1 /\ P l e (e1 :: pend ne l) /\
    dm !! ALeaf l = Some (sub_cache (get_elem_cache e1) (get_elem_cache e));
  ip_new : forall c es, (c, es) ∈ ne -> cu_leaf c ∈ gs /\ Forall (evalid L) es /\ exists e1, el t1 (cu_leaf c) = Some e1 /\ cu_offset c = rle_len e1;
}.
Lemma prep_core P gs ord t xs t1 dm ne : Tree t xs -> xs <> [] -> @USE_DIFF B = true -> (forall l, ord l ≡ₚ l) -> InPlace P gs t t1 dm ne ->
  exists t2 (ys : list (nat * Elem)), update_dirty_cache_map ord t1 dm = Ok t2 /\ Tree t2 ys /\
    (forall c es, (c, es) ∈ ne -> cu_leaf c ∈ gs /\ Forall (evalid L) es /\ exists e1, (cu_leaf c, e1) ∈ ys /\ cu_offset c = rle_len e1) /\
    Forall2 (fun x y => fst y = fst x /\ (fst x ∈ gs -> P (fst x) (snd x) (snd y :: pend ne (fst x))) /\
      (fst x ∉ gs -> snd y = snd x /\ pend ne (fst x) = [])) xs ys /\ (forall w, MDw w t -> MDw w t2).
Proof.
  intros T Hne HD Hord [S1 I1 HO HM HI HN].
  destruct (Tree_OK L _ _ T) as (H & lv & O & Hc).
  pose proof (ok_wt _ _ _ _ O) as W. pose proof (ok_lk _ _ _ _ O) as K. pose proof (ok_va _ _ _ _ O) as V.
  assert (Hk1 : forall i, kids t1 i = kids t i) by (intros i; unfold kids; by rewrite I1).
  assert (Hcase : forall l, (exists e1 e, el t1 l = Some e1 /\ el t l = Some e /\ evalid L e1 /\ dm !! ALeaf l = Some (sub_cache (get_elem_cache e1) (get_elem_cache e))) \/ (el t1 l = el t l /\ dm !! ALeaf l = None)).
  { intros l. destruct (decide (l ∈ gs)) as [Hl|Hl].
    - left. destruct (HI l Hl) as (e & e1 & H1 & H2 & H3 & _ & H4). eauto 10.
    - right. by apply HO. }
  assert (V1 : VA L t1).
  { constructor.
    - intros l e He. destruct (Hcase l) as [(e1 & e0 & E1 & _ & HV & _)|[E1 _]]; [congruence|]. rewrite E1 in He. by apply (va_el _ _ V) in He.
    - intros p cs c Hk. rewrite Hk1 in Hk. by apply (va_ch _ _ V p cs c). }
  assert (D1 : DMI L t1 dm).
  { intros p cs c Hk Hcc. rewrite Hk1 in Hk. pose proof (ok_co _ _ _ _ O p cs c Hk Hcc) as Hco. specialize (Hco ltac:(intros [])). destruct (c_arena c) as [l|m].
    - destruct (Hcase l) as [(e1 & e0 & E1 & E0 & _ & Ed)|[E1 Ed]]; rewrite Ed.
      + rewrite (act_leaf _ _ _ _ E1), Hco, (act_leaf _ _ _ _ E0). by apply (lw_sub _ L).
      + rewrite Hco. unfold act. by rewrite E1.
    - rewrite HM, Hco. unfold act. by rewrite Hk1. }
  assert (Hroot : chs t1 (raw (root t1)) <> []).
  { rewrite (sh_chs S1), (sh_root S1). intros E. apply Hne. rewrite Hc. unfold cont. rewrite (wt_root_id W). cbn [gen achs]. by rewrite E. }
  destruct (dirty_ok L ord t1 H lv dm Hord (SH_WT _ _ _ _ _ S1 W) (SH_LK _ _ S1 K) V1 (SH_SZ _ _ 11 S1 (ok_sz _ _ _ _ O)) Hroot D1) as (t2 & Ed & O2 & S2 & El2).
  { intros a Ha. destruct a as [l|m]; [|exfalso; rewrite HM in Ha; by destruct Ha]. exists l. split; [done|].
    destruct (Hcase l) as [(e1 & e0 & E1 & _)|[_ Ed]]; [rewrite E1; eauto|rewrite Ed in Ha; by destruct Ha]. }
  assert (Hlv : leaves t = xs.*1).
  { rewrite <- (Tree_elems L _ _ T). unfold elems. pose proof (leaves_live W) as Hl. clear -Hl.
    assert (Forall (fun l => is_Some (el t l)) (leaves t)) as HF by (apply Forall_forall; intros z; apply Hl). clear Hl.
    induction HF as [|l ls [e He] HF IH]; [done|]. cbn. rewrite He. cbn. f_equal. exact IH. }
  set (new_el := fun x : nat * Elem => (fst x, default (snd x) (el t1 (fst x)))).
  set (ys := map new_el xs).
  assert (Hys1 : ys.*1 = xs.*1). { unfold ys. change (map new_el xs) with (new_el <$> xs). rewrite <- list_fmap_compose. done. }
  assert (Hys : forall l e, (l, e) ∈ ys -> el t1 l = Some e).
  { intros l e Hin. unfold ys in Hin. apply elem_of_list_fmap in Hin as ([l0 e0] & [= -> ->] & Hin). cbn [fst snd].
    apply (tree_in L _ _ _ _ T) in Hin. destruct (Hcase l0) as [(e1 & ? & E1 & _)|[E1 _]]; [by rewrite E1|]. rewrite E1, Hin. done. }
  assert (T2 : Tree t2 ys).
  { pose proof (OK_Tree L _ _ _ O2) as T2. replace ys with (cont t2 H); [done|]. rewrite <- (Tree_elems L _ _ T2). unfold elems.
    assert (leaves t2 = ys.*1) as ->.
    { rewrite (leaves_raw (ok_wt _ _ _ _ O2)), (SH_gen _ _ S2), (SH_gen _ _ S1), (sh_root S2), (sh_root S1), <- (leaves_raw W), Hlv. done. }
    apply elems_of. intros l e Hl. rewrite El2. by apply Hys. }
  exists t2, ys. split; [exact Ed|]. split; [exact T2|]. split; [|split; [|intros w Hw; apply (MD_SH w t1 t2 S2), (MD_SH w t t1 S1), Hw]].
  { intros c es Hin. destruct (HN c es Hin) as (H1 & H2 & e1 & H3 & H4). split; [done|]. split; [done|].
    exists e1. split; [|done]. apply (tree_in L _ _ _ _ T2). by rewrite El2. }
  assert (Hsub : forall x, x ∈ xs -> x ∈ xs) by done. revert Hsub. unfold ys. generalize xs at 1 3 4. intros zs Hsub. induction zs as [|[l e] zs IH]; [constructor|].
  cbn [map]. constructor; [|apply IH; intros; apply Hsub; by right].
  unfold new_el. cbn [fst snd]. split; [done|].
  pose proof (proj2 (tree_in L _ _ _ _ T) (Hsub (l, e) ltac:(left))) as He. split.
  - intros Hl. destruct (HI l Hl) as (e0 & e1 & H1 & H2 & _ & H3 & _). rewrite H2. cbn [default]. rewrite He in H1. injection H1 as <-. exact H3.
  - intros Hl. destruct (HO l Hl) as [-> _]. rewrite He. cbn [default]. split; [done|]. apply pend_none.
    intros Hx. unfold pkeys in Hx. apply elem_of_list_fmap in Hx as ([c es] & Ec & Hx). destruct (HN c es Hx) as (Hcg & _). cbn [fst] in Ec. by rewrite <- Ec in Hcg.
Qed.
(** before the insertions: each leaf holds its first piece, the others are pending *)
Lemma t_ranges_prep ord t xs (args : list (nat * rg)) : Tree t xs -> xs <> [] -> @USE_DIFF B = true -> (forall l, ord l ≡ₚ l) -> valid_args xs args ->
  exists t1 dm ne t2 (ys : list (nat * Elem)), ranges_groups fu t (group_by_leaf (sort_by_leaf args)) ∅ [] = Ok (t1, dm, ne) /\
    update_dirty_cache_map ord t1 dm = Ok t2 /\ Tree t2 ys /\ NoDup (pkeys ne) /\
    (forall c es, (c, es) ∈ ne -> cu_leaf c ∈ args.*1 /\ Forall (evalid L) es /\ exists e1, (cu_leaf c, e1) ∈ ys /\ cu_offset c = rle_len e1) /\
    Forall2 (fun x y => fst y = fst x /\ Painted (of_key (fst x) args) (snd x) (snd y :: pend ne (fst x))) xs ys /\ (forall w, MDw w t -> MDw w t2).
Proof using fu_ok.
  intros T Hne HD Hord Hargs.
  set (gs := group_by_leaf (sort_by_leaf args)). destruct (group_keys (sort_by_leaf args) (sort_by_leaf_sorted args)) as (G1 & G2 & G3 & _ & G5). fold gs in G1, G2, G3, G5.
  assert (G2' : forall k g, (k, g) ∈ gs -> g = of_key k args /\ g <> []). { intros k g Hk. destruct (G2 k g Hk) as [-> ?]. split; [by rewrite sort_by_leaf_key|done]. }
  assert (G3' : forall k, k ∉ gs.*1 -> of_key k args = []). { intros k Hk. rewrite <- sort_by_leaf_key. by apply G3. }
  assert (Hof : forall k r, r ∈ of_key k args -> (k, r) ∈ args).
  { intros k r Hr. unfold of_key in Hr. apply elem_of_list_fmap in Hr as ([k' r'] & -> & Hr). apply elem_of_list_filter in Hr as [Hk Hr]. cbn in Hk. by subst. }
  pose proof (tree_nodup L _ _ T) as Hnd.
  destruct (groups_ok gs t ∅ [] G1) as (t1 & dm & ne & Eg & S1 & I1 & R1 & HO & HM & HI & HN & HK).
  { intros l g Hin. destruct (G2' l g Hin) as [Eg Hg]. split; [done|]. destruct g as [|r g]; [done|].
    assert (Hr : (l, r) ∈ args) by (apply Hof; rewrite <- Eg; left). destruct (Hargs l r Hr) as (e & He & _). exists e. split; [by apply (tree_in L _ _ _ _ T)|]. split; [by eapply (tree_valid L)|].
    intros r' Hr'. rewrite Eg in Hr'. apply Hof in Hr'. destruct (Hargs l r' Hr') as (e' & He' & Hb). assert (e' = e) as ->; [|done].
    apply (tree_in L _ _ _ _ T) in He, He'. congruence. }
  cbn [app] in Eg.
  destruct (prep_core (fun l e out => Painted (of_key l args) e out) gs.*1 ord t xs t1 dm ne T Hne HD Hord) as (t2 & ys & Ed & T2 & HN2 & HF & HW).
  { constructor; [done|done| | | |done].
    - intros l Hl. destruct (HO l Hl) as [-> ->]. by rewrite lookup_empty.
    - intros m. by rewrite HM, lookup_empty.
    - intros l Hl. apply elem_of_list_fmap in Hl as ([l' g] & -> & Hl). cbn [fst]. destruct (HI l' g Hl) as (e & e1 & H1 & H2 & H3 & H4 & _ & H5).
      exists e, e1. destruct (G2' l' g Hl) as [<- _]. done. }
  exists t1, dm, ne, t2, ys. split; [exact Eg|]. split; [exact Ed|]. split; [exact T2|]. split; [exact HK|]. split; [|split; [|exact HW]].
  { intros c es Hin. destruct (HN2 c es Hin) as (H1 & H2 & H3). split; [|done].
    apply elem_of_list_fmap in H1 as ([k g] & Ek & Hg). cbn [fst] in Ek. destruct (G2' k g Hg) as [Eo Hgn]. destruct g as [|r g]; [done|].
    rewrite Ek. apply elem_of_list_fmap. exists (k, r). split; [done|]. apply Hof. rewrite <- Eo. left. }
  assert (Hsub : forall x, x ∈ xs -> x ∈ xs) by done. revert Hsub HF. clear T2 HN2 Ed. generalize xs at 1 3 4. intros zs Hsub HF.
  induction HF as [|[l e] [l' e'] zs ys' (El & HIn & HOut) HF IH]; [constructor|].
  constructor; [|apply IH; intros; apply Hsub; by right]. cbn [fst snd] in *. split; [done|].
  destruct (decide (l ∈ gs.*1)) as [Hl|Hl]; [by apply HIn|]. destruct (HOut Hl) as [-> ->]. rewrite (G3' l Hl).
  exists [e]. split_and!; [constructor; [|constructor]|cbn; by rewrite app_nil_r|done|].
  * eapply (tree_valid L t _ l); [exact T|]. apply Hsub. left.
  * intros k. cbn [ends Nat.add]. rewrite elem_of_list_singleton. split; [by left|]. intros [?|[(r & Hr & _) _]]; [done|]. by apply elem_of_nil in Hr.
Qed.

Theorem t_ranges ord ord2 t xs (args : list (nat * rg)) : Tree t xs -> xs <> [] -> @USE_DIFF B = true ->
  (forall l, ord l ≡ₚ l) -> (forall l, ord2 l ≡ₚ l) ->
  (forall l r, (l, r) ∈ args -> exists e, (l, e) ∈ xs /\ fst (fst r) < snd (fst r) <= rle_len e) ->
  exists nl t' Rs, update_leaves_with_arg_in_ranges fu ord ord2 t args = Ok (nl, t') /\ Tree t' (concat Rs) /\
    Forall2 (fun x R => (exists out, Painted (of_key (fst x) args) (snd x) out /\ ft R = concat (map fl out)) /\ fst x ∈ R.*1 /\ (forall z, z ∈ R.*1 -> z = fst x \/ z ∈ nl)) xs Rs /\
    (forall z, z ∈ nl -> z ∈ (concat Rs).*1) /\ (forall w, MDw w t -> MDw w t').
Proof using fu_ok.
  intros T Hne HD Hord Hord2 Hargs. unfold update_leaves_with_arg_in_ranges.
  destruct (t_ranges_prep ord t xs args T Hne HD Hord Hargs) as (t1 & dm & ne & t2 & ys & -> & Ed & T2 & HK & HN & H2 & M2). cbn [rbind]. rewrite Ed. cbn [rbind].
  destruct (ranges_insert_all_ok (ord2 ne) t2 ys [] T2) as (nl & t' & Rs & E' & T' & HRs & Hnl & M').
  { unfold pkeys. rewrite Hord2. exact HK. }
  { intros c es Hin. rewrite Hord2 in Hin. by destruct (HN c es Hin) as (_ & H3 & H4). }
  exists nl, t', Rs. split; [exact E'|]. split; [exact T'|]. split; [|split; [exact Hnl|auto]]. clear M2 M' Hnl E' T' T2 HN T Hne Hargs. revert Rs HRs.
  induction H2 as [|[l e] [l' e'] xs ys [El HP] _ IH]; intros Rs HRs; [inversion HRs; constructor|].
  inversion HRs as [|? R ? Rs' (A1 & A2 & A3) HRs']; subst. cbn [fst snd] in *. subst l'. constructor; [|by apply IH].
  cbn [fst snd]. split_and!; [|done|done]. exists (e' :: pend ne l). rewrite A1, (pend_perm ne (ord2 ne) l HK (Hord2 ne)). done.
Qed.

(** ** Unit-wise closures *)
Lemma painted_units (gu : U -> A -> U) g e out : (forall e a, evalid L e -> fl (fu e a) = map (fun u => gu u a) (fl e)) ->
  (forall r, r ∈ g -> fst (fst r) < snd (fst r)) -> Painted g e out ->
  concat (map fl out) = imap (fun i u => foldl (fun u r => if decide (fst (fst r) <= i < snd (fst r)) then gu u (snd r) else u) u g) (fl e).
Proof using fu_ok.
  intros Hgu HR (ps & HV & Hfl & -> & He). rewrite <- Hfl. clear Hfl.
  set (h := fun i u => foldl (fun u (r : rg) => if decide (fst (fst r) <= i < snd (fst r)) then gu u (snd r) else u) u g).
  assert (HI : forall k, bound g k -> k <= 0 \/ k ∈ ends 0 ps). { intros k Hk. destruct (decide (k = 0)); [left; lia|right; apply He; tauto]. }
  clear He. enough (HH : forall s, (forall k, bound g k -> k <= s \/ k ∈ ends s ps) -> concat (map fl (paint g s ps)) = imap (fun i u => h (s + i) u) (concat (map fl ps))).
  { rewrite (HH 0 HI). done. }
  clear HI. induction ps as [|p ps IH]; intros s HI; [done|]. apply Forall_cons in HV as [Vp HV]. rewrite paint_cons. cbn [map concat]. rewrite imap_app.
  assert (Hends : forall ps' s' k, k ∈ ends s' ps' -> s' <= k). { clear. induction ps' as [|p ps' IH]; intros s' k Hk; cbn [ends] in Hk; [by apply elem_of_nil in Hk|]. apply elem_of_cons in Hk as [->|Hk]; [lia|]. apply IH in Hk. lia. }
  f_equal.
  - assert (Hap : forall P g' e', evalid L e' -> fl (apply_args fu P g' e') = map (fun u => foldl (fun u r => if P r then gu u (snd r) else u) u g') (fl e')).
    { clear -fu_ok Hgu. intros P g'. unfold apply_args. induction g' as [|r g' IH]; intros e' V'; cbn [foldl]; [by rewrite map_id|]. destruct (P r).
      - rewrite IH by auto. rewrite Hgu by done. rewrite map_map. done.
      - by apply IH. }
    rewrite Hap by done. apply list_eq. intros i. rewrite list_lookup_imap. change (map ?f ?l) with (f <$> l). rewrite list_lookup_fmap.
    destruct (fl p !! i) as [u|] eqn:Eu; [|done]. cbn. f_equal. apply lookup_lt_Some in Eu. rewrite (fl_len L U F p Vp) in Eu. unfold h. clear -HI Eu Hends HR.
    assert (Hg : forall r, r ∈ g -> (covers s (rle_len p) r = true <-> fst (fst r) <= s + i < snd (fst r))).
    { intros r Hr. unfold covers. rewrite andb_true_iff, !bool_decide_eq_true. split; [lia|]. intros Hx.
      assert (Hb : forall k, bound g k -> k <= s \/ s + rle_len p <= k). { intros k Hk. destruct (HI k Hk) as [?|Hk']; [by left|right]. cbn [ends] in Hk'. apply elem_of_cons in Hk' as [->|Hk']; [lia|]. by apply Hends in Hk'. }
      destruct (Hb (fst (fst r))) as [?|?]; [exists r; tauto| |lia]. destruct (Hb (snd (fst r))) as [?|?]; [exists r; tauto|lia|lia]. }
    revert u. induction g as [|r g IH]; intros u; [done|]. cbn [foldl].
    replace (if covers s (rle_len p) r then gu u (snd r) else u) with (if decide (fst (fst r) <= s + i < snd (fst r)) then gu u (snd r) else u).
    2: { pose proof (Hg r ltac:(left)) as Hr. destruct (decide _) as [Ed|Ed].
      - by rewrite (proj2 Hr Ed).
      - destruct (covers s (rle_len p) r) eqn:Ec; [|done]. destruct Ed. by apply Hr. }
    apply IH.
    + intros r' Hr'. apply HR. by right.
    + intros k (r' & Hr' & Hk). apply HI. exists r'. split; [by right|done].
    + intros r' Hr'. apply Hg. by right.
  - rewrite (IH HV (s + rle_len p)).
    + rewrite (fl_len L U F p Vp). apply imap_ext. intros i u _. cbn. f_equal. lia.
    + intros k Hk. destruct (HI k Hk) as [?|Hk']; [left; lia|]. cbn [ends] in Hk'. apply elem_of_cons in Hk' as [->|Hk']; [left; lia|by right].
Qed.

Definition unit_at (gu : U -> A -> U) (g : list rg) (i : nat) (u : U) : U :=
  foldl (fun u r => if decide (fst (fst r) <= i < snd (fst r)) then gu u (snd r) else u) u g.
Theorem t_ranges_units (gu : U -> A -> U) ord ord2 t xs (args : list (nat * rg)) : Tree t xs -> xs <> [] -> @USE_DIFF B = true ->
  (forall l, ord l ≡ₚ l) -> (forall l, ord2 l ≡ₚ l) ->
  (forall e a, evalid L e -> fl (fu e a) = map (fun u => gu u a) (fl e)) ->
  (forall l r, (l, r) ∈ args -> exists e, (l, e) ∈ xs /\ fst (fst r) < snd (fst r) <= rle_len e) ->
  exists nl t' Rs, update_leaves_with_arg_in_ranges fu ord ord2 t args = Ok (nl, t') /\ Tree t' (concat Rs) /\
    Forall2 (fun x R => ft R = imap (unit_at gu (of_key (fst x) args)) (fl (snd x)) /\ fst x ∈ R.*1) xs Rs.
Proof using fu_ok.
  intros T Hne HD Ho Ho2 Hgu Hargs. destruct (t_ranges ord ord2 t xs args T Hne HD Ho Ho2 Hargs) as (nl & t' & Rs & E & T' & HP & _).
  exists nl, t', Rs. split; [done|]. split; [done|]. clear -HP Hgu fu_ok Hargs.
  assert (HR : forall l r, (l, r) ∈ args -> fst (fst r) < snd (fst r)). { intros l r Hr. destruct (Hargs l r Hr) as (? & _ & ?). lia. }
  clear Hargs. induction HP as [|[l e] R xs Rs ((out & HPx & Hft) & Hl & _) HP IH]; [done|]. constructor; [|done]. split; [|done]. rewrite Hft. cbn [fst snd] in *.
  apply (painted_units gu (of_key l args)); [done| |done]. intros r Hr. unfold of_key in Hr. apply elem_of_list_fmap in Hr as ([k' r'] & -> & Hr). apply elem_of_list_filter in Hr as [_ Hr]. by eapply HR.
Qed.
End ranges.
