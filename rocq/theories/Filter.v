(** Filter.v — iter_with_filter (lib.rs:2650-2678) for pure filters. *)
From Verif Require Export Visit Drain1.

(** ** the bound on the number of visited nodes *)
Section count.
Context {B : BTreeTrait}.
Notation btree := (btree B).
Implicit Types (t : btree) (a b : aidx) (n i : nat).

(** number of nodes at most [n] generations below [a] *)
Fixpoint szn t n a : nat := match n with 0 => 1 | S n' => S (sum_list (map (szn t n') (achs t a))) end.
Lemma chs_get t i (n : node B) : a_get (in_nodes t) i = Some n -> chs t i = map c_arena (n_children n).
Proof. intros E. unfold chs, kids. by rewrite E. Qed.
Lemma sum_keys ks : forall t, NoDup ks -> sum_list (map (fun i => length (chs t i)) ks) <= total_children t.
Proof.
  induction ks as [|k ks IH]; intros t Hnd; cbn; [lia|]. apply NoDup_cons in Hnd as [Hk Hnd].
  destruct (a_get (in_nodes t) k) as [n|] eqn:E.
  - rewrite (total_children_rem t k n E). rewrite (chs_get _ _ _ E), map_length.
    assert (sum_list (map (fun i => length (chs t i)) ks) = sum_list (map (fun i => length (chs (rem_in t k) i)) ks)) as ->.
    { f_equal. apply map_ext_in. intros i Hi%elem_of_list_In. f_equal. unfold chs, kids, rem_in, a_remove, a_get. cbn.
      rewrite lookup_delete_ne; [done|]. by intros ->. }
    specialize (IH (rem_in t k) Hnd). lia.
  - assert (chs t k = []) as -> by (unfold chs, kids; by rewrite E). cbn. by apply IH.
Qed.
Definition ids (l : list aidx) : list nat := omap (fun a => match a with AInt i => Some i | ALeaf _ => None end) l.
Lemma ids_elem l i : i ∈ ids l <-> AInt i ∈ l.
Proof.
  unfold ids. rewrite elem_of_list_omap. split.
  - intros ([x|x] & Hx & E); [done|]. by injection E as ->.
  - intros H. by exists (AInt i).
Qed.
Lemma ids_nodup l : NoDup l -> NoDup (ids l).
Proof.
  induction 1 as [|[x|x] l Hx _ IH]; cbn; [constructor|done|]. constructor; [|done]. intros H. by apply Hx, ids_elem.
Qed.
Lemma ids_sum t l : sum_list (map (fun a => length (achs t a)) l) = sum_list (map (fun i => length (chs t i)) (ids l)).
Proof. induction l as [|[x|x] l IH]; cbn; [done|done|]. by rewrite IH. Qed.
Lemma bind_length t (l : list aidx) : length (l ≫= achs t) = sum_list (map (fun a => length (achs t a)) l).
Proof. induction l as [|a l IH]; [done|]. cbn. rewrite app_length. f_equal. exact IH. Qed.
Lemma sum_app (l1 l2 : list nat) : sum_list (l1 ++ l2) = sum_list l1 + sum_list l2.
Proof. induction l1; cbn; lia. Qed.

(** the size of a subtree as the total length of its rows *)
Fixpoint rows t n a : list aidx := match n with 0 => gen t 0 a | S n' => rows t n' a ++ gen t (S n') a end.
Lemma szn_list t n : forall l, sum_list (map (szn t n) l) = sum_list (map (fun k => length (l ≫= gen t k)) (seq 0 (S n))).
Proof.
  induction n as [|n IH]; intros l.
  - cbn. induction l as [|a l IHl]; [done|]. cbn in *. rewrite IHl. lia.
  - change (seq 0 (S (S n))) with (0 :: seq 1 (S n)). cbn [map sum_list]. rewrite <- seq_shift, map_map.
    change (foldr Nat.add 0) with sum_list.
    assert (sum_list (map (szn t (S n)) l) = length (l ≫= gen t 0) + sum_list (map (szn t n) (l ≫= achs t))) as ->.
    { clear IH. induction l as [|a l IHl]; [done|]. cbn [map]. change (sum_list (szn t (S n) a :: map (szn t (S n)) l)) with (szn t (S n) a + sum_list (map (szn t (S n)) l)).
      rewrite IHl. change ((a :: l) ≫= achs t) with (achs t a ++ (l ≫= achs t)). rewrite map_app, sum_app. cbn. lia. }
    f_equal. rewrite IH. f_equal. apply map_ext_in. intros k _. f_equal. clear.
    induction l as [|a l IHl]; [done|]. change ((a :: l) ≫= achs t) with (achs t a ++ (l ≫= achs t)). rewrite bind_app, IHl. done.
Qed.
Lemma szn_root t H lv : WT NoE t H lv -> szn t (S H) (root t) <= S (total_children t).
Proof.
  intros W. pose proof (szn_list t (S H) [root t]) as E. cbn [map] in E. change (sum_list [szn t (S H) (root t)]) with (szn t (S H) (root t) + 0) in E.
  rewrite Nat.add_0_r in E. rewrite E. clear E.
  change (seq 0 (S (S H))) with (0 :: seq 1 (S H)). cbn [map]. rewrite <- seq_shift, map_map.
  change (sum_list (?x :: ?l)) with (x + sum_list l).
  assert (length ([root t] ≫= gen t 0) = 1) as -> by done. cbn [Nat.add]. apply le_n_S.
  set (ks := concat (map (fun k => ids (gen t k (root t))) (seq 0 (S H)))).
  assert (sum_list (map (fun k => length ([root t] ≫= gen t (S k))) (seq 0 (S H))) = sum_list (map (fun i => length (chs t i)) ks)) as ->.
  { unfold ks. generalize (seq 0 (S H)) as ns. induction ns as [|k ns IH]; [done|]. cbn [map concat]. rewrite map_app, sum_app.
    change (sum_list (?x :: ?l)) with (x + sum_list l). rewrite IH. f_equal.
    rewrite <- ids_sum, <- bind_length, <- gen_S_r. cbn. by rewrite app_nil_r. }
  apply sum_keys. unfold ks. clear ks.
  assert (forall n, NoDup (concat (map (fun k => ids (gen t k (root t))) (seq 0 n))) /\
    forall i, i ∈ concat (map (fun k => ids (gen t k (root t))) (seq 0 n)) -> live t (AInt i) /\ S H < alv lv (AInt i) + n) as G; [|apply G].
  induction n as [|n [IH1 IH2]]; [split; [constructor|by intros i Hi%elem_of_nil]|].
  rewrite seq_S, map_app, concat_app. cbn [map concat Nat.add]. rewrite app_nil_r.
  assert (forall i, i ∈ ids (gen t n (root t)) -> live t (AInt i) /\ alv lv (AInt i) + n = S H) as Hrow.
  { intros i Hi%ids_elem. apply (gen_live W) in Hi as [Hl Hi]; [|apply (root_live W)]. rewrite (alv_root W) in Hi. done. }
  split.
  - apply NoDup_app. split_and!; [done| |].
    + intros i Hi Hi2. apply IH2 in Hi as [_ Hi]. apply Hrow in Hi2 as [_ Hi2]. lia.
    + apply ids_nodup, (gen_nodup W), (root_live W).
  - intros i [Hi|Hi]%elem_of_app; [apply IH2 in Hi as [? ?]|apply Hrow in Hi as [? ?]]; (split; [done|lia]).
Qed.
End count.

(** ** specification: which leaves a filter [fu] accepts below a node, with which offsets.  A
    child is entered iff the filter accepts its cache, with the offset of the node plus the
    contributions of all children left of it (entered or not). *)
Section spec.
Context {B : BTreeTrait} {R : Type} (radd : R -> R -> R) (fu : Cache B -> bool * R).
Inductive Filt (t : btree B) : aidx -> R -> list (R * Elem B) -> Prop :=
| Fi_leaf l lf r : a_get (leaf_nodes t) l = Some lf -> Filt t (ALeaf l) r [(r, l_elem lf)]
| Fi_int i n r out : a_get (in_nodes t) i = Some n -> Filts t (n_children n) r out -> Filt t (AInt i) r out
with Filts (t : btree B) : list (child B) -> R -> list (R * Elem B) -> Prop :=
| Fs_nil r : Filts t [] r []
| Fs_in c cs r o1 o2 : fst (fu (c_cache c)) = true -> Filt t (c_arena c) r o1 ->
    Filts t cs (radd r (snd (fu (c_cache c)))) o2 -> Filts t (c :: cs) r (o1 ++ o2)
| Fs_out c cs r o : fst (fu (c_cache c)) = false -> Filts t cs (radd r (snd (fu (c_cache c)))) o -> Filts t (c :: cs) r o.
(** for a filter that respects the aggregation: the accepted elements, each with the offset [r]
    plus the contributions of all elements left of it *)
Fixpoint hits (r : R) (xs : list (nat * Elem B)) : list (R * Elem B) :=
  match xs with
  | [] => []
  | (_, e) :: xs' => (if fst (fu (get_elem_cache e)) then [(r, e)] else []) ++ hits (radd r (snd (fu (get_elem_cache e)))) xs'
  end.
End spec.

Section filt.
Context {B : BTreeTrait} (L : Lawful B) {R : Type} (r0 : R) (radd : R -> R -> R) (fu : Cache B -> bool * R) {S0 : Type}.
Notation btree := (btree B).
Notation child := (child B).
Notation fup := (fun (s : S0) c => (s, fu c)).
Implicit Types (t : btree) (q : list (aidx * R)) (cs : list child).

Fixpoint kidsf cs (r : R) : list (aidx * R) :=
  match cs with
  | [] => []
  | c :: cs' => (if fst (fu (c_cache c)) then [(c_arena c, r)] else []) ++ kidsf cs' (radd r (snd (fu (c_cache c))))
  end.
Lemma iwf_children_pure cs : forall s r, iwf_children radd fup cs s r = (s, kidsf cs r).
Proof.
  induction cs as [|c cs IH]; intros s r; [done|]. cbn. destruct (fu (c_cache c)) as [b nr]. rewrite IH. cbn. by destruct b.
Qed.
Definition expand t (y : aidx * R) : list (aidx * R) :=
  match fst y with AInt i => kidsf (default [] (kids t i)) (snd y) | ALeaf _ => [] end.
Fixpoint fsp t n (y : aidx * R) : list (aidx * R) := match n with 0 => [y] | S n' => expand t y ≫= fsp t n' end.
Definition lout t (y : aidx * R) : list (R * Elem B) :=
  match fst y with ALeaf l => match el t l with Some e => [(snd y, e)] | None => [] end | AInt _ => [] end.

Lemma kidsf_elem cs : forall r y, y ∈ kidsf cs r -> exists c, c ∈ cs /\ c_arena c = fst y.
Proof.
  induction cs as [|c cs IH]; intros r y Hy; cbn in Hy; [by apply elem_of_nil in Hy|]. apply elem_of_app in Hy as [Hy|Hy].
  - destruct (fst (fu (c_cache c))); [|by apply elem_of_nil in Hy]. apply elem_of_list_singleton in Hy as ->. exists c. split; [left|done].
  - destruct (IH _ _ Hy) as (c' & ? & ?). exists c'. split; [by right|done].
Qed.
Lemma kidsf_sum t n cs : forall r, sum_list (map (fun y => szn t n (fst y)) (kidsf cs r)) <= sum_list (map (szn t n) (map c_arena cs)).
Proof.
  induction cs as [|c cs IH]; intros r; cbn; [lia|]. rewrite map_app, sum_app. specialize (IH (radd r (snd (fu (c_cache c))))).
  destruct (fst (fu (c_cache c))); cbn in *; lia.
Qed.
Lemma expand_live t H lv y n : WT NoE t H lv -> alv lv (fst y) = S n -> forall z, z ∈ expand t y -> live t (fst z) /\ alv lv (fst z) = n.
Proof.
  intros W Hy z Hz. unfold expand in Hz. destruct (fst y) as [l|i] eqn:Ey; [by apply elem_of_nil in Hz|].
  apply kidsf_elem in Hz as (c & Hc & E). destruct (achs_wt W (AInt i) (fst z)) as [? ?].
  - cbn. unfold chs. rewrite <- E. destruct (kids t i) as [cs|]; cbn in *; [|by apply elem_of_nil in Hc]. by apply elem_of_list_fmap_1.
  - split; [done|]. lia.
Qed.

Lemma iwf_run t H lv : WT NoE t H lv -> forall n q f (s : S0), (forall y, y ∈ q -> live t (fst y) /\ alv lv (fst y) = n) ->
  sum_list (map (fun y => szn t n (fst y)) q) <= f -> iwf_f radd fup f t q s = Ok (s, (q ≫= fsp t n) ≫= lout t).
Proof.
  intros W. induction n as [|n IHn].
  - induction q as [|[x r] q IH]; intros f s Hq Hf; [by destruct f|]. destruct f as [|f]; [cbn in Hf; lia|]. cbn [iwf_f].
    destruct (Hq (x, r)) as [Hl Hx]; [left|]. cbn in Hl, Hx. destruct x as [l|i]; [|done]. cbn in Hl. destruct (live_get_lf t l Hl) as [lf Hg].
    rewrite Hg. cbn [rbind]. rewrite IH; [|intros y Hy; apply Hq; by right|apply le_S_n; exact Hf]. cbn [rbind].
    apply get_lf_inv in Hg as [He _]. do 2 f_equal. cbn. unfold lout at 2. cbn. rewrite He. done.
  - assert (forall q1 q2 f (s : S0), (forall y, y ∈ q1 -> live t (fst y) /\ alv lv (fst y) = S n) -> (forall y, y ∈ q2 -> live t (fst y) /\ alv lv (fst y) = n) ->
      sum_list (map (fun y => szn t (S n) (fst y)) q1) + sum_list (map (fun y => szn t n (fst y)) q2) <= f ->
      iwf_f radd fup f t (q1 ++ q2) s = Ok (s, ((q2 ++ (q1 ≫= expand t)) ≫= fsp t n) ≫= lout t)) as G.
    { induction q1 as [|[x r] q1 IH1]; intros q2 f s H1 H2 Hf.
      - cbn [app]. change ([] ≫= expand t) with (@nil (aidx * R)). rewrite app_nil_r. apply IHn; [done|]. cbn in Hf. lia.
      - destruct f as [|f]; [cbn in Hf; lia|]. destruct (H1 (x, r)) as [Hl Hx]; [left|]. cbn in Hl, Hx. destruct x as [l|i]; [done|].
        cbn [app iwf_f]. destruct (live_get_in t i Hl) as [nd Hg]. rewrite Hg. cbn [rbind]. apply get_in_inv in Hg as [Hk _].
        rewrite iwf_children_pure. rewrite <- app_assoc. rewrite IH1.
        + do 2 f_equal. change (((AInt i, r) :: q1) ≫= expand t) with (expand t (AInt i, r) ++ (q1 ≫= expand t)).
          unfold expand at 2. cbn [fst snd]. rewrite Hk. cbn [default]. by rewrite <- app_assoc.
        + intros y Hy. apply H1. by right.
        + intros y [Hy|Hy]%elem_of_app; [by apply H2|]. apply (expand_live t H lv (AInt i, r) n W); [done|]. unfold expand. cbn. by rewrite Hk.
        + rewrite map_app, sum_app. pose proof (kidsf_sum t n (n_children nd) r) as HS. cbn [map] in Hf.
          change (sum_list (?a :: ?l)) with (a + sum_list l) in Hf. cbn [fst szn achs] in Hf. rewrite (chs_kids _ _ _ Hk) in Hf. cbn [szn]. lia. }
    intros q f s Hq Hf. specialize (G q [] f s Hq). rewrite app_nil_r in G. rewrite G; [|by intros y Hy%elem_of_nil|cbn [map]; rewrite Nat.add_0_r; exact Hf].
    do 2 f_equal. cbn [app]. f_equal. clear. induction q as [|y q IH]; [done|].
    change ((y :: q) ≫= expand t) with (expand t y ++ (q ≫= expand t)). rewrite bind_app, IH. done.
Qed.

(** the breadth-first traversal yields what the specification says, since all leaves are at the same depth *)
Lemma fsp_spec t H lv : WT NoE t H lv -> forall n x r, live t x -> alv lv x = n -> Filt radd fu t x r (fsp t n (x, r) ≫= lout t).
Proof.
  intros W. induction n as [|n IH]; intros x r Hx Hn.
  - destruct x as [l|i]; [|done]. cbn in Hx. destruct (live_get_lf t l Hx) as [lf Hg]. pose proof (get_lf_inv _ _ _ Hg) as [He _].
    unfold get_lf in Hg. destruct (a_get (leaf_nodes t) l) as [lf'|] eqn:E; [|done]. injection Hg as ->.
    cbn. unfold lout. cbn. rewrite He. cbn. by constructor.
  - destruct x as [l|i]; [done|]. cbn in Hx. destruct (live_get_in t i Hx) as [nd Hg]. pose proof (get_in_inv _ _ _ Hg) as [Hk _].
    unfold get_in in Hg. destruct (a_get (in_nodes t) i) as [nd'|] eqn:E; [|done]. injection Hg as ->.
    econstructor; [exact E|]. cbn [fsp]. unfold expand. cbn [fst snd]. rewrite Hk. change (default [] (Some (n_children nd))) with (n_children nd).
    assert (forall c, c ∈ n_children nd -> live t (c_arena c) /\ alv lv (c_arena c) = n) as Hc.
    { intros c Hc. destruct (achs_wt W (AInt i) (c_arena c)) as [? ?]; [|split; [done|lia]]. cbn. rewrite (chs_kids _ _ _ Hk). by apply elem_of_list_fmap_1. }
    clear E Hk. generalize dependent r. induction (n_children nd) as [|c cs IHc]; intros r; cbn [kidsf]; [constructor|].
    destruct (fst (fu (c_cache c))) eqn:Ef.
    + cbn [app]. change (((c_arena c, r) :: kidsf cs (radd r (snd (fu (c_cache c))))) ≫= fsp t n) with
        (fsp t n (c_arena c, r) ++ (kidsf cs (radd r (snd (fu (c_cache c)))) ≫= fsp t n)).
      rewrite bind_app. destruct (Hc c) as [H1 H2]; [left|]. apply Fs_in; [done|by apply IH|]. apply IHc. intros c' ?. apply Hc. by right.
    + cbn [app]. apply Fs_out; [done|]. apply IHc. intros c' ?. apply Hc. by right.
Qed.
Theorem t_filter t xs (s : S0) : Tree L t xs -> exists out, iter_with_filter r0 radd fup t s = Ok (s, out) /\ Filt radd fu t (root t) r0 out.
Proof.
  intros T. destruct (Tree_OK L _ _ T) as (H & lv & O & _). pose proof (ok_wt _ _ _ _ O) as W.
  eexists. split.
  - unfold iter_with_filter. apply (iwf_run t H lv W (S H)).
    + intros y ->%elem_of_list_singleton. cbn [fst]. split; [apply (root_live W)|apply (alv_root W)].
    + cbn [map fst]. change (sum_list [szn t (S H) (root t)]) with (szn t (S H) (root t) + 0). pose proof (szn_root t H lv W). lia.
  - replace ([(root t, r0)] ≫= fsp t (S H)) with (fsp t (S H) (root t, r0)) by (cbn; by rewrite app_nil_r).
    apply (fsp_spec t H lv W); [apply (root_live W)|apply (alv_root W)].
Qed.

(** a filter that respects the aggregation *)
Record FiltLaw (P : Elem B -> Prop) : Prop := {
  fl_up : forall ys l e, (forall l' e', (l', e') ∈ ys -> P e') -> (l, e) ∈ ys -> fst (fu (get_elem_cache e)) = true -> fst (fu (agg L ys)) = true;
  fl_add : forall ys r, (forall l' e', (l', e') ∈ ys -> P e') -> ys <> [] ->
    radd r (snd (fu (agg L ys))) = fold_left (fun r x => radd r (snd (fu (get_elem_cache (snd x))))) ys r;
}.
Lemma hits_app ys : forall r zs, hits radd fu r (ys ++ zs) = hits radd fu r ys ++ hits radd fu (fold_left (fun r x => radd r (snd (fu (get_elem_cache (snd x))))) ys r) zs.
Proof. induction ys as [|[l e] ys IH]; intros r zs; [done|]. cbn. rewrite IH. by rewrite <- app_assoc. Qed.
Lemma hits_none ys : forall r, (forall l e, (l, e) ∈ ys -> fst (fu (get_elem_cache e)) = false) -> hits radd fu r ys = [].
Proof.
  induction ys as [|[l e] ys IH]; intros r Hn; [done|]. cbn. rewrite (Hn l e) by left. apply IH. intros l' e' ?. apply (Hn l'). by right.
Qed.
Lemma filt_hits t D xs (HL : FiltLaw (evalid L)) : Intact L t D xs -> forall d a ys r out, InOrder t a d ys -> (forall l e, (l, e) ∈ ys -> evalid L e) ->
  Filt radd fu t a r out -> out = hits radd fu r ys \/ exists l, a = ALeaf l.
Proof.
  intros I. induction d as [|d IH]; intros a ys r out Hio V HF.
  - inversion Hio; subst. right. eauto.
  - destruct a as [l|i]; [right; eauto|]. left. inversion HF as [|? n ? ? Hn Hfs]; subst.
    destruct (node_segs L _ _ _ _ _ _ _ I Hn Hio) as (d' & ss & E & Fss & <-). injection E as <-. clear HF Hio Hn.
    revert r out Hfs. induction Fss as [|c s cs ss [Hs1 [Hs2 Hs3]] Fss IHs]; intros r out Hfs; inversion Hfs as [|? ? ? o1 o2 Hb Hf1 Hf2|? ? ? o Hb Hf2]; subst; [done| |].
    + cbn [concat]. rewrite hits_app. rewrite Hs3 in Hf2. rewrite (fl_add _ HL) in Hf2; [|intros l e ?; apply (V l e); apply elem_of_app; by left|done].
      f_equal; [|apply IHs; [intros l e ?; apply (V l e); apply elem_of_app; by right|done]].
      destruct (IH _ _ _ _ Hs1 ltac:(intros l e ?; apply (V l e); apply elem_of_app; by left) Hf1) as [->|[l El]]; [done|].
      rewrite El in Hf1, Hs1. inversion Hs1 as [? lf Hlf|]; subst. inversion Hf1 as [? lf' ? Hlf'|]; subst.
      assert (lf' = lf) as -> by congruence. cbn. rewrite Hs3 in Hb. unfold agg in Hb. cbn in Hb.
      rewrite (lw_one _ L) in Hb; [by rewrite Hb|]. apply (lw_get _ L). apply (V l). apply elem_of_app. left. by left.
    + cbn [concat]. rewrite hits_app. rewrite Hs3 in Hf2. rewrite (fl_add _ HL) in Hf2; [|intros l e ?; apply (V l e); apply elem_of_app; by left|done].
      rewrite hits_none; [apply IHs; [intros l e ?; apply (V l e); apply elem_of_app; by right|done]|].
      intros l e Hle. destruct (fst (fu (get_elem_cache e))) eqn:Ee; [|done]. exfalso.
      assert (fst (fu (agg L s)) = true); [|rewrite Hs3 in Hb; congruence].
      apply (fl_up _ HL s l e); [|done|done]. intros l' e' ?. apply (V l' e'). apply elem_of_app. by left.
Qed.
Theorem t_filter_hits t xs (s : S0) : Tree L t xs -> FiltLaw (evalid L) -> iter_with_filter r0 radd fup t s = Ok (s, hits radd fu r0 xs).
Proof.
  intros T HL. destruct (t_filter t xs s T) as (out & -> & HF). do 2 f_equal. destruct T as [D I].
  destruct (filt_hits t D xs HL I D (root t) xs r0 out (in_order _ _ _ _ I)) as [->|[l El]]; [|done|done|].
  - intros l e. apply (in_valid _ _ _ _ I).
  - destruct (in_top _ _ _ _ I) as (r & rn & E & _). congruence.
Qed.
End filt.
