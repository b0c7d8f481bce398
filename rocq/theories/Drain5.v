(** Drain5.v — drain as a whole: taking, finishing, dropping. *)
From Verif Require Export Drain4.

Section take.
Context {B : BTreeTrait}.
Notation btree := (btree B).
Implicit Types (t : btree) (i j m p q k : nat) (a b : aidx).

(** removing the leaves [R] from the arena *)
Definition rem_all t (R : list nat) : btree := foldl rem_lf t R.
Lemma rem_all_in t R : in_nodes (rem_all t R) = in_nodes t.
Proof. revert t. induction R as [|l R IH]; intros t; [done|]. change (rem_all t (l :: R)) with (rem_all (rem_lf t l) R). by rewrite IH. Qed.
Lemma rem_all_root t R : root (rem_all t R) = root t /\ root_cache (rem_all t R) = root_cache t /\ anext (leaf_nodes (rem_all t R)) = anext (leaf_nodes t).
Proof. revert t. induction R as [|l R IH]; intros t; [done|]. change (rem_all t (l :: R)) with (rem_all (rem_lf t l) R). destruct (IH (rem_lf t l)) as (-> & -> & ->). done. Qed.
Lemma rem_all_el t R l : el (rem_all t R) l = if decide (l ∈ R) then None else el t l.
Proof.
  revert t. induction R as [|x R IH]; intros t; [done|]. change (rem_all t (x :: R)) with (rem_all (rem_lf t x) R). rewrite IH, el_rem_lf. repeat case_decide; try done; exfalso; subst; set_solver.
Qed.
Lemma rem_all_llnk t R l : llnk (rem_all t R) l = if decide (l ∈ R) then None else llnk t l.
Proof.
  revert t. induction R as [|x R IH]; intros t; [done|]. change (rem_all t (x :: R)) with (rem_all (rem_lf t x) R). rewrite IH, llnk_rem_lf. repeat case_decide; try done; exfalso; subst; set_solver.
Qed.
Lemma next_sib_in t t' : in_nodes t' = in_nodes t -> forall r, next_sibling_rev t' r = next_sibling_rev t r.
Proof.
  intros E. assert (G : forall a, get_internal t' a = get_internal t a).
  { intros a. unfold get_internal. destruct a; [done|]. cbn. unfold get_in. by rewrite E. }
  induction r as [|x r IH]; [done|]. cbn [next_sibling_rev]. destruct r as [|y r]; [done|]. rewrite G.
  destruct (get_internal t (i_arena y)) as [pn| |]; [|done|done]. cbn [rbind]. destruct (n_children pn !! _); [done|].
  rewrite IH. destruct (next_sibling_rev t (y :: r)) as [[r'|]| |]; [|done|done|done]. cbn [rbind].
  destruct (ropt (head r')) as [par| |]; [|done|done]. cbn [rbind]. by rewrite G.
Qed.

Context {t : btree} {H : nat} {lv : nat -> nat} (W : WT NoE t H lv) (K : LK t).
Context (A M Z : list (nat * Elem B)) (HL : leaves t = (A ++ M ++ Z).*1) (Hel : forall l e, (l, e) ∈ A ++ M ++ Z -> el t l = Some e).

Record DS (R Q : list (nat * Elem B)) (st : option temp_store) (d : drain) : Prop := {
  ds_M : M = R ++ Q;
  ds_tree : dr_tree d = rem_all t R.*1;
  ds_end : dr_end d = (fun y => mkCur (fst y) 0) <$> head Z;
  ds_store : dr_store d = st;
  ds_pos : match head (Q ++ Z) with
           | Some (l, _) => dr_done d = false /\ rpath t (rev (dr_path d)) (ALeaf l)
           | None => dr_done d = true
           end;
}.

Lemma dnd : NoDup (A ++ M ++ Z).*1.
Proof. rewrite <- HL. apply (leaves_nodup W). Qed.
Lemma rpath_last path l : rpath t (rev path) (ALeaf l) -> exists k, last path = Some (mkIdx (ALeaf l) k).
Proof.
  intros Hr. destruct (rpath_head _ _ _ Hr) as (k & r' & E). exists k. rewrite <- (rev_involutive path), E. cbn. by rewrite last_snoc.
Qed.
Lemma drain_next_stop R st d : DS R [] st d -> drain_next d = Ok (None, d).
Proof.
  intros D. unfold drain_next. pose proof (ds_pos _ _ _ _ D) as P. cbn [app] in P. pose proof (ds_end _ _ _ _ D) as E. destruct Z as [|[l e] Z']; cbn in P, E.
  - by rewrite P.
  - destruct P as [-> P]. destruct (rpath_last _ _ P) as [k ->]. cbn [ropt rbind i_arena unwrap_leaf]. rewrite E. cbn [fmap option_fmap option_map cu_leaf fst].
    by rewrite bool_decide_eq_true_2.
Qed.
Lemma drain_next_ok R q e Q st d : DS R ((q, e) :: Q) st d ->
  exists d', drain_next d = Ok (Some e, d') /\ DS (R ++ [(q, e)]) Q st d'.
Proof.
  intros D. unfold drain_next. pose proof (ds_pos _ _ _ _ D) as P. cbn [app head] in P. destruct P as [-> P].
  destruct (rpath_last _ _ P) as [k ->]. cbn [ropt rbind i_arena unwrap_leaf]. rewrite (ds_end _ _ _ _ D).
  pose proof dnd as N. pose proof (ds_M _ _ _ _ D) as EM. rewrite EM in N.
  assert (Hz : forall z, head Z = Some z -> fst z <> q).
  { intros [z ez] Hz Heq. cbn in Heq. subst z. destruct Z as [|[z' ez'] Z']; [done|]. injection Hz as -> ->.
    rewrite !fmap_app in N. apply NoDup_app in N as (_ & _ & N). apply NoDup_app in N as (_ & N & _). apply (N q); rewrite ?fmap_app; cbn; clear; set_solver. }
  rewrite bool_decide_eq_false_2.
  2:{ destruct (head Z) as [z|] eqn:Ez; [|done]. cbn. intros [= Hq]. by apply (Hz z). }
  assert (Hqe : el t q = Some e). { apply Hel. rewrite EM. clear; set_solver. }
  assert (HqR : q ∉ R.*1).
  { intros HqR. rewrite !fmap_app in N. apply NoDup_app in N as (_ & _ & N). apply NoDup_app in N as (N & _). cbn in N.
    apply NoDup_app in N as (_ & N & _). apply (N q HqR). clear; set_solver. }
  assert (exists p, llnk t q = Some p) as [p Hp].
  { destruct (wt_up W (ALeaf q)) as (p & k' & Hp); [cbn; eauto|by rewrite (wt_root_id W)|]. exists p. apply (lk_ch K _ _ _ Hp). }
  rewrite (ds_tree _ _ _ _ D).
  assert (get_lf (rem_all t R.*1) q = Ok (mkLeaf e p)) as Hg.
  { apply get_lf_proj; [rewrite rem_all_el|rewrite rem_all_llnk]; by rewrite decide_False. }
  unfold next_sibling at 1. rewrite (next_sib_in t) by apply rem_all_in.
  change (let? o := next_sibling_rev t (rev (dr_path d)) in Ok (@rev idx <$> o)) with (next_sibling t (dr_path d)).
  pose proof (next_sibling_ok W K (dr_path d) (ALeaf q) (S H) (map ALeaf (A ++ R).*1) (map ALeaf (Q ++ Z).*1) P ltac:(lia)) as X.
  assert (Hg1 : gen t (S H) (root t) = map ALeaf (A ++ R).*1 ++ ALeaf q :: map ALeaf (Q ++ Z).*1).
  { rewrite <- (leaves_gen W), HL, EM, <- !app_assoc. rewrite (app_assoc A R), fmap_app, map_app. done. }
  assert (Hlen : length (dr_path d) = S (S H)).
  { rewrite <- rev_length. pose proof (rpath_len W _ _ P) as Hx. cbn in Hx. lia. }
  specialize (X Hg1 Hlen).
  assert (Hrem : rem_lf (rem_all t R.*1) q = rem_all t (R ++ [(q, e)]).*1).
  { unfold rem_all. rewrite fmap_app, foldl_app. done. }
  destruct (Q ++ Z) as [|[y ey] Y] eqn:EY; cbn [fmap list_fmap map fst] in X.
  - rewrite X. cbn [rbind]. rewrite Hg. cbn [rbind l_elem]. eexists. split; [done|]. rewrite Hrem. constructor; cbn [dr_tree dr_end dr_store dr_done dr_path].
    + by rewrite <- app_assoc.
    + done.
    + done.
    + apply (ds_store _ _ _ _ D).
    + by rewrite EY.
  - destruct X as (path' & X & Hp'). rewrite X. cbn [rbind]. rewrite Hg. cbn [rbind l_elem]. eexists. split; [done|].
    rewrite Hrem. constructor; cbn [dr_tree dr_end dr_store dr_done dr_path].
    + by rewrite <- app_assoc.
    + done.
    + done.
    + apply (ds_store _ _ _ _ D).
    + rewrite EY. done.
Qed.
Lemma drain_take_ok k : forall R Q st d, DS R Q st d ->
  exists d', drain_take k d = Ok (snd <$> take k Q, d') /\ DS (R ++ take k Q) (drop k Q) st d'.
Proof.
  induction k as [|k IH]; intros R Q st d D; cbn [drain_take].
  - exists d. rewrite app_nil_r. by destruct Q.
  - destruct Q as [|[q e] Q].
    + rewrite (drain_next_stop _ _ _ D). cbn. exists d. by rewrite app_nil_r.
    + destruct (drain_next_ok _ _ _ _ _ _ D) as (d1 & E1 & D1). rewrite E1. cbn [rbind].
      destruct (IH _ _ _ _ D1) as (d' & E' & D'). rewrite E'. cbn [rbind]. exists d'. cbn. split; [done|].
      rewrite <- app_assoc in D'. exact D'.
Qed.
Lemma drain_finish_ok Q : forall R st d f, DS R Q st d -> length Q < f -> exists d', drain_finish_f f d = Ok d' /\ DS (R ++ Q) [] st d'.
Proof.
  induction Q as [|[q e] Q IH]; intros R st d f D Hf; destruct f as [|f]; [cbn in Hf; lia| |cbn in Hf; lia|]; cbn [drain_finish_f].
  - rewrite (drain_next_stop _ _ _ D). cbn. exists d. by rewrite app_nil_r.
  - destruct (drain_next_ok _ _ _ _ _ _ D) as (d1 & E1 & D1). rewrite E1. cbn [rbind].
    destruct (IH _ _ _ f D1) as (d' & E' & D'); [cbn in Hf; lia|]. exists d'. split; [done|]. by rewrite <- app_assoc in D'.
Qed.
Lemma ds_len R Q st d : DS R Q st d -> length Q <= a_len (leaf_nodes (dr_tree d)).
Proof.
  intros D. pose proof dnd as N. rewrite (ds_M _ _ _ _ D) in N. rewrite (ds_tree _ _ _ _ D).
  rewrite !fmap_app in N. apply NoDup_app in N as (_ & _ & N). apply NoDup_app in N as (N & _ & _). apply NoDup_app in N as (_ & N1 & N).
  rewrite <- (fmap_length fst). unfold a_len. rewrite <- size_dom. rewrite <- (size_list_to_set (C := gset nat) Q.*1) by done.
  apply subseteq_size. intros l Hl%elem_of_list_to_set. apply elem_of_dom.
  assert (is_Some (el (rem_all t R.*1) l)) as Hx.
  { rewrite rem_all_el, decide_False by (intros Hr; by apply (N1 l)). apply elem_of_list_fmap in Hl as ([l' e] & -> & Hl).
    exists e. apply Hel. rewrite (ds_M _ _ _ _ D). clear -Hl. set_solver. }
  unfold el, a_get in Hx. destruct (amap _ !! l); [eauto|by destruct Hx].
Qed.
Lemma ensure_ok R Q st d : DS R Q st d -> exists d', ensure_finished d = Ok d' /\ DS M [] st d'.
Proof.
  intros D. unfold ensure_finished. destruct (drain_finish_ok Q R st d (S (S (a_len (leaf_nodes (dr_tree d))))) D) as (d' & E & D').
  - pose proof (ds_len _ _ _ _ D). lia.
  - exists d'. split; [done|]. by rewrite <- (ds_M _ _ _ _ D) in D'.
Qed.
Lemma LI_start : LI (t := t) (lv := lv) M.*1 [] (rem_all t M.*1) [].
Proof.
  destruct (rem_all_root t M.*1) as (R1 & R2 & R3). constructor.
  - done.
  - done.
  - by rewrite rem_all_in.
  - done.
  - apply rem_all_el.
  - apply rem_all_llnk.
  - intros i. rewrite decide_False by apply not_elem_of_nil. unfold kids. by rewrite rem_all_in.
  - intros i. unfold lnk. by rewrite rem_all_in.
  - intros p k m Hp. assert (chs t p !! k = Some (AInt m)) as Hp'.
    { unfold chs, kids in Hp |- *. by rewrite rem_all_in in Hp. }
    apply (lk_ch K) in Hp'. cbn in Hp'. unfold lnk in *. by rewrite rem_all_in.
  - by intros d ?%elem_of_nil.
  - by intros p m ?%elem_of_nil.
Qed.
End take.

Section whole.
Context {B : BTreeTrait} (L : Lawful B).
Notation btree := (btree B).
Notation OK := (OK L).
Notation Tree := (Tree L).
Implicit Types (t : btree) (i j m p q k : nat) (a b : aidx).

(** the part of Drain::new after the two splits *)
Definition drain_new2 t (st : cursor) (en : option cursor) : res drain :=
  let? sp := get_path t (ALeaf (cu_leaf st)) in
  let? el := match en with
             | Some c => Ok (cu_leaf c)
             | None => let? o := last_leaf t in ropt o
             end in
  let? ep := get_path t (ALeaf el) in
  let? slast := ropt (last sp) in
  let? before := if decide (cu_offset st = 0)
                 then prev_same_level_in_node t (i_arena slast)
                 else Ok (Some (i_arena slast)) in
  let? elast := ropt (last ep) in
  let? after := match en with
                | Some e =>
                    let? lf := get_lf t (cu_leaf e) in
                    if decide (rle_len (l_elem lf) = cu_offset e)
                    then next_same_level_in_node t (i_arena elast)
                    else Ok (Some (i_arena elast))
                | None => Ok None
                end in
  let? cp := get_path t (ALeaf (cu_leaf st)) in
  Ok (mkDrain t cp false en (Some (mkStore sp ep before after))).

Lemma last_lookup_path {X} (l : list X) n : length l = S n -> last l = l !! n.
Proof. intros E. rewrite last_lookup, E. done. Qed.

(** the leaf whose summaries are refreshed behind the hole: the end leaf, or the one after
    it if the end leaf is empty *)
Definition after_leaf (Z : list (nat * Elem B)) : option nat :=
  match Z with
  | [] => None
  | (l, e) :: Z' => if decide (rle_len e = 0) then fst <$> head Z' else Some l
  end.
Lemma after_leaf_in Z z : after_leaf Z = Some z -> z ∈ Z.*1.
Proof.
  destruct Z as [|[l e] Z]; [done|]. cbn. case_decide; [|intros [= ->]; left]. destruct Z as [|[l' e'] Z]; [done|]. cbn. intros [= ->]. right. left.
Qed.

Lemma drain_body_gen t A M Z : Tree t (A ++ M ++ Z) -> Shallow t 9 -> M ++ Z <> [] ->
  exists d T5 H lv, (exists st, st = (fun y => mkCur (fst y) 0) <$> head (M ++ Z) /\
     (match st with None => Ok (drain_none t) | Some st => drain_new2 t st ((fun y => mkCur (fst y) 0) <$> head Z) end) = Ok d) /\
    (forall k, exists d', drain_take k d = Ok (snd <$> take k M, d') /\
       drain_drop d' = drop_tail T5 (ALeaf <$> last A.*1) (ALeaf <$> after_leaf Z)) /\
    OK t H lv /\ H <= 8 /\ WT NoE T5 H lv /\ LK T5 /\ SZ T5 11 /\ VA L T5 /\ CO L T5 (stale (t := t) (lv := lv) M.*1) /\
    leaves T5 = A.*1 ++ Z.*1 /\ (forall l, l ∉ M.*1 -> el T5 l = el t l) /\ anext (leaf_nodes T5) = anext (leaf_nodes t) /\ PR t lv M.*1 T5 /\
    (forall m, stale (t := t) (lv := lv) M.*1 (AInt m) -> is_Some (kids t m) /\ is_Some (kids T5 m) /\
       (forall z, z ∈ lun t lv (AInt m) -> z ∉ M.*1 -> z ∈ lun T5 lv (AInt m)) /\
       ((exists z, last A.*1 = Some z /\ z ∉ M.*1 /\ z ∈ lun t lv (AInt m)) \/ (exists z, head Z.*1 = Some z /\ z ∉ M.*1 /\ z ∈ lun t lv (AInt m)))).
Proof.
  intros T Sh Hne. destruct (shallow_OK L t _ 9 ltac:(lia) T Sh) as (H & lv & O & HH & Hc).
  pose proof (ok_wt _ _ _ _ O) as W. pose proof (ok_lk _ _ _ _ O) as K.
  assert (Hlv : leaves t = (A ++ M ++ Z).*1).
  { rewrite <- (Tree_elems L _ _ T). unfold elems. pose proof (leaves_live W) as Hl. clear -Hl.
    assert (Forall (fun l => is_Some (el t l)) (leaves t)) as F by (apply Forall_forall; intros x; apply Hl). clear Hl.
    induction F as [|l ls [e He] F IH]; [done|]. cbn. rewrite He. cbn. f_equal. exact IH. }
  assert (Hel : forall l e, (l, e) ∈ A ++ M ++ Z -> el t l = Some e).
  { intros l e. apply (tree_in L _ _ _ _ T). }
  pose proof (leaves_nodup W) as Hnd. pose proof Hlv as Hlv'. rewrite !fmap_app in Hlv'. rewrite Hlv' in Hnd.
  destruct (head (M ++ Z)) as [[ls es]|] eqn:Hhd; [|destruct (M ++ Z); done].
  assert (HlsE : exists R, (M ++ Z) = (ls, es) :: R) by (destruct (M ++ Z) as [|y R]; [done|]; injection Hhd as ->; eauto).
  destruct HlsE as [R HR].
  assert (HlsL : leaves t = A.*1 ++ ls :: R.*1) by (by rewrite Hlv, HR, fmap_app).
  destruct (leaf_path W K ls) as (rs & Hrs & Eps); [rewrite HlsL; clear; set_solver|lia|].
  (* the end leaf *)
  set (en := (fun y : nat * Elem B => mkCur (fst y) 0) <$> head Z).
  assert (exists le ee, (match en with Some c => Ok (cu_leaf c) | None => let? o := last_leaf t in ropt o end) = Ok le /\
     (le, ee) ∈ A ++ M ++ Z /\ (forall z, head Z = Some z -> z = (le, ee)) /\
     (exists X Y, leaves t = X ++ le :: Y /\ (forall x, x ∈ Y -> x ∈ Z.*1) /\ (forall x, x ∈ X -> x ∈ A.*1 \/ x ∈ M.*1)) /\
     (ls = le \/ bef (t := t) ls le)) as (le & ee & Ele & Hlein & HleZ & (X & Y & HleL & HYZ & HXA) & Hord).
  { subst en. destruct Z as [|[lz ez] Z'].
    - cbn [head fmap option_fmap option_map]. rewrite (last_leaf_ok W). cbn [rbind]. rewrite app_nil_r in HR, Hlv, Hlv', Hel |- *. subst M.
      destruct ((ls, es) :: R) as [|[le ee] M' _] eqn:EM using rev_ind; [done|].
      exists le, ee. rewrite Hlv, !fmap_app. cbn [fmap list_fmap fst]. rewrite app_assoc, last_snoc. split; [done|]. split; [clear; set_solver|].
      split; [done|]. split.
      + exists (A.*1 ++ M'.*1), []. split; [by rewrite <- app_assoc|]. split; [intros x Hx; by apply elem_of_nil in Hx|].
        intros x. clear; set_solver.
      + destruct M' as [|[l' e'] M'].
        * left. injection EM as -> -> _. done.
        * right. injection EM as -> -> ->. exists A.*1, M'.*1, []. by rewrite HlsL, fmap_app.
    - exists lz, ez. split; [done|]. split; [clear; set_solver|]. split; [intros z [= <-]; done|]. split.
      + exists (A.*1 ++ M.*1), Z'.*1. split; [rewrite Hlv'; cbn; by rewrite <- app_assoc|]. split; [intros x Hx; cbn; clear -Hx; set_solver|].
        intros x. clear; set_solver.
      + destruct M as [|[l' e'] M'].
        * left. by injection HR as -> _ _.
        * right. injection HR as -> -> _. exists A.*1, M'.*1, Z'.*1. by rewrite Hlv'. }
  destruct (leaf_path W K le) as (re & Hre & Epe); [rewrite HleL; clear; set_solver|lia|].
  assert (Hlen_s : length (rev rs) = S (S H)). { rewrite rev_length. pose proof (rpath_len W _ _ Hrs) as Hx. cbn in Hx. lia. }
  assert (Hlen_e : length (rev re) = S (S H)). { rewrite rev_length. pose proof (rpath_len W _ _ Hre) as Hx. cbn in Hx. lia. }
  assert (exists ks, last (rev rs) = Some (mkIdx (ALeaf ls) ks)) as [ks Hlast_s] by (apply (rpath_last (t := t)); by rewrite rev_involutive).
  assert (exists ke, last (rev re) = Some (mkIdx (ALeaf le) ke)) as [ke Hlast_e] by (apply (rpath_last (t := t)); by rewrite rev_involutive).
  set (st := Some (mkStore (rev rs) (rev re) (ALeaf <$> last A.*1) (ALeaf <$> after_leaf Z))).
  set (d := mkDrain t (rev rs) false en st).
  assert (Ed : drain_new2 t (mkCur ls 0) en = Ok d).
  { unfold drain_new2. cbn [cu_leaf cu_offset]. rewrite Eps. cbn [rbind]. rewrite Ele. cbn [rbind]. rewrite Epe. cbn [rbind].
    rewrite Hlast_s. cbn [ropt rbind i_arena]. rewrite decide_True by done.
    rewrite (prev_leaf_ok W K ls (map ALeaf A.*1) (map ALeaf R.*1)) by (rewrite <- (leaves_gen W), HlsL, map_app; done).
    cbn [rbind]. rewrite Hlast_e. cbn [ropt rbind i_arena].
    assert (Eaf : match en with
                | Some e =>
                    let? lf := get_lf t (cu_leaf e) in
                    if decide (rle_len (l_elem lf) = cu_offset e)
                    then next_same_level_in_node t (ALeaf le)
                    else Ok (Some (ALeaf le))
                | None => Ok None
                end = Ok (ALeaf <$> after_leaf Z)).
    { subst en. destruct Z as [|[lz ez] Z']; [done|]. cbn [head fmap option_fmap option_map list_fmap fst cu_leaf cu_offset after_leaf].
      pose proof (HleZ _ eq_refl) as [= -> ->]. destruct (leaf_par t H lv le W) as (e' & p & He' & Hp); [rewrite HleL; clear; set_solver|].
      apply elem_of_list_lookup in Hp as [k0 Hp]. pose proof (lk_ch K _ _ _ Hp) as Hlk. cbn in Hlk.
      rewrite (get_lf_proj _ _ _ _ He' Hlk). cbn [rbind l_elem]. rewrite (Hel le ee Hlein) in He'. injection He' as <-.
      case_decide; [|done].
      assert (HY : Y = Z'.*1).
      { rewrite Hlv' in HleL. rewrite (app_assoc A.*1) in HleL. cbn in HleL.
        destruct (nodup_split_unique (A.*1 ++ M.*1) Z'.*1 X Y le) as [_ E]; [by rewrite <- app_assoc|done|done]. }
      rewrite (next_leaf_ok W K le (map ALeaf X) (map ALeaf Y)) by (rewrite <- (leaves_gen W), HleL, map_app; done).
      rewrite HY. by destruct Z' as [|[l' e1] Z']. }
    rewrite Eaf. cbn [rbind]. unfold d, st. do 3 f_equal. 
    assert (G : forall l : list nat, last (map ALeaf l) = ALeaf <$> last l).
    { induction l as [|x [|y l] IH]; [done|done|]. exact IH. }
    rewrite G. done. }
  assert (D0 : DS (t := t) M Z [] M st d).
  { constructor; [done|done|done|done|]. rewrite HR. cbn [head]. split; [done|]. unfold d. cbn [dr_path]. by rewrite rev_involutive. }
  (* the pruning *)
  assert (Hnin : forall x, x ∈ M.*1 -> x ∉ A.*1 /\ x ∉ Z.*1).
  { intros x Hx. apply NoDup_app in Hnd as (_ & N1 & N2). apply NoDup_app in N2 as (_ & N2 & _). split; [|by apply N2].
    intros Ha. apply (N1 x Ha). clear -Hx; set_solver. }
  destruct (drop_tree_ok W K M.*1 (rev rs) (rev re) ls le Hlen_s Hlen_e (rpath_PTH _ _ _ Hrs) (rpath_PTH _ _ _ Hre)) with (T0 := rem_all t M.*1)
    as (s & e & T1 & T2 & lvl & del1 & T3 & del2 & T4 & T5 & Hs & He & E1 & E2 & E3 & E4 & E5 & P5 & R5).
  { by rewrite <- (last_lookup_path _ _ Hlen_s), Hlast_s. }
  { by rewrite <- (last_lookup_path _ _ Hlen_e), Hlast_e. }
  { exact Hord. }
  { intros x Hx HxM. apply (bef_left W _ _ _ _ HlsL) in Hx. by destruct (Hnin x HxM). }
  { intros x Hx HxM. apply (bef_right W _ _ _ _ HleL) in Hx. destruct (Hnin x HxM) as [_ Hq]. by apply Hq, HYZ. }
  { intros x Hx1 Hx2. apply (bef_right W _ _ _ _ HlsL) in Hx1. apply (bef_left W _ _ _ _ HleL) in Hx2.
    destruct (HXA _ Hx2) as [HxA|?]; [|done]. exfalso. rewrite <- Hlv', HlsL in Hnd. apply NoDup_app in Hnd as (_ & N1 & _).
    apply (N1 x HxA). by right. }
  { by apply LI_start. }
  pose proof (pr_WT W M.*1 P5) as W5.
  assert (HL5 : leaves T5 = A.*1 ++ Z.*1).
  { rewrite (pr_leaves W M.*1 P5), Hlv', !filter_app. rewrite (filter_all _ A.*1), (filter_all _ Z.*1).
    - assert (filter (fun l => l ∉ M.*1) M.*1 = []) as ->; [|done].
      destruct (filter (fun l => l ∉ M.*1) M.*1) as [|x xs] eqn:Ex; [done|].
      assert (x ∈ filter (fun l => l ∉ M.*1) M.*1) as Hx by (rewrite Ex; left). apply elem_of_list_filter in Hx as [? ?]. done.
    - intros x Hx HxM. by destruct (Hnin x HxM).
    - intros x Hx HxM. by destruct (Hnin x HxM). }
  exists d, T5, H, lv. split; [exists (Some (mkCur ls 0)); split; [done|exact Ed]|]. split.
  { intros k. destruct (drain_take_ok W K A M Z Hlv Hel k _ _ _ _ D0) as (d' & Etk & D1). cbn [app] in D1.
    destruct (ensure_ok W K A M Z Hlv Hel _ _ _ _ D1) as (d2 & Ef & D2). exists d'. split; [exact Etk|]. unfold drain_drop. rewrite Ef. cbn [rbind]. rewrite (ds_store _ _ _ _ _ _ D2). unfold st. cbn [ropt rbind ts_start ts_end ts_before ts_after].
    rewrite (ds_tree _ _ _ _ _ _ D2). rewrite Hlen_s. rewrite bool_decide_eq_true_2 by lia. cbn [rassert rbind]. cbn [Nat.sub]. rewrite Nat.sub_0_r.
    unfold vec_get at 1. rewrite Hs. cbn [ropt rbind]. rewrite E1. cbn [rbind]. unfold vec_get at 1. rewrite He. cbn [ropt rbind]. rewrite E2. cbn [rbind].
    rewrite E3. cbn [rbind]. rewrite E4. cbn [rbind]. rewrite E5. cbn [rbind]. done. }
  split; [exact O|]. split; [lia|]. split; [exact W5|]. split; [apply (pr_lk _ _ _ _ P5)|]. split; [exact (pr_SZ M.*1 P5 _ (ok_sz _ _ _ _ O))|].
  split; [exact (pr_VA L M.*1 P5 (ok_va _ _ _ _ O))|]. split; [exact (pr_CO L W M.*1 P5 (ok_co _ _ _ _ O))|]. split; [exact HL5|].
  split; [intros l Hl; rewrite (pr_el _ _ _ _ P5); by rewrite decide_False|]. split; [apply (pr_al _ _ _ _ P5)|]. split; [exact P5|].
  intros m Ha. pose proof Ha as (m' & [= <-] & (x & Hx & HxM) & (y & Hy & HyM)).
  assert (is_Some (kids t m)) as Hm.
  { apply chs_live. intros Hn. unfold lun in Hx. cbn [alv gen achs] in Hx. rewrite Hn in Hx. by apply elem_of_nil in Hx. }
  assert (kpn t lv M.*1 (AInt m)) as Hkp by (apply Exists_exists; eauto).
  split; [done|]. split; [apply (pr_live W M.*1 P5 (AInt m)); split; [done|by right]|]. split.
  { intros z Hzl HzM. apply (elem_of_list_fmap_1 ALeaf) in Hzl. change (ALeaf <$> lun t lv (AInt m)) with (map ALeaf (lun t lv (AInt m))) in Hzl.
    rewrite (lu_gen W) in Hzl by done. assert (Inj (=) (=) ALeaf) as Hinj by (by intros ? ? [= ->]). apply (elem_of_list_fmap_2_inj ALeaf).
    change (ALeaf <$> lun T5 lv (AInt m)) with (map ALeaf (lun T5 lv (AInt m))).
    assert (live T5 (AInt m)) as Hm5 by (apply (pr_live W M.*1 P5); split; [done|by right]).
    rewrite (lu_gen W5) by done. cbn [alv] in Hzl |- *. rewrite (pr_gen W M.*1 P5); [|done|cbn; lia|by right].
    apply elem_of_list_filter. split; [|done]. by apply kp_leaf. }
  destruct (stale_bound t H lv A.*1 M.*1 Z.*1 m W Hlv' Hm Ha) as [(z & Hz & Hzl)|(z & Hz & Hzl)]; [left|right]; exists z; (split; [done|]);
    (split; [|done]); intros HzM.
  - destruct (Hnin z HzM) as [Hq _]. apply Hq. apply last_Some in Hz as [l' ->]. clear; set_solver.
  - destruct (Hnin z HzM) as [_ Hq]. apply Hq. destruct Z.*1; [done|]. injection Hz as ->. left.
Qed.

Lemma drain_cont t A M Z T5 H lv t' H' lv' : Tree t (A ++ M ++ Z) -> WT NoE T5 H lv -> leaves T5 = A.*1 ++ Z.*1 -> (forall l, l ∉ M.*1 -> el T5 l = el t l) ->
  OK t' H' lv' -> gen t' (S H') (root t') = gen T5 (S H) (root T5) -> (forall z, el t' z = el T5 z) -> Tree t' (A ++ Z).
Proof.
  intros T W5 HL5 Hel5 O' G' El'. pose proof (OK_Tree L _ _ _ O') as T'. replace (cont t' H') with (A ++ Z) in T'; [done|].
  pose proof (tree_nodup L _ _ T) as Hnd. rewrite !fmap_app in Hnd.
  rewrite <- (elems_cont _ _ _ (ok_wt _ _ _ _ O')). unfold elems. rewrite (leaves_raw (ok_wt _ _ _ _ O')), G', <- (leaves_raw W5), HL5, <- fmap_app.
  symmetry. apply elems_of. intros l e0 Hl. rewrite El', Hel5.
  - apply (tree_in L _ _ _ _ T). clear -Hl; set_solver.
  - intros HlM. apply (elem_of_list_fmap_1 fst) in Hl. cbn in Hl. rewrite fmap_app in Hl. apply NoDup_app in Hnd as (_ & N1 & N2). apply NoDup_app in N2 as (_ & N2 & _).
    apply elem_of_app in Hl as [Hl|Hl]; [apply (N1 l Hl); clear -HlM; set_solver|by apply (N2 l)].
Qed.

(** right as soon as the nodes that lost leaves are above the leaf before the hole or the refreshed one *)
Lemma drain_body_cov t A M Z : Tree t (A ++ M ++ Z) -> Shallow t 9 -> M ++ Z <> [] ->
  (forall H lv m, OK t H lv -> is_Some (kids t m) -> (exists x, x ∈ lun t lv (AInt m) /\ x ∈ M.*1) ->
     (exists z, head Z.*1 = Some z /\ z ∈ lun t lv (AInt m)) ->
     (exists z, last A.*1 = Some z /\ z ∈ lun t lv (AInt m)) \/ (exists z, after_leaf Z = Some z /\ z ∈ lun t lv (AInt m))) ->
  exists d t', (exists st, st = (fun y => mkCur (fst y) 0) <$> head (M ++ Z) /\
     (match st with None => Ok (drain_none t) | Some st => drain_new2 t st ((fun y => mkCur (fst y) 0) <$> head Z) end) = Ok d) /\
    (forall k, exists d', drain_take k d = Ok (snd <$> take k M, d') /\ drain_drop d' = Ok t') /\ Tree t' (A ++ Z) /\
    anext (leaf_nodes t) <= anext (leaf_nodes t').
Proof.
  intros T Sh Hne Hcov. destruct (drain_body_gen t A M Z T Sh Hne) as (d & T5 & H & lv & Hst & Htk & O & HH & W5 & K5 & Z5 & V5 & C5 & HL5 & El5 & A5 & _ & HD).
  destruct (drop_tail_af L T5 H lv A.*1 Z.*1 (after_leaf Z) _ W5 K5 Z5 HH HL5 (after_leaf_in Z) V5 C5) as (t' & H' & lv' & Et & O' & G' & El' & A').
  { intros a Ha. pose proof Ha as (m & -> & (x & Hx & HxM) & _). exists m. split; [done|]. destruct (HD m Ha) as (Hm & Hm5 & Hlun & Hb). split; [|done].
    assert (HzM : forall z, after_leaf Z = Some z -> z ∉ M.*1).
    { intros z Hz HzM. apply after_leaf_in in Hz. pose proof (tree_nodup L _ _ T) as Hnd. rewrite !fmap_app in Hnd.
      apply NoDup_app in Hnd as (_ & _ & N2). apply NoDup_app in N2 as (_ & N2 & _). by apply (N2 z). }
    assert (HzA : forall z, last A.*1 = Some z -> z ∉ M.*1).
    { intros z Hz HzM'. apply last_Some in Hz as [l' Hz]. pose proof (tree_nodup L _ _ T) as Hnd. rewrite !fmap_app, Hz in Hnd.
      apply NoDup_app in Hnd as (_ & N1 & _). apply (N1 z); clear -HzM'; set_solver. }
    destruct Hb as [(z & Hz & HzM' & Hzl)|(z & Hz & HzM' & Hzl)]; [left; exists z; auto|].
    destruct (Hcov H lv m O Hm) as [(y & Hy & Hyl)|(y & Hy & Hyl)]; [by exists x|by exists z|left; exists y; auto|right; exists y; auto]. }
  exists d, t'. split; [done|]. split; [|split].
  - intros k. destruct (Htk k) as (d' & E1 & E2). exists d'. by rewrite E2.
  - by eapply drain_cont.
  - by rewrite <- A5.
Qed.
Lemma drain_body t A M Z : Tree t (A ++ M ++ Z) -> Shallow t 9 -> M ++ Z <> [] ->
  (forall l e, head Z = Some (l, e) -> rle_len e <> 0) ->
  exists d t', (exists st, st = (fun y => mkCur (fst y) 0) <$> head (M ++ Z) /\
     (match st with None => Ok (drain_none t) | Some st => drain_new2 t st ((fun y => mkCur (fst y) 0) <$> head Z) end) = Ok d) /\
    (forall k, exists d', drain_take k d = Ok (snd <$> take k M, d') /\ drain_drop d' = Ok t') /\ Tree t' (A ++ Z) /\
    anext (leaf_nodes t) <= anext (leaf_nodes t').
Proof.
  intros T Sh Hne Hz0. apply drain_body_cov; [done|done|done|]. intros H lv m _ _ _ (z & Hz & Hzl). right. exists z. split; [|done].
  destruct Z as [|[l e] Z']; [done|]. cbn in Hz |- *. rewrite decide_False; [done|]. by apply (Hz0 l).
Qed.

Theorem t_drain_full t xs (a b : cursor) (ea eb : Elem B) (fa fb : bool) :
  Tree t xs -> (cu_leaf a, ea) ∈ xs -> cu_offset a <= rle_len ea -> (cu_leaf b, eb) ∈ xs -> cu_offset b <= rle_len eb ->
  cur_le xs a b ->
  (* the element right of the end is not empty *)
  (cu_offset b = 0 -> rle_len eb <> 0) ->
  (forall X Y l e, xs = X ++ [(cu_leaf b, eb); (l, e)] ++ Y -> cu_offset b = rle_len eb -> rle_len e <> 0) ->
  (* the start is not the end of the tree *)
  (forall X, xs = X ++ [(cu_leaf a, ea)] -> cu_offset a = rle_len ea -> cu_offset a = 0) ->
  exists A Z A1 M t2, let fr n := anext (leaf_nodes t) <= n < anext (leaf_nodes t2) in
    cuts t a b = Ok t2 /\ Tree t2 (A1 ++ M ++ Z) /\ anext (leaf_nodes t) <= anext (leaf_nodes t2) /\
    (forall k, Shallow t k -> Shallow t2 (S (S k))) /\
    Cut fr xs b A Z /\ Cut fr (A ++ Z) a A1 (M ++ Z) /\
    (Shallow t2 9 -> exists t', (forall k, drain_range t (Some (mkQR a fa)) (Some (mkQR b fb)) k = Ok (snd <$> take k M, t')) /\
      Tree t' (A1 ++ Z) /\ anext (leaf_nodes t2) <= anext (leaf_nodes t')) /\
    (~ Shallow t2 9 -> forall k, drain_range t (Some (mkQR a fa)) (Some (mkQR b fb)) k = Panic).
Proof.
  intros T Ha Hoa Hb Hob Hle Hzb0 Hzb Hst. destruct a as [la oa]. destruct b as [lb ob]. cbn [cu_leaf cu_offset] in *.
  destruct (t_cut L t xs lb eb ob T Hb Hob) as (sie & t1 & A & Z & E1 & T1 & C1 & P1 & N1 & G1 & S1).
  pose proof (cut_before xs (mkCur la oa) _ _ A Z ea (tree_nodup L _ _ T) Hle C1 Ha Hoa) as Hpos. cbn [cu_leaf cu_offset] in Hpos.
  assert (exists ea', (la, ea') ∈ A ++ Z /\ oa <= rle_len ea') as (ea' & Ha' & Hoa').
  { destruct Hpos as [(ea' & Hx & Hy)|(-> & ea' & Hx)]; exists ea'; (split; [|first [done|lia]]).
    - clear -Hx; set_solver.
    - destruct Z; [done|]. injection Hx as ->. clear; set_solver. }
  destruct (t_cut L t1 (A ++ Z) la ea' oa T1 Ha' Hoa') as (sis & t2 & A1 & R1 & E2 & T2 & C2 & P2 & N2 & G2 & S2).
  destruct (cut_left A Z (mkCur la oa) _ A1 R1 (tree_nodup L _ _ T1) C2) as [M ->].
  { cbn [cu_leaf cu_offset]. destruct Hpos as [(? & ? & _)|?]; [left|right]; eauto. }
  assert (Hne : M ++ Z <> []).
  { intros HMZ. rewrite HMZ in C2. apply app_nil in HMZ as [-> ->].
    inversion C2 as [|X l e Y off Hz Hf EX E3 E4 E5|]; subst. rewrite app_nil_r in EX.
    inversion C1 as [|X' l' e' Y' off' Hz' Hf' EX' E3' E4' E5'|]; subst. pose proof (tree_nodup L _ _ T) as Hnd.
    rewrite E4' in Hst, Ha, Hnd.
    assert (ea = e) as -> by (eapply fst_lookup_unique; [exact Hnd|exact Ha|clear; set_solver]).
    apply Hz, (Hst X); [done|done]. }
  assert (Hz0 : forall l e, head Z = Some (l, e) -> rle_len e <> 0).
  { intros l0 e0 Hl0. inversion C1 as [X l e Y EX|X l e Y off Hz Hf EX|X l e Y off e1 e2 n Hz Hs Hl Hn EX]; subst; cbn in Hl0.
    - injection Hl0 as -> ->. assert (eb = e0) as -> by (eapply fst_lookup_unique; [exact (tree_nodup L _ _ T)|exact Hb|clear; set_solver]).
      by apply Hzb0.
    - destruct Z as [|[lz ez] Z]; [done|]. cbn in Hl0. injection Hl0 as -> ->.
      assert (eb = e) as -> by (eapply fst_lookup_unique; [exact (tree_nodup L _ _ T)|exact Hb|clear; set_solver]).
      by apply (Hzb X Z l0 e0).
    - injection Hl0 as <- <-. destruct (lw_split _ L e (rle_len e1)) as (x1 & x2 & Ex & _ & _ & _ & Hx2 & _); [|done|].
      + apply (tree_valid L _ _ lb _ T). clear; set_solver.
      + rewrite Hs in Ex. injection Ex as -> ->. lia. }
  exists A, Z, A1, M, t2. cbn zeta.
  split. { unfold cuts. rewrite E1. cbn [rbind]. rewrite E2. done. }
  split; [done|]. split; [lia|]. split; [intros k Sh; exact (S2 _ (S1 _ Sh))|].
  split; [eapply Cut_mono; [|exact C1]; cbn; intros; lia|]. split; [eapply Cut_mono; [|exact C2]; cbn; intros; lia|]. split.
  2:{ intros Hsh k. unfold drain_range, drain_new. cbn [qr_cursor]. rewrite E1. cbn [rbind]. rewrite E2. cbn [rbind]. rewrite P2.
    destruct (M ++ Z) as [|[lm em] R] eqn:EMZ; [done|]. cbn [head fmap option_fmap option_map cu_leaf fst].
    rewrite (t_path_deep L t2 _ lm T2); [done| |done]. rewrite fmap_app. apply elem_of_app. right. left. }
  intros Hsh. destruct (drain_body t2 A1 M Z T2 Hsh Hne Hz0) as (d & t' & (st & -> & Ed) & Edr & T' & G').
  exists t'. split; [|split; [done|lia]].
  intros k. destruct (Edr k) as (d' & Etk & Edr'). unfold drain_range, drain_new. cbn [qr_cursor]. rewrite E1. cbn [rbind]. rewrite E2. cbn [rbind].
  rewrite P2, P1. destruct (head (M ++ Z)) as [y|]; cbn [fmap option_fmap option_map] in Ed |- *.
  - unfold drain_new2 in Ed. cbn [fst] in Ed. rewrite Ed. cbn [rbind]. rewrite Etk. cbn [rbind]. rewrite Edr'. done.
  - rewrite Ed. cbn [rbind]. rewrite Etk. cbn [rbind]. rewrite Edr'. done.
Qed.

Theorem t_drain t xs (a b : cursor) (ea eb : Elem B) (fa fb : bool) :
  Tree t xs -> Fits t a b -> (cu_leaf a, ea) ∈ xs -> cu_offset a <= rle_len ea -> (cu_leaf b, eb) ∈ xs -> cu_offset b <= rle_len eb ->
  cur_le xs a b ->
  (* the element right of the end is not empty *)
  (cu_offset b = 0 -> rle_len eb <> 0) ->
  (forall X Y l e, xs = X ++ [(cu_leaf b, eb); (l, e)] ++ Y -> cu_offset b = rle_len eb -> rle_len e <> 0) ->
  (* the start is not the end of the tree *)
  (forall X, xs = X ++ [(cu_leaf a, ea)] -> cu_offset a = rle_len ea -> cu_offset a = 0) ->
  exists A Z A1 M t', let fr n := anext (leaf_nodes t) <= n < anext (leaf_nodes t') in
    Cut fr xs b A Z /\ Cut fr (A ++ Z) a A1 (M ++ Z) /\
    (forall k, drain_range t (Some (mkQR a fa)) (Some (mkQR b fb)) k = Ok (snd <$> take k M, t')) /\
    Tree t' (A1 ++ Z) /\ anext (leaf_nodes t) <= anext (leaf_nodes t').
Proof.
  intros T (t2' & Ec' & Sh) Ha Hoa Hb Hob Hle Hzb0 Hzb Hst.
  destruct (t_drain_full t xs a b ea eb fa fb T Ha Hoa Hb Hob Hle Hzb0 Hzb Hst) as (A & Z & A1 & M & t2 & Ec & T2 & G2 & S2 & C1 & C2 & HO & _).
  rewrite Ec' in Ec. injection Ec as ->. destruct (HO Sh) as (t' & E & T' & G'). exists A, Z, A1, M, t'. cbn zeta.
  split; [eapply Cut_mono; [|exact C1]; cbn; intros; lia|]. split; [eapply Cut_mono; [|exact C2]; cbn; intros; lia|]. split; [done|]. split; [done|lia].
Qed.

Theorem t_drain_all t xs (a b : cursor) (ea eb : Elem B) (fa fb : bool) :
  Tree t xs -> (cu_leaf a, ea) ∈ xs -> cu_offset a <= rle_len ea -> (cu_leaf b, eb) ∈ xs -> cu_offset b <= rle_len eb ->
  cur_le xs a b ->
  (cu_offset b = 0 -> rle_len eb <> 0) ->
  (forall X Y l e, xs = X ++ [(cu_leaf b, eb); (l, e)] ++ Y -> cu_offset b = rle_len eb -> rle_len e <> 0) ->
  (forall X, xs = X ++ [(cu_leaf a, ea)] -> cu_offset a = rle_len ea -> cu_offset a = 0) ->
  exists A Z A1 M t2, let fr n := anext (leaf_nodes t) <= n < anext (leaf_nodes t2) in
    cuts t a b = Ok t2 /\ Tree t2 (A1 ++ M ++ Z) /\ anext (leaf_nodes t) <= anext (leaf_nodes t2) /\
    (forall k, Shallow t k -> Shallow t2 (S (S k))) /\
    Cut fr xs b A Z /\ Cut fr (A ++ Z) a A1 (M ++ Z) /\
    (Shallow t2 9 -> exists t',
      drain_range t (Some (mkQR a fa)) (Some (mkQR b fb)) (length M) = Ok (snd <$> M, t') /\
      Tree t' (A1 ++ Z) /\ anext (leaf_nodes t2) <= anext (leaf_nodes t')) /\
    (~ Shallow t2 9 -> forall k, drain_range t (Some (mkQR a fa)) (Some (mkQR b fb)) k = Panic).
Proof.
  intros T Ha Hoa Hb Hob Hle Hzb0 Hzb Hst.
  destruct (t_drain_full t xs a b ea eb fa fb T Ha Hoa Hb Hob Hle Hzb0 Hzb Hst) as (A & Z & A1 & M & t2 & G1 & G2 & G3 & G4 & G5 & G6 & HO & HP).
  exists A, Z, A1, M, t2. do 6 (split; [done|]). split; [|done]. intros Sh. destruct (HO Sh) as (t' & Hk & T' & G). exists t'. split; [|done].
  rewrite Hk. by rewrite firstn_all.
Qed.

(** a drain that starts at the end of the tree panics when dropped *)
Theorem t_drain_end_panics t X l e (fa fb : bool) k : Tree t (X ++ [(l, e)]) -> rle_len e <> 0 ->
  drain_range t (Some (mkQR (mkCur l (rle_len e)) fa)) (Some (mkQR (mkCur l (rle_len e)) fb)) k = Panic.
Proof.
  intros T Hz.
  assert (Hcut : forall fr A R, Cut fr (X ++ [(l, e)]) (mkCur l (rle_len e)) A R -> R = []).
  { intros fr A R HC. inversion HC as [X' l' e' Y' E1 E2|X' l' e' Y' off' Hz' Hf' EX' E2|X' l' e' Y' off' e1 e2 n Hz' Hs Hl Hn EX' E2]; subst; [lia| |].
    - destruct (split_fst_unique X' X R [] l e' e) as (_ & _ & ->); [|done|done].
      rewrite EX'. apply (tree_nodup L _ _ T).
    - destruct (split_fst_unique X' X Y' [] l e' e) as (_ & -> & _); [|done|lia].
      rewrite EX'. apply (tree_nodup L _ _ T). }
  destruct (t_cut L t _ l e (rle_len e) T) as (sie & t1 & A & Z & E1 & T1 & C1 & P1 & N1 & G1 & S1); [clear; set_solver|lia|].
  assert (t1 = t) as ->.
  { destruct (t_split L t X l e [] (rle_len e) T ltac:(lia)) as (si & t' & E & _ & [(? & _)|[(_ & _ & -> & _)|(? & _)]]); [lia| |lia].
    rewrite E in E1. by injection E1. }
  pose proof (Hcut _ _ _ C1) as ->. unfold drain_range, drain_new. cbn [qr_cursor]. rewrite E1. cbn [rbind]. rewrite E1. cbn [rbind].
  rewrite P1. cbn [head fmap option_fmap option_map rbind].
  assert (forall k, drain_take k (drain_none t) = Ok ([], drain_none t)) as G by (by intros [|?]). rewrite G. cbn [rbind]. done.
Qed.
End whole.
