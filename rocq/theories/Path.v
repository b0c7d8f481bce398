(** Path.v — node paths: get_path, first_path, next_sibling, iter, iter_range,
    compare_pos, depth (lib.rs:1581-1768, 2312-2336, 2442-2464, 2565-2591, 2709-2723). *)
From Verif Require Export Remove.

(** [rpath t p a]: [p] is the leaf-first path from [a] up to the root *)
Inductive rpath {B : BTreeTrait} (t : btree B) : list idx -> aidx -> Prop :=
| rpath_root : rpath t [mkIdx (root t) 0] (root t)
| rpath_step i a k p : rpath t p (AInt i) -> chs t i !! k = Some a -> rpath t (mkIdx a k :: p) a.

Section path.
Context {B : BTreeTrait}.
Notation btree := (btree B).
Notation child := (child B).
Implicit Types (t : btree) (i j m p q k s : nat) (a b : aidx) (c : child) (cs : list child).

Lemma rpath_head t r a : rpath t r a -> exists k r', r = mkIdx a k :: r'.
Proof. destruct 1; eauto. Qed.
Lemma rpath_row t r a : rpath t r a -> exists n, length r = S n /\ a ∈ gen t n (root t).
Proof.
  induction 1 as [|i a k p Hp (n & Hl & Hin) Hk].
  - exists 0. split; [done|]. cbn. by apply elem_of_list_singleton.
  - exists (S n). cbn. split; [lia|]. change (a ∈ gen t (S n) (root t)). rewrite gen_S_r. apply elem_of_list_bind.
    exists (AInt i). split; [|done]. cbn. by eapply elem_of_list_lookup_2.
Qed.
Lemma rpath_of t n : forall a, a ∈ gen t n (root t) -> exists r, rpath t r a /\ length r = S n.
Proof.
  induction n as [|n IH]; intros a Ha.
  - cbn in Ha. apply elem_of_list_singleton in Ha as ->. exists [mkIdx (root t) 0]. split; [constructor|done].
  - rewrite gen_S_r in Ha. apply elem_of_list_bind in Ha as (b & Hab & Hb).
    destruct b as [l|i]; [by apply not_elem_of_nil in Hab|]. cbn in Hab.
    apply elem_of_list_lookup in Hab as [k Hk]. destruct (IH _ Hb) as (r & Hr & Hl).
    exists (mkIdx a k :: r). split; [by econstructor|]. cbn. by rewrite Hl.
Qed.

Section wt.
  Context {t : btree} {H : nat} {lv : nat -> nat} (W : WT NoE t H lv) (K : LK t).

  Lemma rpath_len r a : rpath t r a -> length r + alv lv a = S (S H).
  Proof.
    intros Hr. apply rpath_row in Hr as (n & Hl & Ha). apply (gen_live W) in Ha as [_ Ha]; [|apply (root_live W)].
    rewrite (alv_root W) in Ha. lia.
  Qed.
  Lemma rpath_live r a : rpath t r a -> live t a.
  Proof.
    intros Hr. apply rpath_row in Hr as (n & Hl & Ha). apply (gen_live W) in Ha as [Ha _]; [done|apply (root_live W)].
  Qed.
  Lemma rpath_exists a : live t a -> exists r, rpath t r a.
  Proof.
    intros Ha. assert (alv lv a <= S H) as Hle.
    { destruct a as [l|m]; cbn; [lia|]. pose proof (wt_lv W m Ha). lia. }
    destruct (rpath_of t (S H - alv lv a) a) as (r & Hr & _); [|eauto].
    apply (gen_complete W); [done|lia].
  Qed.
  Lemma rpath_unique r1 a : rpath t r1 a -> forall r2, rpath t r2 a -> r1 = r2.
  Proof.
    induction 1 as [|i a k p Hp IH Hk]; intros r2 H2.
    - inversion H2 as [|i' a' k' p' Hp' Hk']; subst; [done|]. exfalso.
      by apply (wt_root_nochild W) in Hk'.
    - inversion H2 as [E1|i' a' k' p' Hp' Hk']; subst.
      + exfalso. by apply (wt_root_nochild W) in Hk.
      + destruct (wt_uniq W _ _ _ _ _ Hk Hk') as [-> ->]. f_equal. auto.
  Qed.

  (** ** next_sibling *)
  Lemma next_sib_eq x y r : next_sibling_rev t (x :: y :: r) =
    let? pn := get_internal t (i_arena y) in
    match n_children pn !! S (i_arr x) with
    | Some c => Ok (Some (mkIdx (c_arena c) (S (i_arr x)) :: y :: r))
    | None =>
      let? o := next_sibling_rev t (y :: r) in
      match o with
      | None => Ok None
      | Some rest' =>
          let? par' := ropt (head rest') in
          let? qn := get_internal t (i_arena par') in
          let? c := vec_get (n_children qn) 0 in
          Ok (Some (mkIdx (c_arena c) 0 :: rest'))
      end
    end.
  Proof. done. Qed.
  Lemma next_sib_ok n : forall r a X Y, rpath t r a -> n <= S H -> gen t n (root t) = X ++ a :: Y ->
    length r = S n -> 
    match Y with
    | [] => next_sibling_rev t r = Ok None
    | b :: _ => exists r', next_sibling_rev t r = Ok (Some r') /\ rpath t r' b
    end.
  Proof using W K.
    induction n as [|n IH]; intros r a X Y Hr Hn Hg Hl.
    - destruct r as [|x r]; [done|]. destruct r; [|done]. cbn [next_sibling_rev].
      cbn in Hg. destruct X as [|x1 X]; [|by destruct X]. injection Hg as _ <-. done.
    - inversion Hr as [|i a' k p Hp Hk]; subst; [cbn in Hl; lia|]. cbn [length] in Hl.
      destruct (rpath_head _ _ _ Hp) as (k0 & r' & ->).
      destruct (row_parent W n _ _ _ Hg) as (q & X0 & Y0 & A & C & Hrow & Hc & -> & ->).
      assert (chs t q !! length A = Some a) as Hq by (rewrite Hc; by apply list_lookup_middle).
      destruct (wt_uniq W _ _ _ _ _ Hk Hq) as [-> ->].
      assert (AInt q ∈ gen t n (root t)) as Hqin by (rewrite Hrow; clear; set_solver).
      destruct (row_get W n q Hqin) as (pn & Hgp & Hkp & Hcp).
      rewrite next_sib_eq. cbn [i_arena i_arr].
      unfold get_internal. cbn [i_arena unwrap_internal rbind]. rewrite Hgp. cbn [rbind].
      assert (head C = c_arena <$> n_children pn !! S (length A)) as HC.
      { change (map c_arena (n_children pn)) with (c_arena <$> n_children pn) in Hcp.
        rewrite <- list_lookup_fmap, <- Hcp, Hc, lookup_app_r by lia.
        replace (S (length A) - length A) with 1 by lia. by destruct C. }
      destruct (n_children pn !! S (length A)) as [c|] eqn:Ec; cbn in HC.
      + destruct C as [|x C]; [done|]. cbn in HC |- *. injection HC as ->. eexists. split; [done|].
        econstructor; [exact Hp|]. rewrite Hc, lookup_app_r by lia. by replace (S (length A) - length A) with 1 by lia.
      + destruct C as [|x C]; [|done]. cbn [app].
        specialize (IH _ _ _ _ Hp ltac:(lia) Hrow ltac:(cbn in *; lia)).
        destruct (row_right W n q X0 Y0 Hrow ltac:(lia)) as [HY _].
        destruct Y0 as [|b Y0]; [cbn [mbind list_bind]; by rewrite IH|].
        destruct IH as (r2 & E2 & H2). destruct (HY b) as (m & -> & Hm); [left|].
        cbn [mbind list_bind achs]. destruct (chs t m) as [|y ym] eqn:Em; [done|]. cbn [app].
        rewrite E2. cbn [rbind]. destruct (rpath_head _ _ _ H2) as (k2 & r3 & ->). cbn [head ropt rbind i_arena unwrap_internal].
        destruct (row_get W n m ltac:(rewrite Hrow; clear; set_solver)) as (qn & Hgq & Hkq & Hcq).
        rewrite Hgq. cbn [rbind]. rewrite Hcq in Em. destruct (n_children qn) as [|c cs] eqn:Eq; [done|].
        cbn in Em. injection Em as <- _. unfold vec_get. cbn. eexists. split; [done|].
        econstructor; [exact H2|]. by rewrite Hcq.
  Qed.
  Lemma next_sibling_ok path a n X Y : rpath t (rev path) a -> n <= S H -> gen t n (root t) = X ++ a :: Y ->
    length path = S n ->
    match Y with
    | [] => next_sibling t path = Ok None
    | b :: _ => exists path', next_sibling t path = Ok (Some path') /\ rpath t (rev path') b
    end.
  Proof using W K.
    intros Hr Hn Hg Hl. unfold next_sibling.
    pose proof (next_sib_ok n _ _ _ _ Hr Hn Hg ltac:(by rewrite rev_length)) as G.
    destruct Y as [|b Y]; [by rewrite G|]. destruct G as (r' & -> & Hr'). cbn. eexists. split; [done|]. by rewrite rev_involutive.
  Qed.

  (** ** get_path; the path of an entry at row [n] has [S n] entries *)
  Lemma get_path_f_ok r a : rpath t r a -> forall f acc, length acc + length r <= 10 -> length r <= f ->
    get_path_f f t a acc = Ok (acc ++ r).
  Proof using W K.
    induction 1 as [|i a k p Hp IH Hk]; intros f acc Hl Hf.
    - destruct f as [|f]; [cbn in Hf; lia|]. cbn [get_path_f]. rewrite decide_True by done. unfold vec_push.
      rewrite decide_True; [done|]. cbn in Hl. lia.
    - destruct f as [|f]; [cbn in Hf; lia|]. cbn [get_path_f]. cbn in Hl, Hf.
      rewrite decide_False. 2:{ intros ->. by apply (wt_root_nochild W) in Hk. }
      pose proof (lk_ch K _ _ _ Hk) as Hlk. pose proof (wt_ch W _ _ _ Hk) as [Hlive Hlv].
      assert (Hvp : vec_push 10 acc (mkIdx a k) = Ok (acc ++ [mkIdx a k])).
      { unfold vec_push. rewrite decide_True; [done|]. lia. }
      destruct a as [l|m]; cbn in Hlk, Hlive, Hlv.
      + destruct Hlive as [e He]. rewrite (get_lf_proj _ _ _ _ He Hlk). cbn [rbind l_parent].
        assert (is_Some (kids t i)) as [cs Hki].
        { apply chs_live. intros Hx. rewrite Hx in Hk. done. }
        destruct (get_in_kids t i cs Hki) as (po & s & Hgi & _). rewrite Hgi. cbn [rbind].
        unfold get_leaf_slot. cbn [n_children]. rewrite (wt_leaf_slot W i cs k l Hki Hk). cbn [rbind]. rewrite Hvp. cbn [rbind].
        rewrite IH; [by rewrite <- app_assoc| |lia]. rewrite app_length. cbn. lia.
      + destruct (live_get_in t m Hlive) as [nd Hg]. rewrite Hg. cbn [rbind]. apply get_in_inv in Hg as [_ Hl2].
        rewrite Hlk in Hl2. injection Hl2 as <- <-. rewrite Hvp. cbn [rbind ropt].
        rewrite IH; [by rewrite <- app_assoc| |lia]. rewrite app_length. cbn. lia.
  Qed.
  Lemma rpath_fuel r a : rpath t r a -> length r <= fuel t.
  Proof using W.
    intros Hr. inversion Hr as [|i a' k p Hp Hk]; subst; [unfold fuel; cbn; lia|].
    assert (chs t (raw (root t)) <> []) as Hne.
    { intros He. destruct (rpath_row _ _ _ Hr) as (n & Hn & Hin). cbn in Hn. destruct n as [|n].
      { injection Hn as Hn. destruct p; [inversion Hp|done]. }
      cbn [gen] in Hin. rewrite (wt_root_id W) in Hin. cbn in Hin. rewrite He in Hin. by apply not_elem_of_nil in Hin. }
    pose proof (wt_height_bound W Hne). pose proof (rpath_len _ _ Hr). unfold fuel. lia.
  Qed.
  Lemma get_path_ok r a : rpath t r a -> length r <= 10 -> get_path t a = Ok (rev r).
  Proof using W K.
    intros Hr Hl. unfold get_path. pose proof (rpath_fuel r a Hr). rewrite (get_path_f_ok r a Hr); [done|done|lia].
  Qed.
  (** beyond the capacity of NodePath it panics *)
  Lemma get_path_f_panic r a : rpath t r a -> forall f acc, 10 < length acc + length r -> length acc <= 10 -> length r <= f ->
    get_path_f f t a acc = Panic.
  Proof using W K.
    induction 1 as [|i a k p Hp IH Hk]; intros f acc Hl Ha Hf.
    - destruct f as [|f]; [cbn in Hf; lia|]. cbn [get_path_f]. rewrite decide_True by done. unfold vec_push.
      rewrite decide_False; [done|]. cbn in Hl. lia.
    - destruct f as [|f]; [cbn in Hf; lia|]. cbn [get_path_f]. cbn in Hl, Hf.
      rewrite decide_False. 2:{ intros ->. by apply (wt_root_nochild W) in Hk. }
      pose proof (lk_ch K _ _ _ Hk) as Hlk. pose proof (wt_ch W _ _ _ Hk) as [Hlive Hlv].
      assert (Hvp : vec_push 10 acc (mkIdx a k) = Panic \/ (vec_push 10 acc (mkIdx a k) = Ok (acc ++ [mkIdx a k]) /\ length acc < 10)).
      { unfold vec_push. case_decide; [right; done|by left]. }
      destruct a as [l|m]; cbn in Hlk, Hlive, Hlv.
      + destruct Hlive as [e He]. rewrite (get_lf_proj _ _ _ _ He Hlk). cbn [rbind l_parent].
        assert (is_Some (kids t i)) as [cs Hki].
        { apply chs_live. intros Hx. rewrite Hx in Hk. done. }
        destruct (get_in_kids t i cs Hki) as (po & s & Hgi & _). rewrite Hgi. cbn [rbind].
        unfold get_leaf_slot. cbn [n_children]. rewrite (wt_leaf_slot W i cs k l Hki Hk). cbn [rbind].
        destruct Hvp as [-> |[-> ?]]; [done|]. cbn [rbind].
        apply IH; rewrite ?app_length; cbn; lia.
      + destruct (live_get_in t m Hlive) as [nd Hg]. rewrite Hg. cbn [rbind]. apply get_in_inv in Hg as [_ Hl2].
        rewrite Hlk in Hl2. injection Hl2 as <- <-. destruct Hvp as [-> |[-> ?]]; [done|]. cbn [rbind ropt].
        apply IH; rewrite ?app_length; cbn; lia.
  Qed.
  Lemma get_path_panic r a : rpath t r a -> 10 < length r -> get_path t a = Panic.
  Proof using W K.
    intros Hr Hl. unfold get_path. pose proof (rpath_fuel r a Hr). rewrite (get_path_f_panic r a Hr); [done|done|cbn; lia|lia].
  Qed.

  (** ** first_path *)
  Lemma first_path_f_ok n : forall f x acc, rpath t (mkIdx x 0 :: rev acc) x -> alv lv x = n -> n < f ->
    length acc + S n <= 10 -> achs t x <> [] \/ n = 0 ->
    exists r l Y, first_path_f f t x acc = Ok r /\ rpath t (rev r) (ALeaf l) /\ gen t n x = ALeaf l :: Y.
  Proof using W K.
    induction n as [|n IH]; intros f x acc Hr Hlv Hf Hl Hne; (destruct f as [|f]; [lia|]); cbn [first_path_f];
      unfold vec_push; (rewrite decide_True by lia); cbn [rbind].
    - destruct x as [l|m]; [|done]. exists (acc ++ [mkIdx (ALeaf l) 0]), l, []. split; [done|]. rewrite rev_app_distr. done.
    - destruct x as [l|m]; [done|]. destruct Hne as [Hne|?]; [|lia]. cbn in Hne, Hlv.
      pose proof (rpath_live _ _ Hr) as Hm. cbn in Hm. destruct (live_get_in t m Hm) as [nd Hg].
      rewrite Hg. cbn [rbind]. apply get_in_inv in Hg as [Hk _]. pose proof (chs_kids _ _ _ Hk) as Hc.
      destruct (n_children nd) as [|c cs]; [done|]. unfold vec_get. cbn [lookup list_lookup ropt rbind].
      assert (chs t m !! 0 = Some (c_arena c)) as H0 by (by rewrite Hc).
      pose proof (wt_ch W _ _ _ H0) as [Hcl Hclv].
      destruct (IH f (c_arena c) (acc ++ [mkIdx (AInt m) 0])) as (r & l & Y & E & Hr' & Hg'); try lia.
      + rewrite rev_app_distr. cbn. by econstructor.
      + rewrite app_length. cbn. lia.
      + destruct (c_arena c) as [lf|q] eqn:Ec; cbn in *; [right; lia|left]. apply (child_ne W m). by eapply elem_of_list_lookup_2.
      + exists r, l. eexists. split; [exact E|]. split; [done|].
        cbn [gen achs]. rewrite Hc. cbn [map mbind list_bind]. rewrite Hg'. done.
  Qed.
  Lemma first_path_ok : chs t (raw (root t)) <> [] -> H <= 8 ->
    exists r l Y, first_path t = Ok (Some r) /\ rpath t (rev r) (ALeaf l) /\ gen t (S H) (root t) = ALeaf l :: Y.
  Proof using W K.
    intros Hne HH. unfold first_path. unfold get_internal. rewrite (wt_root_id W). cbn [unwrap_internal rbind].
    destruct (live_get_in t _ (wt_root_live W)) as [nd Hg]. rewrite Hg. cbn [rbind]. apply get_in_inv in Hg as [Hk _].
    unfold n_is_empty. rewrite bool_decide_eq_false_2.
    2:{ intros Hx. rewrite (chs_kids _ _ _ Hk), Hx in Hne. done. }
    rewrite <- (wt_root_id W).
    destruct (first_path_f_ok (S H) (S (fuel t)) (root t) []) as (r & l & Y & E & Hr & Hg); try done.
    - constructor.
    - apply (alv_root W).
    - pose proof (wt_height_bound W Hne). unfold fuel. lia.
    - cbn. lia.
    - left. by rewrite (wt_root_id W).
    - rewrite E. cbn. eauto 10.
  Qed.
  Lemma first_path_nil : chs t (raw (root t)) = [] -> first_path t = Ok None.
  Proof using W.
    intros Hne. unfold first_path. unfold get_internal. rewrite (wt_root_id W). cbn [unwrap_internal rbind].
    destruct (live_get_in t _ (wt_root_live W)) as [nd Hg]. rewrite Hg. cbn [rbind]. apply get_in_inv in Hg as [Hk _].
    unfold n_is_empty. rewrite bool_decide_eq_true_2; [done|].
    rewrite (chs_kids _ _ _ Hk) in Hne. by apply fmap_nil_inv in Hne.
  Qed.

  (** ** iter *)
  Lemma elems_of_children_ok cs : (forall c, c ∈ cs -> exists l, c_arena c = ALeaf l /\ is_Some (el t l)) ->
    elems_of_children t cs = Ok (map snd (pel t (map c_arena cs))).
  Proof.
    induction cs as [|c cs IH]; intros Hc; [done|]. cbn [elems_of_children map].
    destruct (Hc c) as (l & Ea & e & He); [left|]. rewrite Ea.
    destruct (proj1 (el_llnk t l)) as [p Hp]; [rewrite He; eauto|].
    unfold get_leaf. cbn [unwrap_leaf rbind]. rewrite (get_lf_proj _ _ _ _ He Hp). cbn [rbind].
    rewrite IH by (intros; apply Hc; by right). cbn [rbind l_elem]. by rewrite (pel_cons _ _ _ _ He).
  Qed.
  Lemma iter_f_ok Y : forall f path i X, rpath t (rev path) (AInt i) -> gen t H (root t) = X ++ AInt i :: Y ->
    length path = S H -> length Y < f ->
    iter_f f t path = Ok (map snd (pel t ((AInt i :: Y) ≫= achs t))).
  Proof using W K.
    induction Y as [|b Y IH]; intros f path i X Hr Hg Hl Hf; (destruct f as [|f]; [lia|]); cbn [iter_f].
    all: destruct (rpath_head _ _ _ Hr) as (k & r' & Er).
    all: assert (path = rev r' ++ [mkIdx (AInt i) k]) as Ep by (rewrite <- (rev_involutive path), Er; done).
    all: rewrite Ep at 1; rewrite last_snoc; cbn [ropt rbind i_arena]; unfold get_internal; cbn [unwrap_internal rbind].
    all: destruct (row_get W H i ltac:(rewrite Hg; clear; set_solver)) as (nd & Hgi & Hki & Hci).
    all: rewrite Hgi; cbn [rbind].
    all: assert (Hin : AInt i ∈ gen t H (root t)) by (rewrite Hg; clear; set_solver).
    all: apply (row_live W) in Hin as [_ Hlv]; cbn in Hlv.
    all: rewrite elems_of_children_ok; [|intros c Hc; assert (c_arena c ∈ chs t i) as Hx by (rewrite Hci; by apply elem_of_list_fmap_1);
        destruct (wt_leaf_child W i _ Hx) as [l El]; [lia|]; exists l; split; [done|];
        apply (wt_live_child W) in Hx; by rewrite El in Hx].
    all: cbn [rbind]; pose proof (next_sibling_ok path (AInt i) H X _ Hr ltac:(lia) Hg Hl) as G; cbn in G.
    - rewrite G. cbn. by rewrite app_nil_r, Hci.
    - destruct G as (p2 & -> & Hp2). cbn [rbind].
      destruct (row_int W H ltac:(lia) b) as [j ->]; [rewrite Hg; clear; set_solver|].
      rewrite (IH f p2 j (X ++ [AInt i])); [|done|by rewrite <- app_assoc| |cbn in Hf; lia].
      + cbn [rbind]. cbn [mbind list_bind achs]. rewrite Hci, (pel_app t (map _ _)), map_app. done.
      + assert (AInt j ∈ gen t H (root t)) as Hj by (rewrite Hg; clear; set_solver).
        apply (row_live W) in Hj as [_ Hj]. apply rpath_len in Hp2. rewrite rev_length in Hp2. lia.
  Qed.
  Lemma row_length n : n <= H -> length (gen t n (root t)) <= anext (in_nodes t).
  Proof using W.
    intros Hn. rewrite <- (seq_length (anext (in_nodes t)) 0), <- (fmap_length AInt (seq _ _)).
    apply submseteq_length, NoDup_submseteq; [apply (gen_nodup W), (root_live W)|].
    intros a Ha. destruct (row_int W n Hn a Ha) as [m ->]. apply elem_of_list_fmap_1, elem_of_seq.
    apply (row_live W) in Ha as [Ha _]. pose proof (wt_fresh W m Ha). lia.
  Qed.
  Lemma leaves_length : length (leaves t) <= anext (leaf_nodes t).
  Proof using W.
    rewrite <- (seq_length (anext (leaf_nodes t)) 0).
    apply submseteq_length, NoDup_submseteq; [apply (leaves_nodup W)|].
    intros a Ha. apply elem_of_seq. apply (leaves_live W) in Ha. pose proof (wt_lfresh W a Ha). lia.
  Qed.
  Theorem iter_ok : H <= 8 -> iter t = Ok (map snd (cont t H)).
  Proof using W K.
    intros HH. unfold iter. destruct (decide (chs t (raw (root t)) = [])) as [He|He].
    - rewrite (first_path_nil He). cbn [rbind]. unfold get_internal. rewrite (wt_root_id W). cbn [unwrap_internal rbind].
      destruct (live_get_in t _ (wt_root_live W)) as [nd Hg]. rewrite Hg. cbn [rbind]. unfold cont.
      rewrite (wt_root_id W). cbn [gen achs]. by rewrite He.
    - destruct (first_path_ok He HH) as (r & l & Y & -> & Hr & Hg). cbn [rbind].
      destruct r as [|x r _] using rev_ind; [inversion Hr|]. rewrite removelast_last.
      rewrite rev_app_distr in Hr. cbn in Hr.
      inversion Hr as [E1|i a k p Hp Hk]; subst.
      { exfalso. rewrite (wt_root_id W) in *. done. }
      destruct (row_parent W H (ALeaf l) [] Y Hg) as (q & X0 & Y0 & A & C & Hrow & Hc & HA & HY).
      symmetry in HA. apply app_nil in HA as [HX0 ->].
      assert (chs t q !! 0 = Some (ALeaf l)) as Hq by (by rewrite Hc).
      destruct (wt_uniq W _ _ _ _ _ Hk Hq) as [-> ->].
      destruct (row_right W H q X0 Y0 Hrow ltac:(lia)) as [_ HX].
      assert (X0 = []) as ->.
      { destruct X0 as [|b X0]; [done|]. destruct (HX b) as (m & -> & Hm); [left|]. cbn in HX0. by apply app_nil in HX0 as [? _]. }
      pose proof (row_length H ltac:(lia)) as Hrl. rewrite Hrow in Hrl. cbn in Hrl.
      rewrite (iter_f_ok Y0 (fuel t) r q []); try done.
      + f_equal. unfold cont. f_equal. f_equal. rewrite gen_S_r, Hrow. done.
      + apply rpath_len in Hp. rewrite rev_length in Hp. cbn in Hp.
        assert (AInt q ∈ gen t H (root t)) as Hj by (rewrite Hrow; clear; set_solver).
        apply (row_live W) in Hj as [_ Hj]. cbn in Hj. lia.
      + unfold fuel. lia.
  Qed.
  (** ** the leaf iterator behind iter_range *)
  Fixpoint upto (x : nat) (ls : list nat) : list nat :=
    match ls with [] => [] | y :: r => if decide (y = x) then [y] else y :: upto x r end.
  Definition with_node (ls : list nat) : list (nat * leafn B) :=
    omap (fun x => (fun lf => (x, lf)) <$> a_get (leaf_nodes t) x) ls.
  Lemma with_node_cons l lf ls : a_get (leaf_nodes t) l = Some lf -> with_node (l :: ls) = (l, lf) :: with_node ls.
  Proof. clear. intros Hx. unfold with_node. cbn. by rewrite Hx. Qed.
  Lemma leaf_iter_ok Y : forall f path l X l2 k2 r2, rpath t (rev path) (ALeaf l) ->
    gen t (S H) (root t) = X ++ ALeaf l :: map ALeaf Y -> rpath t (mkIdx (ALeaf l2) k2 :: r2) (ALeaf l2) -> length Y < f ->
    leaf_iter_f f t path (Some (mkIdx (ALeaf l2) k2)) = Ok (with_node (upto l2 (l :: Y))).
  Proof using W K.
    induction Y as [|y Y IH]; intros f path l X l2 k2 r2 Hr Hg H2 Hf; (destruct f as [|f]; [lia|]); cbn [leaf_iter_f].
    all: destruct (rpath_head _ _ _ Hr) as (k & r' & Er).
    all: assert (path = rev r' ++ [mkIdx (ALeaf l) k]) as Ep by (rewrite <- (rev_involutive path), Er; done).
    all: pose proof (rpath_len _ _ Hr) as Hlen; rewrite rev_length in Hlen; cbn in Hlen.
    all: pose proof (next_sibling_ok path (ALeaf l) (S H) X _ Hr ltac:(lia) Hg ltac:(lia)) as G; cbn in G.
    all: rewrite Ep at 1; rewrite last_snoc; cbn [ropt rbind i_arena unwrap_leaf].
    all: pose proof (rpath_live _ _ Hr) as [e He].
    all: destruct (proj1 (el_llnk t l)) as [p Hp]; [rewrite He; eauto|].
    all: pose proof (get_lf_proj _ _ _ _ He Hp) as Hget.
    all: assert (a_get (leaf_nodes t) l = Some (mkLeaf e p)) as Hag
          by (unfold get_lf in Hget; destruct (a_get (leaf_nodes t) l); cbn in Hget; congruence).
    all: assert (bool_decide (Some (mkIdx (ALeaf l2) k2) = Some (mkIdx (ALeaf l) k)) = bool_decide (l = l2)) as Hbd
          by (apply bool_decide_ext; split; [congruence|]; intros ->; rewrite Er in Hr;
              pose proof (rpath_unique _ _ Hr _ H2); congruence).
    all: rewrite Hget, Hbd; cbn [upto].
    - rewrite G. cbn [rbind]. cbn [upto]. assert (forall (b0 : bool) (T : Type) (x : T), (if b0 then x else x) = x) as Hif by (by intros []). rewrite Hif. destruct (decide (l = l2)); by rewrite (with_node_cons _ _ _ Hag).
    - destruct G as (p2 & -> & Hp2). cbn [rbind]. destruct (decide (l = l2)) as [Dl|Dl].
      + rewrite bool_decide_eq_true_2 by done. by rewrite (with_node_cons _ _ _ Hag).
      + rewrite bool_decide_eq_false_2 by done. rewrite (IH f p2 y (X ++ [ALeaf l]) l2 k2 r2); try done.
        * cbn [rbind]. by rewrite (with_node_cons _ _ _ Hag).
        * by rewrite <- app_assoc.
        * cbn in Hf. lia.
  Qed.
  Lemma upto_mid z (M Y : list nat) : NoDup (M ++ z :: Y) -> upto z (M ++ z :: Y) = M ++ [z].
  Proof.
    clear. induction M as [|x M IH]; cbn; intros Hnd; [by rewrite decide_True|].
    apply NoDup_cons in Hnd as [Hx Hnd]. rewrite decide_False; [by rewrite IH|]. intros ->. apply Hx. clear; set_solver.
  Qed.
  Lemma leaf_path l : l ∈ leaves t -> H <= 8 -> exists r, rpath t r (ALeaf l) /\ get_path t (ALeaf l) = Ok (rev r).
  Proof using W K.
    intros Hl HH. apply (leaves_live W) in Hl. destruct (rpath_exists (ALeaf l) Hl) as [r Hr]. exists r. split; [done|].
    apply get_path_ok; [done|]. pose proof (rpath_len _ _ Hr). cbn in *. lia.
  Qed.
  Theorem iter_range_ok X M Y (a b : cursor) : H <= 8 -> leaves t = X ++ M ++ Y -> head M = Some (cu_leaf a) -> last M = Some (cu_leaf b) ->
    forall inc, iter_range_ t a b inc = Ok (omap (fun l =>
      if bool_decide (cu_leaf b = l) && bool_decide (cu_offset b = 0) && negb inc then None
      else (fun e => mkES (mkCur l 0) e
               (if decide (cu_leaf a = l) then Some (cu_offset a) else None)
               (if decide (cu_leaf b = l) then Some (cu_offset b) else None)) <$> el t l) M).
  Proof using W K.
    intros HH HL Ha Hb inc. unfold iter_range_.
    destruct M as [|a0 M]; [done|]. cbn in Ha. injection Ha as ->.
    destruct (leaf_path (cu_leaf a)) as (r1 & Hr1 & ->); [rewrite HL; clear; set_solver|done|]. cbn [rbind].
    assert (cu_leaf b ∈ leaves t) as Hbin.
    { rewrite HL. apply last_Some in Hb as [M' ->]. clear; set_solver. }
    destruct (leaf_path (cu_leaf b) Hbin HH) as (r2 & Hr2 & ->). cbn [rbind].
    destruct (rpath_head _ _ _ Hr2) as (k2 & r2' & ->). cbn [rev]. rewrite last_snoc.
    rewrite (leaf_iter_ok (M ++ Y) _ _ (cu_leaf a) (map ALeaf X) _ _ r2').
    - cbn [rbind]. f_equal.
      assert (upto (cu_leaf b) (cu_leaf a :: M ++ Y) = cu_leaf a :: M) as ->.
      { apply last_Some in Hb as [M' HM]. pose proof (leaves_nodup W) as Hnd. rewrite HL in Hnd.
        apply NoDup_app in Hnd as (_ & _ & Hnd). 
        change (cu_leaf a :: M ++ Y) with ((cu_leaf a :: M) ++ Y). rewrite HM in Hnd |- *. rewrite <- app_assoc in Hnd |- *.
        by apply upto_mid. }
      assert (forall l, l ∈ cu_leaf a :: M -> is_Some (el t l)) as Hlive.
      { intros l Hl. apply (leaves_live W). rewrite HL. clear -Hl; set_solver. }
      revert Hlive. generalize (cu_leaf a :: M) as ls. clear.
      induction ls as [|l ls IH]; intros Hl; [done|].
      destruct (Hl l) as [e He]; [left|].
      assert (exists lf, a_get (leaf_nodes t) l = Some lf /\ l_elem lf = e) as (lf & Hlf & Ee).
      { unfold el in He. destruct (a_get (leaf_nodes t) l) as [lf|]; [|done]. exists lf. cbn in He. split; congruence. }
      rewrite (with_node_cons _ _ _ Hlf). specialize (IH ltac:(intros; apply Hl; by right)).
      match goal with |- omap ?f (?x :: ?r) = omap ?g (?y :: ?r') =>
        change (match f x with Some z => z :: omap f r | None => omap f r end = match g y with Some z => z :: omap g r' | None => omap g r' end) end.
      rewrite IH, He, Ee. cbn [fmap option_fmap option_map].
      by destruct (bool_decide (cu_leaf b = l) && bool_decide (cu_offset b = 0) && negb inc).
    - by rewrite rev_involutive.
    - rewrite <- (leaves_gen W), HL. by rewrite !map_app.
    - done.
    - pose proof leaves_length as Hll. rewrite HL in Hll. rewrite !app_length in Hll |- *. cbn in Hll. rewrite app_length in Hll. lia.
  Qed.

  (** ** compare_pos *)
  Definition before n a b : Prop := exists X Y Z, gen t n (root t) = X ++ a :: Y ++ b :: Z.
  Lemma before_parent n a b : before (S n) a b -> n <= H ->
    (exists p A Y C, AInt p ∈ gen t n (root t) /\ chs t p = A ++ a :: Y ++ b :: C) \/
    (exists p q k k', p <> q /\ before n (AInt p) (AInt q) /\ chs t p !! k = Some a /\ chs t q !! k' = Some b).
  Proof using W.
    intros (X & Y & Z & Hg) Hn.
    destruct (row_parent W n _ _ _ Hg) as (p & X0 & Y0 & A & C & Hrow & Hc & -> & HY).
    assert (b ∈ C ++ (Y0 ≫= achs t)) as [Hb|Hb]%elem_of_app by (rewrite <- HY; clear; set_solver).
    - left. apply elem_of_list_split in Hb as (C1 & C2 & ->). exists p, A, C1, C2.
      split; [rewrite Hrow; clear; set_solver|done].
    - right. apply elem_of_list_bind in Hb as (q & Hbq & Hq). destruct q as [l|q]; [by apply not_elem_of_nil in Hbq|].
      apply elem_of_list_lookup in Hbq as [k' Hk']. apply elem_of_list_split in Hq as (Y1 & Y2 & ->).
      exists p, q, (length A), k'. split_and!; try done.
      + intros ->. pose proof (gen_nodup W n (root t) (root_live W)) as Hnd. rewrite Hrow in Hnd.
        apply NoDup_app in Hnd as (_ & _ & Hnd). apply NoDup_cons in Hnd as [Hx _]. apply Hx. clear; set_solver.
      + by exists X0, Y1, Y2.
      + rewrite Hc. by apply list_lookup_middle.
  Qed.
  Lemma before_neq n a b : before n a b -> a <> b.
  Proof using W.
    intros (X & Y & Z & Hg) ->. pose proof (gen_nodup W n (root t) (root_live W)) as Hnd. rewrite Hg in Hnd.
    apply NoDup_app in Hnd as (_ & _ & Hnd). apply NoDup_cons in Hnd as [Hx _]. apply Hx. clear; set_solver.
  Qed.
  Lemma before_in n a b : before n a b -> a ∈ gen t n (root t) /\ b ∈ gen t n (root t).
  Proof. intros (X & Y & Z & ->). clear; set_solver. Qed.
  Lemma cmp_up_ok n : forall f i j ni nj, before n (AInt i) (AInt j) -> n <= H -> n < f ->
    get_in t i = Ok ni -> get_in t j = Ok nj ->
    cmp_up_f f t ni nj = Ok Lt /\ cmp_up_f f t nj ni = Ok Gt.
  Proof using W K.
    induction n as [|n IH]; intros f i j ni nj Hb Hn Hf Hi Hj; (destruct f as [|f]; [lia|]); cbn [cmp_up_f].
    - exfalso. destruct Hb as (X & Y & Z & Hg). cbn in Hg. apply (f_equal length) in Hg. rewrite app_length in Hg. cbn in Hg.
      rewrite app_length in Hg. cbn in Hg. lia.
    - apply get_in_inv in Hi as [_ Hli]. apply get_in_inv in Hj as [_ Hlj].
      destruct (before_parent n _ _ Hb ltac:(lia)) as [(p & A & Y & C & Hp & Hc)|(p & q & k & k' & Hpq & Hb' & Hk & Hk')].
      + assert (chs t p !! length A = Some (AInt i)) as H1 by (rewrite Hc; by apply list_lookup_middle).
        assert (chs t p !! (length A + S (length Y)) = Some (AInt j)) as H2.
        { rewrite Hc, lookup_app_r by lia. replace (length A + S (length Y) - length A) with (S (length Y)) by lia.
          cbn. by apply list_lookup_middle. }
        apply (lk_ch K) in H1, H2. cbn in H1, H2. rewrite Hli in H1. rewrite Hlj in H2. injection H1 as -> ->. injection H2 as -> ->.
        rewrite !decide_True by done. split; f_equal; [apply Nat.compare_lt_iff|apply Nat.compare_gt_iff]; lia.
      + pose proof (lk_ch K _ _ _ Hk) as H1. pose proof (lk_ch K _ _ _ Hk') as H2. cbn in H1, H2.
        rewrite Hli in H1. rewrite Hlj in H2. injection H1 as -> ->. injection H2 as -> ->.
        rewrite !decide_False by congruence. cbn [ropt rbind]. unfold get_internal. cbn [unwrap_internal rbind].
        destruct (before_in _ _ _ Hb') as [Hp Hq].
        destruct (row_get W n p Hp) as (np & Hgp & _). destruct (row_get W n q Hq) as (nq & Hgq & _).
        rewrite Hgp, Hgq. cbn [rbind]. apply (IH f p q); try done; lia.
  Qed.
  Lemma cmp_children_ok cs (x y : nat) : (forall c, c ∈ cs -> exists l, c_arena c = ALeaf l) ->
    forall A Y C, map c_arena cs = A ++ ALeaf x :: Y ++ ALeaf y :: C -> NoDup (map c_arena cs) ->
    cmp_children cs x y = Some Lt /\ cmp_children cs y x = Some Gt.
  Proof.
    clear. induction cs as [|c cs IH]; intros Hl A Y C Hc Hnd; [by destruct A|]. cbn [cmp_children].
    destruct (Hl c) as [z Hz]; [left|]. cbn in Hc, Hnd. rewrite Hz in *. cbn [raw]. apply NoDup_cons in Hnd as [Hni Hnd].
    assert (x <> y) as Hxy.
    { intros ->. destruct A as [|a1 A]; cbn in Hc; injection Hc as Hc1 Hc2.
      - subst z. apply Hni. rewrite Hc2. clear; set_solver.
      - rewrite Hc2 in Hnd. apply NoDup_app in Hnd as (_ & _ & Hnd). apply NoDup_cons in Hnd as [Hnd _]. apply Hnd. clear; set_solver. }
    destruct A as [|a1 A]; cbn in Hc; injection Hc as Hc1 Hc2.
    - subst z. by rewrite (decide_True (P := x = x)), (decide_False (P := x = y)), (decide_True (P := x = x)).
    - assert (z <> x /\ z <> y) as [Hzx Hzy].
      { split; intros ->; apply Hni; rewrite Hc2; clear; set_solver. }
      rewrite !decide_False by done. eapply IH; [intros; apply Hl; by right| |done]. exact Hc2.
  Qed.
  Theorem compare_pos_ok (a b : cursor) X Y Z : leaves t = X ++ cu_leaf a :: Y ++ cu_leaf b :: Z ->
    compare_pos t a b = Ok Lt /\ compare_pos t b a = Ok Gt.
  Proof using W K.
    intros HL. unfold compare_pos.
    assert (Hb : before (S H) (ALeaf (cu_leaf a)) (ALeaf (cu_leaf b))).
    { exists (map ALeaf X), (map ALeaf Y), (map ALeaf Z). rewrite <- (leaves_gen W), HL, map_app. cbn. by rewrite map_app. }
    pose proof (before_neq _ _ _ Hb) as Hne. destruct (before_in _ _ _ Hb) as [Ha Hbn].
    apply (row_live W) in Ha as [[ea Ha] _]. apply (row_live W) in Hbn as [[eb Hbn] _]. 
    rewrite !decide_False by congruence.
    destruct (leaf_at W K _ _ Ha) as (pa & ca & ka & xa & Hla & Hka & Hca & Haa & Hlva & Hga & Hcka).
    destruct (leaf_at W K _ _ Hbn) as (pb & cb & kb & xb & Hlb & Hkb & Hcb & Hab & Hlvb & Hgb & Hckb).
    rewrite Hga, Hgb. cbn [rbind l_parent].
    destruct (get_in_kids t pa ca Hka) as (po1 & s1 & Hg1 & _). destruct (get_in_kids t pb cb Hkb) as (po2 & s2 & Hg2 & _).
    rewrite Hg1, Hg2. cbn [rbind].
    destruct (before_parent H _ _ Hb ltac:(lia)) as [(p & A & Y1 & C & Hp & Hc)|(p & q & k & k' & Hpq & Hb' & Hk & Hk')].
    - assert (chs t p !! length A = Some (ALeaf (cu_leaf a))) as H1 by (rewrite Hc; by apply list_lookup_middle).
      assert (chs t p !! (length A + S (length Y1)) = Some (ALeaf (cu_leaf b))) as H2.
      { rewrite Hc, lookup_app_r by lia. replace (length A + S (length Y1) - length A) with (S (length Y1)) by lia.
        cbn. by apply list_lookup_middle. }
      destruct (wt_uniq W _ _ _ _ _ Hcka H1) as [-> ->]. destruct (wt_uniq W _ _ _ _ _ Hckb H2) as [-> ->].
      rewrite decide_True by done. rewrite decide_True by done. rewrite Hka in Hkb. injection Hkb as <-. cbn [n_children].
      rewrite (chs_kids _ _ _ Hka) in Hc.
      destruct (cmp_children_ok ca (cu_leaf a) (cu_leaf b)) with (A := A) (Y := Y1) (C := C) as [-> HG]; try done.
      + intros c Hc1. apply (wt_leaf_child W p); [|done]. rewrite (chs_kids _ _ _ Hka). by apply elem_of_list_fmap_1.
      + by apply (wt_nodup_cs W p).
      + split; [done|]. rewrite Hg1 in Hg2. injection Hg2 as <- <-. by rewrite HG.
    - destruct (wt_uniq W _ _ _ _ _ Hcka Hk) as [-> ->]. destruct (wt_uniq W _ _ _ _ _ Hckb Hk') as [-> ->].
      rewrite !decide_False by congruence.
      assert (Hf : H < fuel t).
      { destruct Hb' as (X' & Y' & Z' & Hrow). pose proof (row_length H ltac:(lia)) as Hrl.
        assert (chs t (raw (root t)) <> []) as Hrt.
        { destruct H as [|H']; [cbn in Hrow; apply (f_equal length) in Hrow; rewrite app_length in Hrow; cbn in Hrow; rewrite app_length in Hrow; cbn in Hrow; lia|].
          intros Hx. cbn [gen] in Hrow. rewrite (wt_root_id W) in Hrow. cbn in Hrow. rewrite Hx in Hrow. by destruct X'. }
        pose proof (wt_height_bound W Hrt). unfold fuel. lia. }
      by apply (cmp_up_ok H (fuel t) p q).
  Qed.
  Lemma compare_pos_same (a b : cursor) : cu_leaf a = cu_leaf b -> compare_pos t a b = Ok (Nat.compare (cu_offset a) (cu_offset b)).
  Proof. intros Hx. unfold compare_pos. by rewrite decide_True. Qed.

  (** ** depth *)
  Lemma depth_ok : chs t (raw (root t)) <> [] -> depth t = Ok (S H).
  Proof using W.
    intros Hne. unfold depth. rewrite (wt_root_id W). cbn [unwrap_internal rbind].
    assert (G : forall n i, lv i = n -> is_Some (kids t i) -> chs t i <> [] -> forall f, n < f -> depth_f f t i = Ok (S n)).
    { induction n as [|n IH]; intros i Hlv Hi Hni f Hf; (destruct f as [|f]; [lia|]); cbn [depth_f];
      destruct (live_get_in t i Hi) as [nd Hg]; rewrite Hg; cbn [rbind]; apply get_in_inv in Hg as [Hk _];
      pose proof (chs_kids _ _ _ Hk) as Hc; destruct (n_children nd) as [|c cs]; try done; cbn [head ropt rbind].
      - destruct (wt_leaf_child W i (c_arena c)) as [l El]; [rewrite Hc; left|done|]. by rewrite El.
      - destruct (wt_int_child W i (c_arena c)) as (m & Em & Hm); [rewrite Hc; left|lia|]. rewrite Em.
        assert (AInt m ∈ chs t i) as Hin by (rewrite Hc, <- Em; left).
        rewrite (IH m); [done|lia|by apply (wt_live_child W) in Hin|by apply (child_ne W i)|lia]. }
    apply G; [apply (wt_root_lv W)|apply (wt_root_live W)|done|]. pose proof (wt_height_bound W Hne). unfold fuel. lia.
  Qed.
End wt.
End path.
