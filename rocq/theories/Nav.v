(** Nav.v — moving along a level of the tree (lib.rs:1676-1706, 2338-2418): the neighbours
    computed from parent links and slots are the neighbours in the row of the level. *)
From Verif Require Export Edit.

Section nav.
Context {B : BTreeTrait}.
Notation btree := (btree B).
Notation child := (child B).
Implicit Types (t : btree) (i j m p q k s : nat) (a b : aidx) (c : child) (cs : list child).

Lemma head_map {A C} (f : A -> C) (l : list A) : head (map f l) = f <$> head l.
Proof. by destruct l. Qed.
Lemma last_map {A C} (f : A -> C) (l : list A) : last (map f l) = f <$> last l.
Proof. apply fmap_last. Qed.

Section row.
  Context {t : btree} {H : nat} {lv : nat -> nat} (W : WT NoE t H lv).

  Lemma row_live n a : a ∈ gen t n (root t) -> live t a /\ alv lv a + n = S H.
  Proof. intros Ha. rewrite <- (alv_root W). by apply (gen_live W); [apply (root_live W)|]. Qed.
  Lemma row_ne n m : AInt m ∈ gen t (S n) (root t) -> chs t m <> [].
  Proof.
    intros Hm. apply row_live in Hm as [Hm Hlv]. cbn in Hlv. apply (wt_ne W m); [done| |intros []].
    intros Hr. pose proof (wt_root_lv W) as Hx. rewrite <- Hr in Hx. cbn in Hx. lia.
  Qed.
  (** decomposition of a row around a node in terms of the row above *)
  Lemma row_parent n a X Y : gen t (S n) (root t) = X ++ a :: Y ->
    exists p X0 Y0 A C, gen t n (root t) = X0 ++ AInt p :: Y0 /\ chs t p = A ++ a :: C /\
      X = (X0 ≫= achs t) ++ A /\ Y = C ++ (Y0 ≫= achs t).
  Proof.
    intros Hg. assert (a ∈ gen t (S n) (root t)) as Hin by (rewrite Hg; set_solver).
    pose proof (gen_nodup W (S n) (root t) (root_live W)) as Hnd.
    rewrite gen_S_r in *. apply elem_of_list_bind in Hin as (b & Hab & Hb).
    destruct b as [l|p]; [by apply not_elem_of_nil in Hab|]. cbn in Hab.
    apply elem_of_list_split in Hb as (X0 & Y0 & Hr). apply elem_of_list_split in Hab as (A & C & Hc).
    exists p, X0, Y0, A, C. split; [done|]. split; [done|].
    assert (gen t n (root t) ≫= achs t = ((X0 ≫= achs t) ++ A) ++ a :: (C ++ (Y0 ≫= achs t))) as Hg2.
    { rewrite Hr, bind_app. cbn. rewrite Hc. by rewrite <- !app_assoc. }
    rewrite Hg in Hnd, Hg2. by apply nodup_split_unique in Hg2.
  Qed.
  Lemma bind_head (Y : list aidx) : (forall a, a ∈ Y -> exists m, a = AInt m /\ chs t m <> []) ->
    head (Y ≫= achs t) = match Y with [] => None | a :: _ => head (achs t a) end.
  Proof.
    destruct Y as [|a Y]; [done|]. intros Ha. cbn. destruct (Ha a) as (m & -> & Hm); [left|]. cbn.
    by destruct (chs t m).
  Qed.
  Lemma bind_last (Y : list aidx) : (forall a, a ∈ Y -> exists m, a = AInt m /\ chs t m <> []) ->
    last (Y ≫= achs t) = match last Y with None => None | Some a => last (achs t a) end.
  Proof.
    induction Y as [|a Y IH] using rev_ind; [done|]. intros Ha. rewrite bind_app, last_app. cbn. rewrite app_nil_r.
    rewrite last_snoc. destruct (Ha a) as (m & -> & Hm); [set_solver|]. cbn.
    destruct (chs t m) as [|x l] eqn:Ex; [done|]. destruct (last (x :: l)) eqn:El; [done|]. by apply last_None in El.
  Qed.
  Lemma row_int n : n <= H -> forall a, a ∈ gen t n (root t) -> exists m, a = AInt m.
  Proof.
    intros Hn a Ha. apply row_live in Ha as [_ Hlv]. destruct a as [l|m]; [cbn in Hlv; lia|eauto].
  Qed.
  (* siblings right of / left of a node *)
  Lemma row_right n p X0 Y0 : gen t n (root t) = X0 ++ AInt p :: Y0 -> n <= H ->
    (forall a, a ∈ Y0 -> exists m, a = AInt m /\ chs t m <> []) /\
    (forall a, a ∈ X0 -> exists m, a = AInt m /\ chs t m <> []).
  Proof.
    intros Hg Hn.
    assert (forall a, a ∈ X0 \/ a ∈ Y0 -> exists m, a = AInt m /\ chs t m <> []) as G; [|split; intros; apply G; auto].
    intros a Ha. assert (a ∈ gen t n (root t)) as Hin by (rewrite Hg; set_solver).
    destruct (row_int n Hn a Hin) as [m ->]. exists m. split; [done|].
    destruct n as [|n]; [|by eapply row_ne].
    cbn in Hg. apply (f_equal length) in Hg. rewrite app_length in Hg. cbn in Hg.
    destruct X0; [|cbn in Hg; lia]. destruct Y0; [|cbn in Hg; lia]. destruct Ha as [Ha|Ha]; by apply not_elem_of_nil in Ha.
  Qed.
  Lemma row_get n m : AInt m ∈ gen t n (root t) -> exists nd, get_in t m = Ok nd /\ kids t m = Some (n_children nd)
     /\ chs t m = map c_arena (n_children nd).
  Proof.
    intros Hm. apply row_live in Hm as [Hm _]. destruct (live_get_in t m Hm) as [nd Hg].
    exists nd. pose proof (get_in_inv _ _ _ Hg) as [Hk _]. split; [done|]. split; [done|]. by apply chs_kids.
  Qed.
  Lemma row_link n i : AInt i ∈ gen t n (root t) -> exists nd, get_in t i = Ok nd /\ lnk t i = Some (n_parent nd, n_slot nd).
  Proof.
    intros Hm. apply row_live in Hm as [Hm _]. destruct (live_get_in t i Hm) as [nd Hg].
    exists nd. split; [done|]. by apply get_in_inv in Hg as [_ ?].
  Qed.

  
  Context (K : LK t).
  Lemma next_int_ok n : forall f i X Y, n <= H -> gen t n (root t) = X ++ AInt i :: Y -> n < f ->
    next_int_f f t i = Ok (head Y).
  Proof.
    induction n as [|n IH]; intros f i X Y Hn Hg Hf; (destruct f as [|f]; [lia|]); cbn [next_int_f];
      (destruct (row_link _ i ltac:(rewrite Hg; set_solver)) as (nd & Hgi & Hl)); rewrite Hgi; cbn [rbind].
    - cbn in Hg. destruct X as [|x X]; [|by destruct X]. injection Hg as Hr <-.
      destruct (lk_root K i) as [s Hs]; [done|]. rewrite Hs in Hl. injection Hl as <- _. done.
    - destruct (row_parent n _ _ _ Hg) as (p & X0 & Y0 & A & C & Hr & Hc & -> & ->).
      assert (chs t p !! length A = Some (AInt i)) as Hk by (rewrite Hc; by apply list_lookup_middle).
      pose proof (lk_ch K _ _ _ Hk) as Hlk. cbn in Hlk. rewrite Hlk in Hl. injection Hl as <- <-.
      cbn [rbind unwrap_internal].
      destruct (row_get n p ltac:(rewrite Hr; set_solver)) as (pn & Hgp & Hkp & Hcp). rewrite Hgp. cbn [rbind].
      assert (head C = c_arena <$> n_children pn !! S (length A)) as HC.
      { change (map c_arena (n_children pn)) with (c_arena <$> n_children pn) in Hcp.
        rewrite <- list_lookup_fmap, <- Hcp, Hc, lookup_app_r by lia.
        replace (S (length A) - length A) with 1 by lia. by destruct C. }
      destruct (n_children pn !! S (length A)) as [c|] eqn:Ec; cbn in HC.
      + destruct C as [|x C]; [done|]. cbn in HC |- *. by rewrite HC.
      + destruct C as [|x C]; [|done]. cbn [app].
        rewrite (IH f p X0 Y0) by (done || lia). cbn [rbind].
        destruct (row_right n p X0 Y0 Hr ltac:(lia)) as [HY _]. rewrite (bind_head Y0 HY).
        destruct Y0 as [|b Y0]; [done|]. cbn [head]. destruct (HY b) as (m & -> & Hm); [left|].
        cbn [get_internal unwrap_internal rbind].
        destruct (row_get n m ltac:(rewrite Hr; set_solver)) as (qn & Hgq & Hkq & Hcq).
        unfold get_internal. cbn [unwrap_internal rbind]. rewrite Hgq. cbn. by rewrite Hcq, head_map.
  Qed.
  Lemma prev_int_ok n : forall f i X Y, n <= H -> gen t n (root t) = X ++ AInt i :: Y -> n < f ->
    prev_int_f f t i = Ok (last X).
  Proof.
    induction n as [|n IH]; intros f i X Y Hn Hg Hf; (destruct f as [|f]; [lia|]); cbn [prev_int_f];
      (destruct (row_link _ i ltac:(rewrite Hg; set_solver)) as (nd & Hgi & Hl)); rewrite Hgi; cbn [rbind].
    - cbn in Hg. destruct X as [|x X]; [|by destruct X]. injection Hg as Hr <-.
      destruct (lk_root K i) as [s Hs]; [done|]. rewrite Hs in Hl. injection Hl as <- _. done.
    - destruct (row_parent n _ _ _ Hg) as (p & X0 & Y0 & A & C & Hr & Hc & -> & ->).
      assert (chs t p !! length A = Some (AInt i)) as Hk by (rewrite Hc; by apply list_lookup_middle).
      pose proof (lk_ch K _ _ _ Hk) as Hlk. cbn in Hlk. rewrite Hlk in Hl. injection Hl as <- <-.
      cbn [rbind unwrap_internal].
      destruct (row_get n p ltac:(rewrite Hr; set_solver)) as (pn & Hgp & Hkp & Hcp). rewrite Hgp. cbn [rbind].
      destruct A as [|x A _] using rev_ind; [cbn [length]|rewrite app_length, Nat.add_1_r].
      + rewrite (IH f p X0 Y0) by (done || lia). cbn [rbind]. rewrite app_nil_r.
        destruct (row_right n p X0 Y0 Hr ltac:(lia)) as [_ HX]. rewrite (bind_last X0 HX).
        destruct (last X0) as [b|] eqn:Eb; [|done]. destruct (HX b) as (m & -> & Hm).
        { apply last_Some in Eb as [? ->]. set_solver. }
        assert (AInt m ∈ X0) as HmX by (apply last_Some in Eb as [? ->]; set_solver).
        destruct (row_get n m ltac:(rewrite Hr; set_solver)) as (qn & Hgq & Hkq & Hcq).
        unfold get_internal. cbn [unwrap_internal rbind]. rewrite Hgq. cbn. by rewrite Hcq, last_map.
      + assert (n_children pn !! length A = None \/ exists c, n_children pn !! length A = Some c /\ c_arena c = x) as HC.
        { right. assert (map c_arena (n_children pn) !! length A = Some x) as Hx.
          { rewrite <- Hcp, Hc, <- app_assoc. by apply list_lookup_middle. }
          rewrite list_lookup_fmap in Hx. destruct (n_children pn !! length A); [|done]. cbn in Hx. eexists. split; [done|]. congruence. }
        destruct HC as [HC|(c & HC & Ha)].
        { exfalso. apply lookup_ge_None in HC. apply (f_equal length) in Hcp. rewrite Hc, !app_length, map_length in Hcp.
          cbn in Hcp. lia. }
        unfold vec_get. rewrite HC. cbn. rewrite Ha. by rewrite app_assoc, last_snoc.
  Qed.
End row.

Section leafnav.
  Context {t : btree} {H : nat} {lv : nat -> nat} (W : WT NoE t H lv) (K : LK t).
  (** position of a leaf *)
  Lemma leaf_at l e : el t l = Some e -> exists p cs k c, llnk t l = Some p /\ kids t p = Some cs /\ cs !! k = Some c /\
    c_arena c = ALeaf l /\ lv p = 0 /\ get_lf t l = Ok (mkLeaf e p) /\ chs t p !! k = Some (ALeaf l).
  Proof.
    intros He. destruct (wt_up W (ALeaf l)) as (p & k & Hk).
    { cbn. rewrite He. eauto. }
    { rewrite (wt_root_id W). done. }
    pose proof (lk_ch K _ _ _ Hk) as Hl. cbn in Hl.
    destruct (wt_ch W _ _ _ Hk) as [_ Hlv]. cbn in Hlv.
    destruct (chs_lookup _ _ _ _ Hk) as (cs & c & Hkp & Hc & Ha).
    exists p, cs, k, c. split_and!; try done. by apply get_lf_proj.
  Qed.
  Lemma leaf_row l e : el t l = Some e -> exists X Y, gen t (S H) (root t) = X ++ ALeaf l :: Y.
  Proof.
    intros He. apply elem_of_list_split. apply (gen_complete W); [cbn; rewrite He; eauto|]. cbn. lia.
  Qed.
  Lemma next_leaf_ok l X Y : gen t (S H) (root t) = X ++ ALeaf l :: Y ->
    next_same_level_in_node t (ALeaf l) = Ok (head Y).
  Proof.
    intros Hg. destruct (row_live W (S H) (ALeaf l)) as [[e He] _]; [rewrite Hg; set_solver|]. 
    destruct (leaf_at l e He) as (p & cs & k & c & Hl & Hk & Hc & Ha & Hlv & Hget & Hck).
    unfold next_same_level_in_node. rewrite Hget. cbn [rbind l_parent].
    destruct (row_parent W H _ _ _ Hg) as (p' & X0 & Y0 & A & C & Hr & Hcp & -> & ->).
    assert (chs t p' !! length A = Some (ALeaf l)) as Hk' by (rewrite Hcp; by apply list_lookup_middle).
    destruct (wt_uniq W _ _ _ _ _ Hk' Hck) as [-> <-].
    destruct (get_in_kids t p cs Hk) as (po & s & Hgp & _). rewrite Hgp. cbn [rbind].
    unfold get_leaf_slot. cbn [n_children]. rewrite (wt_leaf_slot W p cs _ l Hk Hck). cbn [rbind].
    pose proof (chs_kids _ _ _ Hk) as Hcs.
    assert (head C = c_arena <$> cs !! S (length A)) as HC.
    { change (map c_arena cs) with (c_arena <$> cs) in Hcs. rewrite <- list_lookup_fmap, <- Hcs, Hcp, lookup_app_r by lia.
      replace (S (length A) - length A) with 1 by lia. by destruct C. }
    destruct (cs !! S (length A)) as [c'|] eqn:Ec; cbn in HC.
    - destruct C as [|x C]; [done|]. cbn in HC |- *. by rewrite HC.
    - destruct C as [|x C]; [|done]. cbn [app].
      assert (is_Some (kids t p)) as Hpl by (rewrite Hk; eauto).
      rewrite (next_int_ok W K H (fuel t) p X0 Y0); [|done|done|].
      2:{ pose proof (wt_depth_bound W p Hpl). unfold fuel. lia. }
      cbn [rbind]. destruct (row_right W H p X0 Y0 Hr ltac:(lia)) as [HY _]. rewrite (bind_head Y0 HY).
      destruct Y0 as [|b Y0]; [done|]. cbn [head]. destruct (HY b) as (m & -> & Hm); [left|].
      destruct (row_get W H m ltac:(rewrite Hr; set_solver)) as (qn & Hgq & Hkq & Hcq).
      unfold get_internal. cbn [unwrap_internal rbind]. rewrite Hgq. cbn. rewrite Hcq, head_map.
      rewrite Hcq in Hm. by destruct (n_children qn).
  Qed.
  Lemma prev_leaf_ok l X Y : gen t (S H) (root t) = X ++ ALeaf l :: Y ->
    prev_same_level_in_node t (ALeaf l) = Ok (last X).
  Proof.
    intros Hg. destruct (row_live W (S H) (ALeaf l)) as [[e He] _]; [rewrite Hg; set_solver|]. 
    destruct (leaf_at l e He) as (p & cs & k & c & Hl & Hk & Hc & Ha & Hlv & Hget & Hck).
    unfold prev_same_level_in_node. rewrite Hget. cbn [rbind l_parent].
    destruct (row_parent W H _ _ _ Hg) as (p' & X0 & Y0 & A & C & Hr & Hcp & -> & ->).
    assert (chs t p' !! length A = Some (ALeaf l)) as Hk' by (rewrite Hcp; by apply list_lookup_middle).
    destruct (wt_uniq W _ _ _ _ _ Hk' Hck) as [-> <-].
    destruct (get_in_kids t p cs Hk) as (po & s & Hgp & _). rewrite Hgp. cbn [rbind].
    unfold get_leaf_slot. cbn [n_children]. rewrite (wt_leaf_slot W p cs _ l Hk Hck). cbn [rbind].
    pose proof (chs_kids _ _ _ Hk) as Hcs.
    destruct A as [|x A _] using rev_ind; [cbn [length]|rewrite app_length, Nat.add_1_r].
    - assert (is_Some (kids t p)) as Hpl by (rewrite Hk; eauto).
      rewrite (prev_int_ok W K H (fuel t) p X0 Y0); [|done|done|].
      2:{ pose proof (wt_depth_bound W p Hpl). unfold fuel. lia. }
      cbn [rbind]. rewrite app_nil_r. destruct (row_right W H p X0 Y0 Hr ltac:(lia)) as [_ HX]. rewrite (bind_last W X0 HX).
      destruct (last X0) as [b|] eqn:Eb; [|done].
      assert (b ∈ X0) as HbX by (apply last_Some in Eb as [? ->]; set_solver).
      destruct (HX b HbX) as (m & -> & Hm).
      destruct (row_get W H m ltac:(rewrite Hr; set_solver)) as (qn & Hgq & Hkq & Hcq).
      unfold get_internal. cbn [unwrap_internal rbind]. rewrite Hgq. cbn [rbind]. cbn [achs]. rewrite Hcq in Hm |- *. rewrite last_map.
      destruct (last (n_children qn)) eqn:El; [done|]. apply last_None in El. by rewrite El in Hm.
    - assert (map c_arena cs !! length A = Some x) as Hx.
      { rewrite <- Hcs, Hcp, <- app_assoc. by apply list_lookup_middle. }
      rewrite list_lookup_fmap in Hx. unfold vec_get. destruct (cs !! length A) as [c'|]; [|done]. cbn in Hx |- *.
      injection Hx as ->. by rewrite app_assoc, last_snoc.
  Qed.

End leafnav.

Section ends.
  Context {t : btree} {H : nat} {lv : nat -> nat} (W : WT NoE t H lv).
  (** first_leaf / last_leaf *)
  Lemma sub_ne n : forall m, chs t m <> [] -> lv m = n -> gen t (S n) (AInt m) <> [].
  Proof.
    induction n as [|n IH]; intros m Hne Hlm.
    - cbn [gen achs]. by rewrite bind_singleton_id.
    - destruct (chs t m) as [|y l] eqn:Ec; [done|].
      assert (y ∈ chs t m) as Hy by (rewrite Ec; left).
      destruct (wt_int_child W m y Hy) as (m2 & -> & Hm2); [lia|].
      change (gen t (S (S n)) (AInt m)) with (chs t m ≫= gen t (S n)). rewrite Ec. cbn [mbind list_bind].
      intros [He _]%app_nil. revert He. apply IH; [|lia].
      apply (wt_ne W m2); [by apply (wt_live_child W) in Hy| |intros []].
      intros Hr. apply elem_of_list_lookup in Hy as [k Hin]. rewrite Hr in Hin. by apply (wt_root_nochild W) in Hin.
  Qed.
  Lemma child_ne m j : AInt j ∈ chs t m -> chs t j <> [].
  Proof.
    intros Hy. apply (wt_ne W j); [by apply (wt_live_child W) in Hy| |intros []].
    intros Hr. apply elem_of_list_lookup in Hy as [k Hin]. rewrite Hr in Hin. by apply (wt_root_nochild W) in Hin.
  Qed.
  Lemma first_leaf_ok : first_leaf t = Ok (head (leaves t)).
  Proof.
    unfold first_leaf. rewrite (wt_root_id W). cbn [unwrap_internal rbind].
    destruct (decide (chs t (raw (root t)) = [])) as [He|He].
    { destruct (live_get_in t _ (wt_root_live W)) as [nd Hg]. unfold fuel. cbn [first_leaf_f]. rewrite Hg. cbn [rbind].
      apply get_in_inv in Hg as [Hk _]. rewrite (leaves_raw W). rewrite (wt_root_id W). cbn [gen achs]. rewrite He. cbn.
      rewrite (chs_kids _ _ _ Hk) in He. apply fmap_nil_inv in He. by rewrite He. }
    assert (G : forall n i, lv i = n -> is_Some (kids t i) -> chs t i <> [] -> forall f, n < f ->
      first_leaf_f f t i = Ok (raw <$> head (gen t (S n) (AInt i)))).
    { induction n as [|n IH]; intros i Hlv Hi Hne f Hf; (destruct f as [|f]; [lia|]); cbn [first_leaf_f];
      destruct (live_get_in t i Hi) as [nd Hg]; rewrite Hg; cbn [rbind]; apply get_in_inv in Hg as [Hk _];
      pose proof (chs_kids _ _ _ Hk) as Hc; destruct (n_children nd) as [|c cs]; try done; cbn [head].
      - destruct (wt_leaf_child W i (c_arena c)) as [l El]; [rewrite Hc; left|done|]. rewrite El.
        cbn [gen achs]. rewrite Hc. cbn. by rewrite El.
      - destruct (wt_int_child W i (c_arena c)) as (m & Em & Hm); [rewrite Hc; left|lia|]. rewrite Em.
        assert (AInt m ∈ chs t i) as Hin by (rewrite Hc, <- Em; left).
        pose proof (child_ne _ _ Hin) as Hmne.
        rewrite (IH m); [|lia|by apply (wt_live_child W) in Hin|done|lia].
        change (gen t (S (S n)) (AInt i)) with (chs t i ≫= gen t (S n)). rewrite Hc. cbn [map mbind list_bind]. rewrite Em.
        pose proof (sub_ne n m Hmne ltac:(lia)) as Hx. by destruct (gen t (S n) (AInt m)). }
    rewrite (G H).
    - rewrite (leaves_raw W), <- (wt_root_id W). by rewrite head_map.
    - apply (wt_root_lv W).
    - apply (wt_root_live W).
    - done.
    - pose proof (wt_height_bound W He). unfold fuel. lia.
  Qed.
  Lemma last_leaf_ok : last_leaf t = Ok (last (leaves t)).
  Proof.
    unfold last_leaf. rewrite (wt_root_id W). cbn [unwrap_internal rbind].
    destruct (decide (chs t (raw (root t)) = [])) as [He|He].
    { destruct (live_get_in t _ (wt_root_live W)) as [nd Hg]. unfold fuel. cbn [last_leaf_f]. rewrite Hg. cbn [rbind].
      apply get_in_inv in Hg as [Hk _]. rewrite (leaves_raw W). rewrite (wt_root_id W). cbn [gen achs]. rewrite He. cbn.
      rewrite (chs_kids _ _ _ Hk) in He. apply fmap_nil_inv in He. by rewrite He. }
    assert (G : forall n i, lv i = n -> is_Some (kids t i) -> chs t i <> [] -> forall f, n < f ->
      last_leaf_f f t i = Ok (raw <$> last (gen t (S n) (AInt i)))).
    { induction n as [|n IH]; intros i Hlv Hi Hne f Hf; (destruct f as [|f]; [lia|]); cbn [last_leaf_f];
      destruct (live_get_in t i Hi) as [nd Hg]; rewrite Hg; cbn [rbind]; apply get_in_inv in Hg as [Hk _];
      pose proof (chs_kids _ _ _ Hk) as Hc; destruct (n_children nd) as [|c cs _] using rev_ind; try done; rewrite last_snoc;
      rewrite map_app in Hc; cbn [map] in Hc.
      - destruct (wt_leaf_child W i (c_arena c)) as [l El]; [rewrite Hc; set_solver|done|]. rewrite El.
        cbn [gen achs]. rewrite bind_singleton_id, Hc, last_snoc, El. done.
      - destruct (wt_int_child W i (c_arena c)) as (m & Em & Hm); [rewrite Hc; set_solver|lia|]. rewrite Em.
        assert (AInt m ∈ chs t i) as Hin by (rewrite Hc, <- Em; set_solver).
        pose proof (child_ne _ _ Hin) as Hmne.
        rewrite (IH m); [|lia|by apply (wt_live_child W) in Hin|done|lia].
        change (gen t (S (S n)) (AInt i)) with (chs t i ≫= gen t (S n)). rewrite Hc, bind_app. cbn [map mbind list_bind]. rewrite Em, app_nil_r.
        pose proof (sub_ne n m Hmne ltac:(lia)) as Hx. rewrite last_app.
        destruct (last (gen t (S n) (AInt m))) eqn:El; [done|]. by apply last_None in El. }
    rewrite (G H).
    - rewrite (leaves_raw W), <- (wt_root_id W). by rewrite last_map.
    - apply (wt_root_lv W).
    - apply (wt_root_live W).
    - done.
    - pose proof (wt_height_bound W He). unfold fuel. lia.
  Qed.
  Context (K : LK t).
  Lemma next_elem_ok l off X Y : leaves t = X ++ l :: Y -> next_elem t (mkCur l off) = Ok ((fun x => mkCur x 0) <$> head Y).
  Proof.
    intros HL. unfold next_elem. cbn [cu_leaf]. rewrite (next_leaf_ok W K l (map ALeaf X) (map ALeaf Y)).
    - rb. unfold to_cursor. by destruct Y.
    - rewrite <- (leaves_gen W), HL. by rewrite map_app.
  Qed.
  Lemma prev_elem_ok l off X Y : leaves t = X ++ l :: Y -> prev_elem t (mkCur l off) = Ok ((fun x => mkCur x 0) <$> last X).
  Proof.
    intros HL. unfold prev_elem. cbn [cu_leaf]. rewrite (prev_leaf_ok W K l (map ALeaf X) (map ALeaf Y)).
    - rb. unfold to_cursor. rewrite last_map. by destruct (last X).
    - rewrite <- (leaves_gen W), HL. by rewrite map_app.
  Qed.
End ends.
End nav.
