(** CheckP.v — what BTree::check (lib.rs:2771-2853) guarantees when it does not panic. *)
From Verif Require Export Ops2.

Section defs.
Context {B : BTreeTrait} (L : Lawful B).
(** ** Specification: what an intact tree has beyond what [check] looks at *)
Record Unchecked (t : btree B) : Prop := {
  (* leaf entries of a node denote live leaves that name it as their parent *)
  un_leaf : forall i n k c l, a_get (in_nodes t) i = Some n -> n_children n !! k = Some c -> c_arena c = ALeaf l ->
    exists lf, a_get (leaf_nodes t) l = Some lf /\ l_parent lf = i;
  (* no leaf is listed twice in a node *)
  un_once : forall i n k k' c c' l, a_get (in_nodes t) i = Some n -> n_children n !! k = Some c -> n_children n !! k' = Some c' ->
    c_arena c = ALeaf l -> c_arena c' = ALeaf l -> k = k';
  un_root : forall r rn, root t = AInt r -> a_get (in_nodes t) r = Some rn -> n_parent rn = None;
  un_fan : forall i n, a_get (in_nodes t) i = Some n -> length (n_children n) <= 11;
  un_old_in : forall i, is_Some (a_get (in_nodes t) i) -> i < anext (in_nodes t);
  un_old_lf : forall l, is_Some (a_get (leaf_nodes t) l) -> l < anext (leaf_nodes t);
  un_valid : forall l lf, a_get (leaf_nodes t) l = Some lf -> evalid L (l_elem lf);
}.
(** the cache comparison used by [check] (derived PartialEq) *)
Definition EqSound : Prop := forall a b : Cache B, cache_eqb a b = true -> a = b.

Inductive Dist (t : btree B) : nat -> nat -> Prop :=
| di_root r : root t = AInt r -> Dist t r 0
| di_up i n p k : AInt i <> root t -> a_get (in_nodes t) i = Some n -> n_parent n = Some (AInt p) -> Dist t p k -> Dist t i (S k).
End defs.
Arguments un_leaf {B L t} _.
Arguments un_once {B L t} _.
Arguments un_root {B L t} _.
Arguments un_fan {B L t} _.
Arguments un_old_in {B L t} _.
Arguments un_old_lf {B L t} _.
Arguments un_valid {B L t} _.

Section chk.
Context {B : BTreeTrait} (L : Lawful B).
Notation btree := (btree B).
Notation child := (child B).
Notation OK := (OK L).
Notation Tree := (Tree L).
Implicit Types (t : btree) (c : child).

(** ** inversion of the monad *)
Lemma rb {A C} (r : res A) (k : A -> res C) y : rbind r k = Ok y -> exists x, r = Ok x /\ k x = Ok y.
Proof. destruct r; try done. eauto. Qed.
Lemma ra b x : rassert b = Ok x -> b = true.
Proof. by destruct b. Qed.
Lemma rall_ok {A} (f : A -> res unit) l : rall f l = Ok tt -> forall x, x ∈ l -> f x = Ok tt.
Proof.
  induction l as [|y l IH]; intros E x Hx; [by apply elem_of_nil in Hx|]. cbn in E. apply rb in E as ([] & E1 & E2).
  apply elem_of_cons in Hx as [->|Hx]; [done|by apply IH].
Qed.
Lemma slot_inv cs l : forall i s, leaf_slot_from cs l i = Ok s -> exists c, i <= s /\ cs !! (s - i) = Some c /\ c_arena c = ALeaf l.
Proof.
  induction cs as [|c cs IH]; intros i s E; [done|]. cbn in E. apply rb in E as (x & Ex & E). destruct (c_arena c) as [y|y] eqn:Ec; [|done].
  injection Ex as ->. destruct (decide (x = l)) as [->|_].
  - injection E as <-. exists c. rewrite Nat.sub_diag. split; [done|]. by split.
  - apply IH in E as (c' & Hle & E1 & E2). exists c'. split; [lia|]. split; [|done]. by replace (s - i) with (S (s - S i)) by lia.
Qed.
Lemma slot_leaves cs l : forall i s, leaf_slot_from cs l i = Ok s -> forall c, head cs = Some c -> is_leaf (c_arena c) = true.
Proof. destruct cs as [|c cs]; intros i s E c' [= <-]. cbn in E. apply rb in E as (x & Ex & E). by destruct (c_arena c). Qed.

(** ** distances to the root *)
Lemma dist_det t i k : Dist t i k -> forall k', Dist t i k' -> k = k'.
Proof.
  induction 1 as [r Hr|i n p k Hne Hg Hp HD IH]; intros k' H'; inversion H' as [? E|? ? ? ? N1 G1 P1 D1]; subst; try congruence.
  assert (n0 = n) by congruence. subst n0. assert (p0 = p) as -> by congruence. f_equal. by apply IH.
Qed.

(** ** what the two loops of [check] establish *)
Record Chk t r : Prop := {
  ck_root : root t = AInt r;
  ck_live : exists rn x d, a_get (in_nodes t) r = Some rn /\ calc_cache rn cache_default None = Ok (x, d) /\ cache_eqb (root_cache t) x = true;
  ck_ne : forall i n, a_get (in_nodes t) i = Some n -> i <> r -> n_children n <> [];
  ck_int : forall i n k c m, a_get (in_nodes t) i = Some n -> n_children n !! k = Some c -> c_arena c = AInt m ->
    exists mn x d, a_get (in_nodes t) m = Some mn /\ n_slot mn = k /\ n_parent mn = Some (AInt i) /\
      calc_cache mn cache_default None = Ok (x, d) /\ cache_eqb x (c_cache c) = true;
  ck_par : forall i n q, a_get (in_nodes t) i = Some n -> n_parent n = Some q ->
    exists p pn c w, q = AInt p /\ a_get (in_nodes t) p = Some pn /\ n_children pn !! n_slot n = Some c /\ c_arena c = AInt i /\
      get_path t (AInt i) = Ok w;
  ck_top : forall i n, a_get (in_nodes t) i = Some n -> n_parent n = None -> i = r;
  ck_lev : exists lev, forall l lf, a_get (leaf_nodes t) l = Some lf -> level_f (fuel t) t (l_parent lf) = Ok lev;
  ck_leaf : forall l lf, a_get (leaf_nodes t) l = Some lf -> exists pn s c w, a_get (in_nodes t) (l_parent lf) = Some pn /\
    leaf_slot_from (n_children pn) l 0 = Ok s /\ n_children pn !! s = Some c /\ cache_eqb (c_cache c) (get_elem_cache (l_elem lf)) = true /\
    get_path t (ALeaf l) = Ok w;
}.
Lemma ropt_ok {A} (o : option A) x : ropt o = Ok x -> o = Some x.
Proof. destruct o; [|done]. by intros [= ->]. Qed.
Lemma check_leaves_ok t ls : forall lev, check_leaves t ls lev = Ok tt ->
  exists e, (forall e', lev = Some e' -> e = e') /\ forall l lf, (l, lf) ∈ ls -> level_f (fuel t) t (l_parent lf) = Ok e /\
    exists pn s c w, a_get (in_nodes t) (l_parent lf) = Some pn /\
    leaf_slot_from (n_children pn) l 0 = Ok s /\ n_children pn !! s = Some c /\ cache_eqb (c_cache c) (get_elem_cache (l_elem lf)) = true /\
    get_path t (ALeaf l) = Ok w.
Proof.
  induction ls as [|[l lf] ls IH]; intros lev E.
  { exists (default 0 lev). split; [by intros ? ->|]. intros ? ? []%elem_of_nil. }
  cbn [check_leaves] in E. apply rb in E as (len & El & E). apply rb in E as (lev' & Elev & E). apply rb in E as (pn & Epn & E).
  apply rb in E as (s & Es & E). apply rb in E as (c & Ec & E). apply rb in E as ([] & Eb & E). apply rb in E as (w & Ew & E).
  apply IH in E as (e & He & Hall). pose proof (He _ eq_refl) as ->.
  assert (len = lev' /\ forall e', lev = Some e' -> lev' = e') as [-> Hlev].
  { destruct lev as [e|]; [|injection Elev as ->; done]. apply rb in Elev as (u & Eu & E2). apply ra, bool_decide_eq_true in Eu. injection E2 as ->.
    subst. split; [done|]. by intros ? [= ->]. }
  exists lev'. split; [done|]. intros l' lf' [[= -> ->]|Hin]%elem_of_cons; [|by apply Hall].
  split; [done|]. exists pn, s, c, w. apply ropt_ok in Epn. apply ropt_ok in Ec. apply ra in Eb. done.
Qed.
Lemma check_chk t : check t = Ok tt -> exists r, Chk t r.
Proof.
  unfold check. intros E. apply rb in E as ([] & En & E). apply rb in E as (rn & Er & E). apply rb in E as ([c d] & Ec & E).
  apply rb in E as ([] & Eb & E). apply ra in Eb. unfold get_internal in Er. apply rb in Er as (r & Er & Hr).
  destruct (root t) as [|r'] eqn:Ert; [done|]. injection Er as ->. apply ropt_ok in Hr.
  apply check_leaves_ok in E as (lev & _ & Hlf).
  assert (Hall : forall i n, a_get (in_nodes t) i = Some n -> check_node t (i, n) = Ok tt).
  { intros i n Hi. eapply rall_ok; [exact En|]. by apply elem_of_map_to_list. }
  clear En. exists r. split.
  - done.
  - by exists rn, c, d.
  - intros i n Hi Hne E. specialize (Hall _ _ Hi). cbn in Hall. apply rb in Hall as (u & Hu & _). apply ra in Hu. rewrite Ert in Hu. cbn in Hu.
    unfold n_is_empty in Hu. rewrite E in Hu. rewrite bool_decide_eq_false_2 in Hu by done. done.
  - intros i n k c' m Hi Hk Hm. specialize (Hall _ _ Hi). cbn in Hall. apply rb in Hall as (_ & _ & Hall). apply rb in Hall as ([] & Hall & _).
    pose proof (rall_ok _ _ Hall (k, c')) as Hc. assert ((k, c') ∈ imap pair (n_children n)) as Hin.
    { apply elem_of_lookup_imap. by exists k, c'. }
    specialize (Hc Hin). cbn in Hc. rewrite Hm in Hc. apply rb in Hc as (_ & _ & Hc). apply rb in Hc as (mn & Hmn & Hc).
    apply rb in Hc as ([x d'] & Hx & Hc). apply rb in Hc as (u & Hu & Hc). apply rb in Hc as (v & Hv & Hc).
    apply ra, bool_decide_eq_true in Hu. apply ra, bool_decide_eq_true in Hv. apply ra in Hc. apply ropt_ok in Hmn. by exists mn, x, d'.
  - intros i n q Hi Hq. specialize (Hall _ _ Hi). cbn in Hall. apply rb in Hall as (_ & _ & Hall). apply rb in Hall as (_ & _ & Hall).
    rewrite Hq in Hall. apply rb in Hall as (pn & Hp & Hall). apply rb in Hall as (c' & Hc & Hall). apply rb in Hall as (u & Hu & Hall).
    apply ra, bool_decide_eq_true in Hu. apply rb in Hall as (w & Hw & _). unfold get_internal in Hp. apply rb in Hp as (p & Ep & Hp).
    destruct q as [|p']; [done|]. injection Ep as ->. apply ropt_ok in Hp. apply ropt_ok in Hc. by exists p, pn, c', w.
  - intros i n Hi Hq. specialize (Hall _ _ Hi). cbn in Hall. apply rb in Hall as (_ & _ & Hall). apply rb in Hall as (_ & _ & Hall).
    rewrite Hq in Hall. rewrite Ert in Hall. cbn in Hall. by apply ra, bool_decide_eq_true in Hall.
  - exists lev. intros l lf Hl. eapply Hlf. by apply elem_of_map_to_list.
  - intros l lf Hl. eapply Hlf. by apply elem_of_map_to_list.
Qed.

Section chk2.
Context {t : btree} {r : nat} (C : Chk t r).
Lemma gpf_int f : forall i acc w, get_path_f f t (AInt i) acc = Ok w -> exists k, Dist t i k /\ length w = length acc + S k /\ length w <= 10.
Proof using C.
  induction f as [|f IH]; intros i acc w E; [done|]. cbn [get_path_f] in E. destruct (decide (AInt i = root t)) as [Hr|Hr].
  - unfold vec_push in E. destruct (decide (length acc < 10)) as [Hl|Hl]; [|done]. injection E as <-. exists 0. split; [by constructor|].
    rewrite app_length. cbn. lia.
  - apply rb in E as (n & Hn & E). apply rb in E as (acc' & Ea & E). apply rb in E as (q & Eq & E).
    unfold vec_push in Ea. destruct (decide (length acc < 10)) as [Hl|Hl]; [|done]. injection Ea as <-.
    apply ropt_ok in Hn. apply ropt_ok in Eq. destruct (ck_par _ _ C _ _ _ Hn Eq) as (p & pn & c & w' & -> & _).
    apply IH in E as (k & HD & Hlen & H10). exists (S k). split; [by econstructor|]. rewrite app_length in Hlen. cbn in Hlen. lia.
Qed.
Lemma gp_int i w : get_path t (AInt i) = Ok w -> exists k, Dist t i k /\ k <= 9.
Proof using C.
  unfold get_path. intros E. apply rb in E as (w' & E & _). apply gpf_int in E as (k & HD & Hl & H10). exists k. split; [done|]. cbn in Hl. lia.
Qed.
Lemma gp_leaf l lf w : a_get (leaf_nodes t) l = Some lf -> get_path t (ALeaf l) = Ok w -> exists k, Dist t (l_parent lf) k /\ k <= 8.
Proof using C.
  intros Hl. unfold get_path. intros E. apply rb in E as (w' & E & _). cbn [get_path_f] in E. rewrite decide_False in E by (rewrite (ck_root _ _ C); done).
  apply rb in E as (lf' & E1 & E). unfold get_lf in E1. rewrite Hl in E1. injection E1 as <-. apply rb in E as (pn & _ & E). apply rb in E as (s & _ & E).
  apply rb in E as (acc & Ea & E). injection Ea as <-. apply gpf_int in E as (k & HD & Hlen & H10). exists k. split; [done|]. cbn in Hlen. lia.
Qed.
Lemma lev_dist f : forall i d, level_f f t i = Ok d -> Dist t i (pred d) /\ 1 <= d.
Proof using C.
  induction f as [|f IH]; intros i d E; [done|]. cbn [level_f] in E. rewrite (ck_root _ _ C) in E. cbn [raw] in E.
  destruct (decide (i = r)) as [->|Hr].
  - injection E as <-. split; [|lia]. constructor. apply (ck_root _ _ C).
  - apply rb in E as (n & Hn & E). apply rb in E as (q & Hq & E). apply rb in E as (d' & Hd & E). injection E as <-.
    apply ropt_ok in Hn. apply ropt_ok in Hq. destruct (ck_par _ _ C _ _ _ Hn Hq) as (p & pn & c & w' & -> & _).
    apply IH in Hd as [HD Hd]. split; [|lia]. cbn. replace d' with (S (pred d')) by lia. econstructor; [|done|done|done].
    rewrite (ck_root _ _ C). congruence.
Qed.
Lemma dist_live i : is_Some (a_get (in_nodes t) i) -> exists k, Dist t i k /\ k <= 9.
Proof using C.
  intros [n Hn]. destruct (n_parent n) as [q|] eqn:Eq.
  - destruct (ck_par _ _ C _ _ _ Hn Eq) as (p & pn & c & w & _ & _ & _ & _ & Hw). by eapply gp_int.
  - rewrite (ck_top _ _ C _ _ Hn Eq). exists 0. split; [|lia]. constructor. apply (ck_root _ _ C).
Qed.

Context (U : Unchecked L t).
Lemma dist_child i n k c m d : a_get (in_nodes t) i = Some n -> n_children n !! k = Some c -> c_arena c = AInt m -> Dist t i d ->
  Dist t m (S d) /\ m <> r.
Proof using C U.
  intros Hi Hk Hm HD. destruct (ck_int _ _ C _ _ _ _ _ Hi Hk Hm) as (mn & x & y & Hmn & Hs & Hp & _).
  assert (m <> r). { intros ->. pose proof (un_root U _ _ (ck_root _ _ C) Hmn). congruence. }
  split; [|done]. econstructor; [|done|done|done]. rewrite (ck_root _ _ C). congruence.
Qed.
(** the common distance of the leaf parents *)
Lemma leaf_dist : exists D, D <= 8 /\ forall i n k c l, a_get (in_nodes t) i = Some n -> n_children n !! k = Some c -> c_arena c = ALeaf l -> Dist t i D.
Proof using C U.
  destruct (ck_lev _ _ C) as [lev Hlev].
  destruct (map_to_list (amap (leaf_nodes t))) as [|[l lf] ls] eqn:El.
  - exists 0. split; [lia|]. intros i n k c l Hi Hk Hl. exfalso. destruct (un_leaf U _ _ _ _ _ Hi Hk Hl) as (lf & Hlf & _).
    assert ((l, lf) ∈ map_to_list (amap (leaf_nodes t))) as Hin by by apply elem_of_map_to_list. rewrite El in Hin. by apply elem_of_nil in Hin.
  - assert (a_get (leaf_nodes t) l = Some lf) as Hl. { apply (elem_of_map_to_list (amap (leaf_nodes t)) l lf). rewrite El. left. }
    destruct (ck_leaf _ _ C _ _ Hl) as (pn & s & c & w & _ & _ & _ & _ & Hw). destruct (gp_leaf _ _ _ Hl Hw) as (k & HD & Hk8).
    destruct (lev_dist _ _ _ (Hlev _ _ Hl)) as [HD' _]. pose proof (dist_det _ _ _ HD _ HD') as ->.
    exists (pred lev). split; [done|]. intros i n k c' l' Hi Hk Hl'. destruct (un_leaf U _ _ _ _ _ Hi Hk Hl') as (lf' & Hlf' & <-).
    by destruct (lev_dist _ _ _ (Hlev _ _ Hlf')) as [? _].
Qed.
Lemma below D : (forall i n k c l, a_get (in_nodes t) i = Some n -> n_children n !! k = Some c -> c_arena c = ALeaf l -> Dist t i D) ->
  forall f i n d, a_get (in_nodes t) i = Some n -> n_children n <> [] -> Dist t i d -> 10 - d <= f -> d <= D.
Proof using C U.
  intros HD. induction f as [|f IH]; intros i n d Hi Hne Hd Hf.
  - destruct (dist_live i) as (k & Hk & Hk9); [by eexists|]. pose proof (dist_det _ _ _ Hd _ Hk). lia.
  - destruct (n_children n) as [|c cs] eqn:Ec; [done|]. assert (n_children n !! 0 = Some c) as H0 by by rewrite Ec.
    destruct (c_arena c) as [l|m] eqn:Ea.
    + pose proof (HD _ _ _ _ _ Hi H0 Ea) as H1. pose proof (dist_det _ _ _ Hd _ H1). lia.
    + destruct (dist_child _ _ _ _ _ _ Hi H0 Ea Hd) as [Hm Hmr]. destruct (ck_int _ _ C _ _ _ _ _ Hi H0 Ea) as (mn & x & y & Hmn & _).
      enough (S d <= D) by lia. destruct (decide (d < 10)) as [Hlt|Hge]; [eapply (IH m mn); [done|by eapply (ck_ne _ _ C)|done|lia]|].
      destruct (dist_live i) as (k & Hk & Hk9); [by eexists|]. pose proof (dist_det _ _ _ Hd _ Hk). lia.
Qed.

Definition dist i : nat := match get_path t (AInt i) with Ok w => pred (length w) | _ => 0 end.
Lemma dist_fun i k : is_Some (a_get (in_nodes t) i) -> Dist t i k -> dist i = k.
Proof using C.
  intros [n Hn] HD. unfold dist. destruct (decide (i = r)) as [->|Hr].
  - unfold get_path. cbn [get_path_f]. rewrite decide_True by (symmetry; apply (ck_root _ _ C)). cbn.
    assert (Dist t r 0) as H0 by (constructor; apply (ck_root _ _ C)). by apply (dist_det _ _ _ H0 _ HD).
  - destruct (n_parent n) as [q|] eqn:Eq; [|by rewrite (ck_top _ _ C _ _ Hn Eq) in Hr].
    destruct (ck_par _ _ C _ _ _ Hn Eq) as (p & pn & c & w & _ & _ & _ & _ & Hw). rewrite Hw. unfold get_path in Hw.
    apply rb in Hw as (w' & Hw' & E). injection E as <-. apply gpf_int in Hw' as (k' & HD' & Hl & _). rewrite rev_length, Hl. cbn.
    by apply (dist_det _ _ _ HD' _ HD).
Qed.
Lemma int_wt D : D <= 8 ->
  (forall i n k c l, a_get (in_nodes t) i = Some n -> n_children n !! k = Some c -> c_arena c = ALeaf l -> Dist t i D) ->
  WT NoE t D (fun i => D - dist i).
Proof using C U.
  intros HD8 HD. pose proof (below D HD) as HB.
  assert (Hch : forall p k a, chs t p !! k = Some a -> exists n c, a_get (in_nodes t) p = Some n /\ n_children n !! k = Some c /\ c_arena c = a).
  { intros p k a Hk. unfold chs, kids in Hk. destruct (a_get (in_nodes t) p) as [n|] eqn:En; [|done]. cbn in Hk.
    apply list_lookup_fmap_inv in Hk as (c & -> & Hk). by exists n, c. }
  assert (Hliv : forall i, is_Some (kids t i) -> exists n, a_get (in_nodes t) i = Some n).
  { intros i [x Hx]. unfold kids in Hx. destruct (a_get (in_nodes t) i) as [n|]; [by exists n|done]. }
  constructor.
  - exists r. destruct (ck_live _ _ C) as (rn & x & d & Hrn & _). split; [apply (ck_root _ _ C)|]. split; [unfold kids; rewrite Hrn; by eexists|].
    rewrite (dist_fun r 0); [lia|by eexists|]. constructor. apply (ck_root _ _ C).
  - intros p k a (n & c & Hp & Hk & Ha)%Hch. destruct a as [l|m].
    + destruct (un_leaf U _ _ _ _ _ Hp Hk Ha) as (lf & Hlf & _). split; [unfold live, el; rewrite Hlf; by eexists|]. cbn.
      rewrite (dist_fun p D); [lia|by eexists|]. by eapply HD.
    + destruct (ck_int _ _ C _ _ _ _ _ Hp Hk Ha) as (mn & x & y & Hmn & _). split; [unfold live, kids; rewrite Hmn; by eexists|]. cbn.
      destruct (dist_live p) as (d & Hd & _); [by eexists|]. destruct (dist_child _ _ _ _ _ _ Hp Hk Ha Hd) as [Hm Hmr].
      rewrite (dist_fun p d) by (by eexists || done). rewrite (dist_fun m (S d)) by (by eexists || done).
      assert (S d <= D); [|lia]. eapply (HB 10 m mn); [done|by eapply (ck_ne _ _ C)|done|lia].
  - intros p k p' k' a (n & c & Hp & Hk & Ha)%Hch (n' & c' & Hp' & Hk' & Ha')%Hch. destruct a as [l|m].
    + destruct (un_leaf U _ _ _ _ _ Hp Hk Ha) as (lf & Hlf & E1). destruct (un_leaf U _ _ _ _ _ Hp' Hk' Ha') as (lf' & Hlf' & E2).
      assert (lf' = lf) as -> by congruence. assert (p' = p) as -> by congruence. split; [done|]. assert (n' = n) as -> by congruence.
      by eapply (un_once U).
    + destruct (ck_int _ _ C _ _ _ _ _ Hp Hk Ha) as (mn & x & y & Hmn & Hs & Hpar & _).
      destruct (ck_int _ _ C _ _ _ _ _ Hp' Hk' Ha') as (mn' & x' & y' & Hmn' & Hs' & Hpar' & _).
      assert (mn' = mn) as -> by congruence. rewrite Hpar in Hpar'. injection Hpar' as <-. by subst.
  - intros [l|m] Ha Hne.
    + cbn in Ha. unfold el in Ha. destruct (a_get (leaf_nodes t) l) as [lf|] eqn:Hlf; [|by destruct Ha].
      destruct (ck_leaf _ _ C _ _ Hlf) as (pn & s & c & w & Hpn & Hs & Hc & _). apply slot_inv in Hs as (c' & _ & Hc' & Ea). rewrite Nat.sub_0_r in Hc'.
      exists (l_parent lf), s. unfold chs, kids. rewrite Hpn. cbn. rewrite list_lookup_fmap, Hc'. cbn. by rewrite Ea.
    + destruct (Hliv m Ha) as [n Hn]. destruct (n_parent n) as [q|] eqn:Eq.
      * destruct (ck_par _ _ C _ _ _ Hn Eq) as (p & pn & c & w & -> & Hpn & Hc & Ea & _). exists p, (n_slot n). unfold chs, kids. rewrite Hpn. cbn.
        rewrite list_lookup_fmap, Hc. cbn. by rewrite Ea.
      * rewrite (ck_top _ _ C _ _ Hn Eq), (ck_root _ _ C) in Hne. done.
  - intros m _. lia.
  - intros m [n Hn]%Hliv Hne _ E. unfold chs, kids in E. rewrite Hn in E. cbn in E. apply map_eq_nil in E. revert E. eapply (ck_ne _ _ C); [done|].
    intros ->. by rewrite (ck_root _ _ C) in Hne.
  - intros m [n Hn]%Hliv. apply (un_old_in U). by eexists.
  - intros l Hl. apply (un_old_lf U). unfold el in Hl. destruct (a_get (leaf_nodes t) l); [by eexists|by destruct Hl].
Qed.
Lemma int_lk : LK t.
Proof using C U.
  constructor.
  - intros p k a Hk. apply chs_lookup in Hk as (cs & c & Hk & Hc & Ha). unfold kids in Hk. destruct (a_get (in_nodes t) p) as [n|] eqn:Hp; [|done].
    injection Hk as <-. destruct a as [l|m].
    + destruct (un_leaf U _ _ _ _ _ Hp Hc Ha) as (lf & Hlf & E). cbn. unfold llnk. rewrite Hlf. cbn. by f_equal.
    + destruct (ck_int _ _ C _ _ _ _ _ Hp Hc Ha) as (mn & x & y & Hmn & Hs & Hpar & _). cbn. unfold lnk. rewrite Hmn. cbn. by rewrite Hs, Hpar.
  - intros r' Hr'. destruct (ck_live _ _ C) as (rn & x & d & Hrn & _). assert (r' = r) as ->. { pose proof (ck_root _ _ C). congruence. }
    exists (n_slot rn). unfold lnk. rewrite Hrn. cbn. by rewrite (un_root U _ _ Hr' Hrn).
Qed.
Context (Q : EqSound (B := B)).
Lemma int_co_leaf i n k c l : a_get (in_nodes t) i = Some n -> n_children n !! k = Some c -> c_arena c = ALeaf l ->
  exists lf, a_get (leaf_nodes t) l = Some lf /\ c_cache c = get_elem_cache (l_elem lf).
Proof using C U Q.
  intros Hi Hk Hl. destruct (un_leaf U _ _ _ _ _ Hi Hk Hl) as (lf & Hlf & <-). exists lf. split; [done|].
  destruct (ck_leaf _ _ C _ _ Hlf) as (pn & s & c' & w & Hpn & Hs & Hc & Hq & _). assert (pn = n) as -> by congruence.
  apply slot_inv in Hs as (c2 & _ & Hc2 & Ea). rewrite Nat.sub_0_r in Hc2. assert (c2 = c') as -> by congruence.
  assert (s = k) as -> by by eapply (un_once U). assert (c' = c) as -> by congruence. by apply Q.
Qed.
Lemma int_va : forall f i n d, a_get (in_nodes t) i = Some n -> Dist t i d -> 10 - d <= f -> Forall (cvalid L) (map c_cache (n_children n)).
Proof using C U Q.
  induction f as [|f IH]; intros i n d Hi Hd Hf.
  { destruct (dist_live i) as (k & Hk & Hk9); [by eexists|]. pose proof (dist_det _ _ _ Hd _ Hk). lia. }
  apply Forall_forall. intros x (c & -> & (k & Hk)%elem_of_list_lookup)%elem_of_list_fmap. destruct (c_arena c) as [l|m] eqn:Ea.
  - destruct (int_co_leaf _ _ _ _ _ Hi Hk Ea) as (lf & Hlf & ->). apply (lw_get _ L). by eapply (un_valid U).
  - destruct (ck_int _ _ C _ _ _ _ _ Hi Hk Ea) as (mn & x & y & Hmn & _ & _ & Hcalc & Hq). destruct (dist_child _ _ _ _ _ _ Hi Hk Ea Hd) as [Hm Hmr].
    assert (d <= 9). { destruct (dist_live i) as (k' & Hk' & Hk9); [by eexists|]. pose proof (dist_det _ _ _ Hd _ Hk'). lia. }
    assert (Forall (cvalid L) (map c_cache (n_children mn))) as HF by (eapply IH; [done..|lia]).
    assert (map c_cache (n_children mn) <> []). { intros E%map_eq_nil. revert E. by eapply (ck_ne _ _ C). }
    destruct (lw_calc _ L cache_default _ HF) as (z & Hz & _); [by left|]. cbn in Hcalc. rewrite Hz in Hcalc. injection Hcalc as <- <-.
    apply Q in Hq. rewrite <- Hq. apply (lw_summ _ L); [done|by left].
Qed.
Lemma int_valid i n : a_get (in_nodes t) i = Some n -> Forall (cvalid L) (map c_cache (n_children n)).
Proof using C U Q. intros Hi. destruct (dist_live i) as (k & Hk & _); [by eexists|]. by eapply int_va. Qed.
Lemma int_ok : exists D, D <= 8 /\ OK t D (fun i => D - dist i).
Proof using C U Q.
  destruct leaf_dist as (D & HD8 & HD). exists D. split; [done|].
  assert (Hk : forall p cs, kids t p = Some cs -> exists n, a_get (in_nodes t) p = Some n /\ n_children n = cs).
  { intros p cs Hp. unfold kids in Hp. destruct (a_get (in_nodes t) p) as [n|]; [|done]. injection Hp as <-. by exists n. }
  constructor.
  - by apply int_wt.
  - exact int_lk.
  - intros i. unfold chs, kids. destruct (a_get (in_nodes t) i) as [n|] eqn:Hn; [|cbn; lia]. cbn. rewrite map_length. by eapply (un_fan U).
  - intros p cs c (n & Hn & <-)%Hk (k & Hc)%elem_of_list_lookup _. destruct (c_arena c) as [l|m] eqn:Ea.
    + destruct (int_co_leaf _ _ _ _ _ Hn Hc Ea) as (lf & Hlf & ->). unfold act, el. by rewrite Hlf.
    + destruct (ck_int _ _ C _ _ _ _ _ Hn Hc Ea) as (mn & x & y & Hmn & _ & _ & Hcalc & Hq). unfold act, kids. rewrite Hmn. cbn.
      apply Q in Hq. rewrite <- Hq. assert (map c_cache (n_children mn) <> []).
      { intros E%map_eq_nil. revert E. eapply (ck_ne _ _ C); [done|]. intros ->. pose proof (un_root U _ _ (ck_root _ _ C) Hmn) as E1.
        destruct (ck_int _ _ C _ _ _ _ _ Hn Hc Ea) as (mn' & x' & y' & Hmn' & _ & E2 & _). congruence. }
      destruct (lw_calc _ L cache_default _ (int_valid _ _ Hmn)) as (z & Hz & _); [by left|]. cbn in Hcalc. rewrite Hz in Hcalc. by injection Hcalc as <- <-.
  - intros Hne. rewrite (ck_root _ _ C) in *. cbn [raw] in Hne. destruct (ck_live _ _ C) as (rn & x & d & Hrn & Hcalc & Hq). apply Q in Hq. rewrite Hq.
    unfold act, kids. rewrite Hrn. cbn. destruct (lw_calc _ L cache_default _ (int_valid _ _ Hrn)) as (z & Hz & _).
    { destruct Hne as [Hne|]; [left|by right]. intros E. apply Hne. unfold chs, kids. rewrite Hrn. cbn. apply map_eq_nil in E. by rewrite E. }
    cbn in Hcalc. rewrite Hz in Hcalc. by injection Hcalc as <- <-.
  - constructor.
    + intros l e He. unfold el in He. destruct (a_get (leaf_nodes t) l) as [lf|] eqn:Hlf; [|done]. injection He as <-. by eapply (un_valid U).
    + intros p cs c (n & Hn & <-)%Hk Hin. pose proof (int_valid _ _ Hn) as HF. rewrite Forall_forall in HF. apply HF. by apply elem_of_list_fmap_1.
Qed.
End chk2.

(** ** soundness and completeness of [check] *)
Theorem check_sound t : EqSound (B := B) -> check t = Ok tt -> Unchecked L t -> exists xs, Tree t xs /\ Shallow t 9.
Proof.
  intros Q [r C]%check_chk U. destruct (int_ok C U Q) as (D & HD & O). exists (cont t D). split; [by eapply OK_Tree|].
  exists (S D), (cont t D). split; [|lia]. apply (in_order _ _ _ _ (OK_Intact L _ _ _ O)).
Qed.
Theorem tree_unchecked t xs : Tree t xs -> Unchecked L t.
Proof.
  intros T. destruct (Tree_intact L t xs T) as [d I]. destruct (Tree_OK L _ _ T) as (H & lv & O & _). pose proof (ok_wt _ _ _ _ O) as W.
  assert (Hch : forall i n k c, a_get (in_nodes t) i = Some n -> n_children n !! k = Some c -> chs t i !! k = Some (c_arena c)).
  { intros i n k c Hi Hk. unfold chs, kids. rewrite Hi. cbn. by rewrite list_lookup_fmap, Hk. }
  constructor.
  - intros i n k c l Hi Hk Hl. destruct (wt_ch W i k (c_arena c)) as [Hlive _]; [by eapply Hch|]. rewrite Hl in Hlive. cbn in Hlive. unfold el in Hlive.
    destruct (a_get (leaf_nodes t) l) as [lf|] eqn:Hlf; [|by destruct Hlive]. exists lf. split; [done|]. by eapply (in_lup _ _ _ _ I).
  - intros i n k k' c c' l Hi Hk Hk' Hl Hl'. apply (wt_uniq W i k i k' (ALeaf l)); [rewrite <- Hl|rewrite <- Hl']; by eapply Hch.
  - intros r rn Hr Hrn. destruct (in_top _ _ _ _ I) as (r' & rn' & E1 & E2 & E3). congruence.
  - apply (in_fan _ _ _ _ I).
  - apply (in_old_in _ _ _ _ I).
  - apply (in_old_lf _ _ _ _ I).
  - intros l lf Hl. apply (in_valid _ _ _ _ I l). apply (in_leaf _ _ _ _ I). by rewrite Hl.
Qed.
Theorem check_exact t : EqSound (B := B) -> mono L = true -> (check t = Ok tt /\ Unchecked L t) <-> exists xs, Tree t xs /\ Shallow t 9.
Proof.
  intros Q M. split; [intros [E U]; by apply check_sound|]. intros (xs & T & S9). split; [|by eapply tree_unchecked].
  apply (t_check L t xs T S9). by right.
Qed.
End chk.
