(** Repl.v — replacing one leaf by a list of leaves below the same parent: the state
    change common to insertion, element updates and removal (lib.rs:510-667, 1083-1158,
    1160-1262, 2466-2562).  Proof-side definitions only; nothing here models code. *)
From Verif Require Export Nav.

Section repl.
Context {B : BTreeTrait} (L : Lawful B).
Notation btree := (btree B).
Notation child := (child B).
Notation act := (act L).
Notation CO := (CO L).
Notation RC := (RC L).
Notation VA := (VA L).
Notation OK := (OK L).
Implicit Types (t : btree) (i j m p q k s : nat) (a b : aidx) (c : child) (cs : list child).
Implicit Types (N : list (nat * Elem B)).

#[local] Instance aleaf_inj : Inj (=) (=) ALeaf.
Proof. by intros ?? [= ->]. Qed.
Definition lfs N : list aidx := map (fun x => ALeaf (fst x)) N.
Lemma elem_of_lfs N l : ALeaf l ∈ lfs N <-> l ∈ N.*1.
Proof.
  unfold lfs. rewrite !elem_of_list_fmap. split.
  - intros ([x e] & [= ->] & Hx). by exists (x, e).
  - intros ([x e] & -> & Hx). by exists (x, e).
Qed.
Lemma lfs_nodup N : NoDup N.*1 -> NoDup (lfs N).
Proof.
  intros Hnd. assert (lfs N = ALeaf <$> N.*1) as ->; [|by apply (NoDup_fmap_2 ALeaf)].
  unfold lfs. induction N as [|x N IH]; [done|]. cbn. rewrite IH; [done|]. by inversion Hnd.
Qed.
Lemma pel_lfs t N : (forall x e, (x, e) ∈ N -> el t x = Some e) -> pel t (lfs N) = N.
Proof.
  intros Hn. induction N as [|[x e] N IH]; [done|]. cbn. rewrite (Hn x e) by left. cbn. f_equal.
  apply IH. intros; apply Hn; by right.
Qed.
Lemma pel_nodup t (r : list aidx) : NoDup r -> NoDup (pel t r).*1.
Proof.
  induction r as [|a r IH]; intros Hnd; [constructor|]. inversion Hnd as [|? ? Ha Hr]; subst. specialize (IH Hr).
  destruct a as [l|m]; [|done]. destruct (el t l) as [e|] eqn:Ee.
  - rewrite (pel_cons t l e r Ee). cbn. constructor; [|done]. intros Hin. apply Ha.
    apply elem_of_list_fmap in Hin as ([x ex] & -> & Hx). apply elem_of_list_omap in Hx as (a & Hin & Hx).
    destruct a as [l'|]; [|done]. destruct (el t l'); cbn in Hx; [|done]. injection Hx as <- _. done.
  - unfold pel in *. cbn. by rewrite Ee.
Qed.
Lemma cont_nodup {E t H lv} : WT E t H lv -> NoDup (cont t H).*1.
Proof. intros W. apply pel_nodup, (gen_nodup W), (root_live W). Qed.
Lemma cont_in {t H lv} l e : WT NoE t H lv -> el t l = Some e -> (l, e) ∈ cont t H.
Proof.
  intros W He. destruct (leaf_row W l e He) as (X & Y & Hg). unfold cont. rewrite Hg, pel_app, (pel_cons t l e Y He). set_solver.
Qed.
Lemma cont_el {t H} l e : (l, e) ∈ cont t H -> el t l = Some e.
Proof.
  unfold cont, pel. intros (a & _ & Ha)%elem_of_list_omap. destruct a as [x|]; [|done].
  destruct (el t x) eqn:Ex; [|done]. cbn in Ha. by simplify_eq.
Qed.

Record RP t t' p l (A : list child) c (Z : list child) N (N' : list child) : Prop := {
  rp_p : kids t p = Some (A ++ c :: Z);
  rp_c : c_arena c = ALeaf l;
  rp_p' : kids t' p = Some (A ++ N' ++ Z);
  rp_NN : map c_arena N' = lfs N;
  rp_nd : NoDup N.*1;
  rp_new : forall x e, (x, e) ∈ N -> el t' x = Some e /\ llnk t' x = Some p /\ (x = l \/ el t x = None) /\
     x < anext (leaf_nodes t');
  rp_del : l ∉ N.*1 -> el t' l = None;
  rp_el : forall x, x <> l -> x ∉ N.*1 -> el t' x = el t x /\ llnk t' x = llnk t x;
  rp_other : forall j, j <> p -> kids t' j = kids t j;
  rp_lnk : forall j, lnk t' j = lnk t j;
  rp_root : root t' = root t;
  rp_rc : root_cache t' = root_cache t;
  rp_an : anext (in_nodes t) <= anext (in_nodes t');
  rp_al : anext (leaf_nodes t) <= anext (leaf_nodes t');
}.

Section rp.
  Context {E : nat -> Prop} {t t' : btree} {H : nat} {lv : nat -> nat} {p l : nat} {A Z N' : list child} {c : child} {N : list (nat * Elem B)}.
  Context (W : WT E t H lv) (K : LK t) (Hlp : lv p = 0) (R : RP t t' p l A c Z N N').

  Local Lemma rp_chs : chs t p = map c_arena A ++ ALeaf l :: map c_arena Z.
  Proof. by rewrite (chs_kids _ _ _ (rp_p _ _ _ _ _ _ _ _ _ R)), map_app, <- (rp_c _ _ _ _ _ _ _ _ _ R). Qed.
  Local Lemma rp_lk x : ALeaf x ∈ chs t p -> is_Some (el t x) /\ llnk t x = Some p.
  Proof.
    intros Hin. pose proof (wt_live_child W _ _ Hin) as Hl. split; [done|].
    apply elem_of_list_lookup in Hin as [k Hin]. apply (lk_ch K) in Hin. done.
  Qed.
  Local Lemma rp_notin a : a ∈ map c_arena A \/ a ∈ map c_arena Z -> exists x, a = ALeaf x /\ x <> l /\ x ∉ N.*1 /\ a ∈ chs t p.
  Proof.
    intros Ha. assert (a ∈ chs t p) as Hin by (rewrite rp_chs; set_solver).
    destruct (wt_leaf_child W _ _ Hin Hlp) as [x ->]. exists x. split; [done|].
    pose proof (wt_nodup W p) as Hnd. rewrite rp_chs in Hnd. apply NoDup_app in Hnd as (_ & Hn1 & Hn2).
    apply NoDup_cons in Hn2 as [Hn2 _].
    assert (x <> l) as Hx. { intros ->. destruct Ha as [Ha|Ha]; [|done]. eapply Hn1; [exact Ha|left]. }
    split; [done|]. split; [|done]. intros (xe & -> & Hxn)%elem_of_list_fmap. destruct xe as [x e]. cbn in *.
    destruct (rp_new _ _ _ _ _ _ _ _ _ R x e Hxn) as (_ & _ & [?|Hnone] & _); [done|].
    destruct (rp_lk x Hin) as [[? Hs] _]. congruence.
  Qed.
  Lemma rp_ED : ED t t' p (A ++ c :: Z) (A ++ N' ++ Z).
  Proof using All.
    pose proof rp_chs as Hch. pose proof rp_notin as Hni. pose proof rp_lk as Hlk. pose proof R as R0. destruct R0.
    assert (Hch2 : chs t p = map c_arena (A ++ c :: Z)) by by rewrite (chs_kids _ _ _ rp_p0).
    constructor; try done.
    - intros c0 Hc0. rewrite <- Hch2. apply elem_of_app in Hc0 as [Hc0|Hc0]; [|apply elem_of_app in Hc0 as [Hc0|Hc0]].
      2:{ assert (c_arena c0 ∈ lfs N) as Hin by (rewrite <- rp_NN0; by apply elem_of_list_fmap_1).
          apply elem_of_list_fmap in Hin as ([x e] & Ex & Hx). cbn in Ex. destruct (rp_new0 x e Hx) as (H1 & H2 & H3 & H4).
          exists x. rewrite H1. split; [done|]. split; [eauto|]. split; [|done]. destruct H3 as [-> |]; [left|by right].
          rewrite Hch. set_solver. }
      all: destruct (Hni (c_arena c0)) as (x & Ex & Hxl & HxN & Hin); [first [left; by apply elem_of_list_fmap_1|right; by apply elem_of_list_fmap_1]|];
        exists x; destruct (rp_el0 x Hxl HxN) as [-> ->]; rewrite Ex in Hin; destruct (Hlk x Hin) as [Hs ->];
        split; [done|]; split; [done|]; split; [by left|]; split; [|done]; pose proof (wt_lfresh W x Hs); lia.
    - rewrite !map_app, rp_NN0. pose proof (wt_nodup W p) as Hnd. rewrite Hch in Hnd.
      apply NoDup_app in Hnd as (Hn0 & Hn1 & Hn2). apply NoDup_cons in Hn2 as [Hn2 Hn3].
      apply NoDup_app. split; [done|]. split.
      + intros a Ha Hin. apply elem_of_app in Hin as [Hin|Hin].
        * destruct (Hni a) as (x & -> & _ & HxN & _); [by left|]. by apply elem_of_lfs in Hin.
        * eapply Hn1; [exact Ha|by right].
      + apply NoDup_app. split; [by apply lfs_nodup|]. split; [|done].
        intros a Ha Hin. destruct (Hni a) as (x & -> & _ & HxN & _); [by right|]. by apply elem_of_lfs in Ha.
    - intros x Hin Hnin. rewrite !map_app, rp_NN0, !elem_of_app, elem_of_lfs in Hnin.
      rewrite <- Hch2, Hch in Hin. apply elem_of_app in Hin as [|Hin]; [tauto|]. apply elem_of_cons in Hin as [[= ->]|Hin]; [|tauto].
      apply rp_del0. tauto.
    - intros x Hin Hnin. rewrite !map_app, rp_NN0, !elem_of_app, elem_of_lfs in Hnin. apply rp_el0; [|tauto].
      intros ->. apply Hin. rewrite <- Hch2, Hch. set_solver.
  Qed.
  Lemma rp_cont e X Y : el t l = Some e -> cont t H = X ++ (l, e) :: Y -> cont t' H = X ++ N ++ Y.
  Proof using All.
    intros He Hc. destruct (ed_cont W Hlp rp_ED) as (X0 & Y0 & G1 & G2).
    rewrite map_app, pel_app in G1. cbn [map] in G1. rewrite (rp_c _ _ _ _ _ _ _ _ _ R), (pel_cons _ _ _ _ He) in G1.
    rewrite !map_app, !pel_app, (rp_NN _ _ _ _ _ _ _ _ _ R) in G2.
    rewrite pel_lfs in G2; [|intros x ex Hx; by destruct (rp_new _ _ _ _ _ _ _ _ _ R x ex Hx)].
    assert (forall r, r = map c_arena A \/ r = map c_arena Z -> pel t' r = pel t r) as Hr.
    { intros r Hr. apply pel_ext. intros x Hx. destruct (rp_notin (ALeaf x)) as (x' & [= <-] & Hxl & HxN & _).
      { destruct Hr as [-> | ->]; [by left|by right]. }
      by destruct (rp_el _ _ _ _ _ _ _ _ _ R x Hxl HxN). }
    rewrite (Hr (map c_arena A)), (Hr (map c_arena Z)) in G2 by auto.
    pose proof (cont_nodup W) as Hnd. apply NoDup_fmap_1 in Hnd. rewrite G1 in Hc, Hnd.
    replace (X0 ++ (pel t (map c_arena A) ++ (l, e) :: pel t (map c_arena Z)) ++ Y0) with
      ((X0 ++ pel t (map c_arena A)) ++ (l, e) :: pel t (map c_arena Z) ++ Y0) in Hc, Hnd by (by rewrite <- !app_assoc).
    apply nodup_split_unique in Hc as [<- <-]; [|done]. rewrite G2. by rewrite <- !app_assoc.
  Qed.
  Lemma rp_kid_cache c0 : (forall c0, c0 ∈ N' -> c_arena c0 <> ALeaf l -> c_cache c0 = act t' (c_arena c0)) ->
    CO t (fun _ => False) -> c0 ∈ A ++ N' ++ Z -> c_arena c0 <> ALeaf l -> c_cache c0 = act t' (c_arena c0).
  Proof using All.
    intros Hnew C Hc0 Hne. apply elem_of_app in Hc0 as [Hc0|Hc0]; [|apply elem_of_app in Hc0 as [Hc0|Hc0]; [by apply Hnew|]];
      (destruct (rp_notin (c_arena c0)) as (x & Ex & Hxl & HxN & Hin);
        [first [left; by apply elem_of_list_fmap_1|right; by apply elem_of_list_fmap_1]|]);
      (rewrite (C p _ c0 (rp_p _ _ _ _ _ _ _ _ _ R)); [|set_solver|tauto]);
      rewrite Ex; unfold Law.act; by destruct (rp_el _ _ _ _ _ _ _ _ _ R x Hxl HxN) as [-> _].
  Qed.
  Lemma rp_CO : (forall c0, c0 ∈ N' -> c_arena c0 <> ALeaf l -> c_cache c0 = act t' (c_arena c0)) ->
    CO t (fun _ => False) -> CO t' (fun a => a = ALeaf l \/ a = AInt p).
  Proof using All.
    intros Hnew C. eapply CO_mono; [|apply (ed_CO L W rp_ED (fun _ => False) (fun a => a = ALeaf l) C)]; [intros a; cbn; tauto|].
    intros. by apply rp_kid_cache.
  Qed.
  Lemma rp_CO_all : (forall c0, c0 ∈ N' -> c_cache c0 = act t' (c_arena c0)) ->
    CO t (fun _ => False) -> CO t' (fun a => a = AInt p).
  Proof using All.
    intros Hnew C. eapply CO_mono; [|apply (ed_CO L W rp_ED (fun _ => False) (fun a => False) C)]; [intros a; cbn; tauto|].
    intros c0 Hc0 _. destruct (decide (c_arena c0 = ALeaf l)) as [He|He]; [|apply rp_kid_cache; auto].
    apply elem_of_app in Hc0 as [Hc0|Hc0]; [|apply elem_of_app in Hc0 as [Hc0|Hc0]; [by apply Hnew|]];
      (destruct (rp_notin (c_arena c0)) as (x & Ex & Hxl & HxN & Hin);
        [first [left; by apply elem_of_list_fmap_1|right; by apply elem_of_list_fmap_1]|]); congruence.
  Qed.
  Lemma rp_VA : VA t -> (forall x e, (x, e) ∈ N -> evalid L e) -> (forall c0, c0 ∈ N' -> cvalid L (c_cache c0)) -> VA t'.
  Proof using All.
    intros V Hev Hcv. apply (ed_VA L rp_ED V).
    - intros c0 x e Hc0 Ea He. apply elem_of_app in Hc0 as [Hc0|Hc0]; [|apply elem_of_app in Hc0 as [Hc0|Hc0]].
      2:{ assert (ALeaf x ∈ lfs N) as Hin by (rewrite <- (rp_NN _ _ _ _ _ _ _ _ _ R), <- Ea; by apply elem_of_list_fmap_1).
          apply elem_of_list_fmap in Hin as ([x' e'] & [= <-] & Hx).
          destruct (rp_new _ _ _ _ _ _ _ _ _ R x e' Hx) as (H1 & _). rewrite H1 in He. injection He as ->. by eapply Hev. }
      all: destruct (rp_notin (c_arena c0)) as (x' & Ex & Hxl & HxN & Hin);
        [first [left; by apply elem_of_list_fmap_1|right; by apply elem_of_list_fmap_1]|];
        rewrite Ea in Ex; injection Ex as <-; destruct (rp_el _ _ _ _ _ _ _ _ _ R x Hxl HxN) as [Hx _]; rewrite Hx in He;
        by eapply (va_el _ _ V).
    - intros c0 Hc0. apply elem_of_app in Hc0 as [Hc0|Hc0]; [|apply elem_of_app in Hc0 as [Hc0|Hc0]].
      2: by apply Hcv.
      all: eapply (va_ch _ _ V); [exact (rp_p _ _ _ _ _ _ _ _ _ R)|set_solver].
  Qed.
  Lemma rp_SP m : SP t m -> SP t' m.
  Proof using All.
    apply SP_ext; [apply (rp_root _ _ _ _ _ _ _ _ _ R)|]. intros j m' _ Hm'. destruct (decide (j = p)) as [-> |D].
    - destruct (wt_leaf_child W p (AInt m') (head_Some_in _ _ Hm') Hlp) as [? ?]. done.
    - unfold chs. by rewrite (rp_other _ _ _ _ _ _ _ _ _ R).
  Qed.
  Lemma rp_MD w : N' <> [] -> MDw w t -> MDw w t'.
  Proof using All.
    intros Hne M. constructor.
    - intros m Hm Hr. rewrite (rp_root _ _ _ _ _ _ _ _ _ R) in Hr. destruct (decide (m = p)) as [-> |D].
      + apply (big_mono w t); [apply rp_SP| |apply (md_in _ _ M); [rewrite (rp_p _ _ _ _ _ _ _ _ _ R); eauto|done]].
        rewrite (chs_kids _ _ _ (rp_p' _ _ _ _ _ _ _ _ _ R)), (chs_kids _ _ _ (rp_p _ _ _ _ _ _ _ _ _ R)).
        rewrite !map_length, !app_length in *. destruct N'; [done|]. cbn in *. lia.
      + rewrite (rp_other _ _ _ _ _ _ _ _ _ R) in Hm by done. apply (big_mono w t); [apply rp_SP| |by apply (md_in _ _ M)].
        unfold chs. by rewrite (rp_other _ _ _ _ _ _ _ _ _ R) by done.
    - intros m. rewrite (rp_root _ _ _ _ _ _ _ _ _ R). destruct (decide (raw (root t) = p)) as [D|D].
      + rewrite D. rewrite (chs_kids _ _ _ (rp_p' _ _ _ _ _ _ _ _ _ R)). intros Hin. exfalso.
        pose proof (ed_WT W Hlp rp_ED) as W'. rewrite <- (chs_kids _ _ _ (rp_p' _ _ _ _ _ _ _ _ _ R)) in Hin.
        destruct (wt_leaf_child W' p (AInt m) Hin Hlp) as [? ?]. done.
      + unfold chs. rewrite (rp_other _ _ _ _ _ _ _ _ _ R) by done. apply (md_root _ _ M).
  Qed.
End rp.

(** ** Finishing a replacement: propagate the cache from the leaf [l], then split if full *)
Lemma rp_v t t' p l A c Z N (N' : list child) e : RP t t' p l A c Z N N' ->
  (forall c0, c0 ∈ N' -> c_arena c0 <> ALeaf l -> c_cache c0 = act t' (c_arena c0)) ->
  (l, e) ∈ N -> exists k c', (A ++ N' ++ Z) !! k = Some c' /\ c_arena c' = ALeaf l /\
   map c_cache (<[k := mkChild (ALeaf l) (get_elem_cache e)]> (A ++ N' ++ Z)) =
   map c_cache A ++ map (fun x => get_elem_cache (snd x)) N ++ map c_cache Z.
Proof.
  intros R Hnew Hl. destruct R. apply elem_of_list_split in Hl as (N1 & N2 & ->).
  unfold lfs in rp_NN0. rewrite map_app in rp_NN0. cbn in rp_NN0.
  assert (exists P1 c' P2, N' = P1 ++ c' :: P2 /\ map c_arena P1 = lfs N1 /\ c_arena c' = ALeaf l /\ map c_arena P2 = lfs N2)
    as (P1 & c' & P2 & -> & H1 & H2 & H3).
  { apply fmap_app_inv in rp_NN0 as (P1 & P2' & H1 & H2 & ->). symmetry in H2. apply fmap_cons_inv in H2 as (c' & P2 & H2 & H3 & ->).
    exists P1, c', P2. split_and!; try done. }
  exists (length A + length P1), c'. split; [|split; [done|]].
  { rewrite lookup_app_r, lookup_app_l by (rewrite ?app_length; cbn; lia). 
    replace (length A + length P1 - length A) with (length P1) by lia. by apply list_lookup_middle. }
  rewrite insert_app_r, insert_app_l, insert_app_r_alt by (rewrite ?app_length; cbn; lia).
  rewrite Nat.sub_diag, !map_app. match goal with |- context [<[0:=?x]> (c' :: P2)] => change (<[0:=x]> (c' :: P2)) with (x :: P2) end. cbn [map c_cache snd].
  assert (Hnd : l ∉ N1.*1 /\ l ∉ N2.*1).
  { rewrite fmap_app in rp_nd0. cbn in rp_nd0. apply NoDup_app in rp_nd0 as (_ & Ha & Hb). apply NoDup_cons in Hb as [Hb _].
    split; [|done]. intros Hin. eapply Ha; [exact Hin|left]. }
  assert (G : forall P Q, (forall c0, c0 ∈ P -> c0 ∈ P1 ++ c' :: P2) -> (forall x, x ∈ Q -> x ∈ N1 ++ (l, e) :: N2) ->
     map c_arena P = lfs Q -> l ∉ Q.*1 -> map c_cache P = map (fun x => get_elem_cache (snd x)) Q).
  { induction P as [|c0 P IH]; intros Q HP HQ Ha Hn; destruct Q as [|[x ex] Q]; try done. cbn in Ha |- *.
    injection Ha as Ha1 Ha2. f_equal.
    - rewrite Hnew; [|apply HP; left|rewrite Ha1; intros [= ->]; apply Hn; left].
      rewrite Ha1. apply act_leaf. destruct (rp_new0 x ex) as [-> _]; [apply HQ; left|]. done.
    - apply IH; [intros; apply HP; by right|intros; apply HQ; by right|done|]. intros Hin. apply Hn. by right. }
  rewrite (G P1 N1), (G P2 N2); try done; try tauto; set_solver.
Qed.

Lemma rp_finish t t' H lv p l e e' A c Z N (N' : list child) (od : option (Diff B)) :
  OK t H lv -> lv p = 0 -> el t l = Some e -> RP t t' p l A c Z N N' -> (l, e') ∈ N ->
  (forall c0, c0 ∈ N' -> c_arena c0 <> ALeaf l -> c_cache c0 = act t' (c_arena c0)) ->
  (forall x e, (x, e) ∈ N -> evalid L e) -> (forall c0, c0 ∈ N' -> cvalid L (c_cache c0)) ->
  length (A ++ N' ++ Z) <= 12 ->
  (forall d, od = Some d -> USE_DIFF (b := B) = true -> forall u v, Forall (cvalid L) u -> Forall (cvalid L) v ->
     drel L (summ L (u ++ get_elem_cache e :: v)) d (summ L (u ++ map (fun x => get_elem_cache (snd x)) N ++ v))) ->
  exists t'' H'' lv'',
    (let? t := recursive_update_cache t' (ALeaf l) (USE_DIFF (b := B)) od in
     if bool_decide (12 <= length (A ++ N' ++ Z)) then split t (AInt p) else Ok t) = Ok t'' /\ OK t'' H'' lv'' /\
    (forall X Y, cont t H = X ++ (l, e) :: Y -> cont t'' H'' = X ++ N ++ Y) /\
    (forall x, el t'' x = el t' x) /\ (forall w, MDw w t -> MDw w t'') /\ anext (leaf_nodes t') <= anext (leaf_nodes t'').
Proof.
  intros O Hlp He R Hl Hnew Hev Hcv Hlen Hd. destruct O as [W K Z11 C HR V].
  pose proof (rp_ED W K Hlp R) as D.
  assert (Hne : N' <> []).
  { intros ->. pose proof (rp_NN _ _ _ _ _ _ _ _ _ R) as Hx. destruct N; [|done]. by apply not_elem_of_nil in Hl. }
  assert (W' : WT NoE t' H lv).
  { apply (ed_WT_ne W Hlp D). destruct A; [|done]. by destruct N'. }
  destruct (rp_v _ _ _ _ _ _ _ _ _ e' R Hnew Hl) as (k & c' & Hk & Hc' & Hv).
  destruct (rp_new _ _ _ _ _ _ _ _ _ R l e' Hl) as (He' & _).
  assert (HcA : Forall (cvalid L) (map c_cache A) /\ Forall (cvalid L) (map c_cache Z)).
  { pose proof (VA_kids L _ _ _ V (rp_p _ _ _ _ _ _ _ _ _ R)) as F. rewrite map_app in F. apply Forall_app in F as [F1 F2].
    cbn in F2. by apply Forall_cons in F2 as [_ F2]. }
  assert (Hold : act t (AInt p) = summ L (map c_cache A ++ get_elem_cache e :: map c_cache Z)).
  { rewrite (act_int _ _ _ _ (rp_p _ _ _ _ _ _ _ _ _ R)), map_app. cbn [map].
    rewrite (C p _ c (rp_p _ _ _ _ _ _ _ _ _ R)); [|set_solver|tauto]. by rewrite (rp_c _ _ _ _ _ _ _ _ _ R), (act_leaf _ _ _ _ He). }
  destruct (finish_leaf L t' H lv l e' p (A ++ N' ++ Z) k c' od (bool_decide (12 <= length (A ++ N' ++ Z))))
    as (t'' & H'' & lv'' & E2 & O2 & C2 & El2 & M2 & Al2); try done.
  - by apply (ed_LK W D).
  - by apply (rp_p' _ _ _ _ _ _ _ _ _ R).
  - by eapply (rp_CO W K Hlp R).
  - by eapply (rp_VA W K Hlp R).
  - by apply (ed_RC1 L W D).
  - intros d -> Hu. rewrite Hv. specialize (Hd d eq_refl Hu (map c_cache A) (map c_cache Z) (proj1 HcA) (proj2 HcA)).
    rewrite <- Hold in Hd. split.
    + intros Hr. rewrite (rp_rc _ _ _ _ _ _ _ _ _ R). rewrite HR; [|right; by apply lw_diff_mono].
      rewrite <- (rp_root _ _ _ _ _ _ _ _ _ R), <- Hr. done.
    + intros q cs0 c0 Hkq Hc0 Ha. 
      assert (q <> p) as Hqp.
      { intros ->. assert (AInt p ∈ chs t' p) as Hin by (rewrite (chs_kids _ _ _ Hkq), <- Ha; by apply elem_of_list_fmap_1).
        apply elem_of_list_lookup in Hin as [kk Hin]. apply (wt_ch W') in Hin as [_ Hin]. cbn in Hin. lia. }
      rewrite (rp_other _ _ _ _ _ _ _ _ _ R) in Hkq by done. rewrite (C q cs0 c0 Hkq Hc0), Ha by tauto. done.
  - intros j Hj. unfold chs. rewrite (rp_other _ _ _ _ _ _ _ _ _ R) by done. apply Z11.
  - intros Hf%bool_decide_eq_true. lia.
  - intros Hf%bool_decide_eq_false. lia.
  - exists t'', H'', lv''. split; [done|]. split; [done|]. split; [|split; [|split]]; try done.
    + intros X Y Hc. rewrite C2. by eapply (rp_cont W K Hlp R).
    + intros w M. apply M2; [by apply (rp_MD W K Hlp R)|]. intros Hf%bool_decide_eq_true. destruct w; lia.
Qed.
End repl.
