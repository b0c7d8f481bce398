(** Touch2.v — how many arena entries one insertion or removal writes (continued). *)
From Verif Require Export Touch.

Section lack.
Context {B : BTreeTrait}.
Notation btree := (btree B).
Notation node := (node B).
Notation child := (child B).
Implicit Types (t : btree) (i m p k : nat) (a b : aidx) (cs : list child).

Lemma purge_empty_to t i n : a_get (in_nodes t) i = Some n -> n_children n = [] -> purge t (AInt i) = Ok (rem_in t i).
Proof. intros G E. unfold purge. cbn [purge_f]. rewrite G, E. cbn. by destruct (total_children t). Qed.
Lemma apply_re_st H lv es : forall t t', apply_re_parent t es = Ok t' -> Lev t H lv ->
  (forall m p s, (AInt m, p, s) ∈ es -> p < anext (in_nodes t) /\ lv p = S (lv m)) ->
  Touched (length es) t t' /\ Lev t' H lv /\ anext (in_nodes t') = anext (in_nodes t).
Proof.
  induction es as [|[[a p] s] es IH]; intros t t'; cbn [apply_re_parent length]; [intros [= <-] HL _; split_and!; try done; apply to_refl0|].
  intros E HL Hc. destruct a as [l|m]; rs E.
  - destruct (IH _ _ E) as (I1 & I2 & I3); [done|intros; eapply Hc; by right|split_and!; try done].
    apply (to_trans 1 _ _ _ _ (to_set_lf _ _ _) I1).
  - destruct (IH _ _ E) as (I1 & I2 & I3); [|intros; eapply Hc; by right|split_and!; try done].
    + apply lev_set; [done|]. pose proof (lev_get _ _ _ _ _ HL Ey) as Hn. apply (ln_with _ _ _ _ _ _ Hn); [apply Hn| |by eauto].
      cbn. intros p' [= <-]. right. apply (Hc m p s). left.
    + apply (to_trans 1 _ _ _ _ (to_set_in _ _ _) I1).
Qed.
Lemma re_entries_in cs p j m q s : (AInt m, q, s) ∈ re_entries cs p j -> q = p /\ exists c, c ∈ cs /\ c_arena c = AInt m.
Proof.
  unfold re_entries. intros Hin. apply elem_of_lookup_imap in Hin as (k & c & [= E1 -> ->] & Hk). split; [done|]. exists c. split; [by eapply elem_of_list_lookup_2|done].
Qed.
Lemma re_entries_len cs p j : length (re_entries cs p j) = length cs.
Proof. apply imap_length. Qed.

(** a chain of roots with one child *)
Lemma reduce_to lv f r : forall t k red red' t', reduce_f f t red = Ok (red', t') -> root t = AInt r ->
  (forall i n, i <> r -> a_get (in_nodes t) i = Some n -> length (n_children n) <= 12 /\ forall c m, c ∈ n_children n -> c_arena c = AInt m -> lv i = S (lv m)) ->
  (forall n, a_get (in_nodes t) r = Some n -> length (n_children n) <= 12 /\ forall c m, c ∈ n_children n -> c_arena c = AInt m -> lv m < k) ->
  Touched (2 * k) t t' /\ root t' = AInt r /\ (forall n, a_get (in_nodes t') r = Some n -> length (n_children n) <= 12).
Proof.
  induction f as [|f IH]; intros t k red red' t'; [done|]. cbn [reduce_f]. intros E Er Ho Hr. rewrite Er in E. cbn [unwrap_internal rbind] in E.
  destruct (get_in t r) as [rn| |] eqn:G; cbn [rbind] in E; [|done..]. apply get_in_some in G. destruct (Hr _ G) as [Hl Hc].
  assert (Stop : (red, t) = (red', t') -> Touched (2 * k) t t' /\ root t' = AInt r /\ (forall n, a_get (in_nodes t') r = Some n -> length (n_children n) <= 12)).
  { intros [= <- <-]. split; [eapply to_le; [apply to_refl0|lia]|]. split; [done|]. intros n Gn. rewrite G in Gn. by injection Gn as <-. }
  destruct (n_children rn) as [|c [|c2 cs]]; [apply Stop; congruence| |apply Stop; congruence].
  destruct (c_arena c) as [l|m] eqn:Ea; [apply Stop; congruence|].
  specialize (Hc c m ltac:(left) Ea). destruct (get_in t m) as [cn| |] eqn:Gm; cbn [rbind] in E; [|done..]. apply get_in_some in Gm.
  destruct (get_in (rem_in t m) r) as [rn'| |] eqn:Gr; cbn [rbind] in E; [|done..]. apply get_in_some in Gr.
  unfold rem_in, a_get, a_remove in Gr. cbn in Gr. apply lookup_delete_Some in Gr as [Hne _].
  destruct (Ho m cn Hne Gm) as [Hlc Hcc].
  destruct (IH _ (k - 1) _ _ _ E) as (T & R' & Hf); [done| | |].
  - intros i n Hi. unfold set_in, rem_in, a_get, a_set, a_remove. cbn. rewrite lookup_insert_ne by done. rewrite lookup_delete_Some. intros [_ Gi]. by apply Ho.
  - intros n. unfold set_in, a_get, a_set. cbn. rewrite lookup_insert. intros [= <-]. split; [done|]. intros c' m' Hc' Ha'. specialize (Hcc c' m' Hc' Ha'). lia.
  - split; [|done]. eapply to_le; [eapply to_trans; [eapply to_trans; [apply to_rem_in|apply to_set_in]|exact T]|]. lia.
Qed.
Lemma reset_pp_to cs p : forall t t', reset_pp t cs p = Ok t' -> Touched (length cs) t t'.
Proof.
  induction cs as [|c cs IH]; intros t t'; cbn [reset_pp length]; [intros [= <-]; apply to_refl0|].
  intros E. destruct (c_arena c) as [l|m]; rs E; apply IH in E; [apply (to_trans 1 _ _ _ _ (to_set_lf _ _ _) E)|apply (to_trans 1 _ _ _ _ (to_set_in _ _ _) E)].
Qed.
Lemma try_reduce_to H lv t t' : try_reduce_levels t = Ok t' -> Lev t H lv -> Touched (2 * H + 13) t t'.
Proof.
  unfold try_reduce_levels. intros E HL. destruct (reduce_f _ _ _) as [[red t1]| |] eqn:E1; cbn [rbind] in E; [|done..].
  destruct (root t) as [l|r] eqn:Er. { cbn [fuel reduce_f] in E1. rewrite Er in E1. done. }
  destruct (reduce_to lv _ r _ H _ _ _ E1 Er) as (T & R' & Hl).
  { intros i n _ G. destruct (HL i n G) as (_ & _ & A & _ & C). split; [done|]. intros c m Hc Ha. by destruct (C c m Hc Ha). }
  { intros n G. destruct (HL r n G) as (_ & A2 & A & _ & C). split; [done|]. intros c m Hc Ha. destruct (C c m Hc Ha). lia. }
  destruct red; [|injection E as <-; eapply to_le; [exact T|lia]]. rewrite R' in E. cbn [unwrap_internal rbind] in E.
  destruct (get_in t1 r) as [rn| |] eqn:G; cbn [rbind] in E; [|done..]. apply get_in_some in G. specialize (Hl _ G).
  unfold reset_children_parent_pointer in E. cbn [root set_in] in E. rewrite R' in E. cbn [unwrap_internal rbind] in E. rs E.
  assert (length (n_children y) <= 12). { apply get_in_some in Ey. unfold set_in, a_get, a_set in Ey. cbn in Ey. rewrite lookup_insert in Ey. by injection Ey as <-. }
  apply reset_pp_to in E. eapply to_le; [eapply to_trans; [exact T|eapply to_trans; [apply (to_set_in t1 r (mkNode None U8_MAX (n_children rn)))|exact E]]|]. lia.
Qed.

Lemma pair_lv H lv t i n p pn (a b : idx) : Lev t H lv -> get_in t i = Ok n -> n_parent n = Some (AInt p) -> get_in t p = Ok pn ->
  pair_neighbor t (AInt i) = Ok (Some (a, b)) -> (forall m, i_arena a = AInt m -> lv p = S (lv m)) /\ (forall m, i_arena b = AInt m -> lv p = S (lv m)).
Proof.
  intros HL G Ep Gp. pose proof (lev_get _ _ _ _ _ HL G) as (_ & _ & _ & N4 & _). pose proof (lev_get _ _ _ _ _ HL Gp) as (_ & _ & _ & _ & P5).
  destruct (N4 p Ep) as [_ Hp]. unfold pair_neighbor, get_internal. cbn [unwrap_internal rbind]. rewrite G. cbn [rbind]. rewrite Ep. cbn [ropt rbind unwrap_internal]. rewrite Gp. cbn [rbind].
  destruct (n_slot n) as [|s].
  - destruct (n_children pn !! 1) as [c|] eqn:Ec; cbn; [|done]. intros [= <- <-]. cbn. split; [by intros m [= <-]|]. intros m Ha. eapply P5; [by eapply elem_of_list_lookup_2|done].
  - destruct (n_children pn !! s) as [c|] eqn:Ec; cbn; [|done]. intros [= <- <-]. cbn. split; [|by intros m [= <-]]. intros m Ha. eapply P5; [by eapply elem_of_list_lookup_2|done].
Qed.
Lemma get_set_in_ne t i j n : i <> j -> get_in (set_in t i n) j = get_in t j.
Proof. intros D. unfold get_in, set_in, a_get, a_set. cbn. by rewrite lookup_insert_ne. Qed.
Lemma get_set_in_eq t i n : get_in (set_in t i n) i = Ok n.
Proof. unfold get_in, set_in, a_get, a_set. cbn. by rewrite lookup_insert. Qed.

Lemma lack1_ne H lv t i o t' : handle_lack_single_layer t (AInt i) = Ok (o, t') -> root t <> AInt i -> Lev t H lv ->
  match o with
  | Some x => exists p, x = AInt p /\ lv p = S (lv i) /\ lv p <= H /\ Touched 28 t t' /\ Lev t' H lv
  | None => Touched 28 t t' /\ Lev t' H lv
  end.
Proof.
  unfold handle_lack_single_layer. case_decide as Dr; [done|].
  clear Dr. intros E _ HL. cbn [unwrap_internal rbind] in E. destruct (get_in t i) as [n| |] eqn:G; cbn [rbind] in E; [|done..].
  pose proof (lev_get _ _ _ _ _ HL G) as Hn. pose proof Hn as (N1 & N2 & N3 & N4 & N5).
  destruct (n_parent n) as [[l|p]|] eqn:Ep; cbn [ropt unwrap_internal rbind] in E; [done| |done].
  destruct (N4 p eq_refl) as [Hp1 Hp2]. destruct (get_in t p) as [pn| |] eqn:Gp; cbn [rbind] in E; [|done..].
  pose proof (lev_get _ _ _ _ _ HL Gp) as Hpn. pose proof Hpn as (_ & Hp3 & P3 & _ & P5).
  destruct (vec_get (n_children pn) (n_slot n)) as [c0| |]; cbn [rbind] in E; [|done..].
  destruct (rassert _) as [u0| |]; cbn [rbind] in E; [|done..].
  destruct (n_children n) as [|k0 ks0] eqn:Ek.
  { destruct (vec_remove _ _) as [[cr cs]| |] eqn:Ev; cbn [rbind] in E; [|done..]. apply vec_remove_in in Ev as (V1 & _ & V2).
    destruct (update_children_parent_slot_from _ _ _) as [t1| |] eqn:Eu; cbn [rbind] in E; [|done..]. injection E as <- <-.
    destruct (uc_slots_st H lv _ _ _ _ Eu) as (T & L' & _).
    { apply lev_rem, lev_set; [done|]. apply (ln_with _ _ _ _ _ _ Hpn); [cbn; lia|by left|]. cbn. intros c m Hc Ha. left. exists c. split; [by apply V2|done]. }
    exists p. split_and!; try done. eapply to_le; [eapply to_trans; [eapply to_trans; [apply to_set_in|apply to_rem_in]|exact T]|lia]. }
  rewrite <- Ek in *. clear Ek k0 ks0.
  destruct (pair_neighbor t (AInt i)) as [[[a b]|]| |] eqn:Epr; cbn [rbind] in E; [| |done..].
  2:{ injection E as <- <-. exists p. split_and!; try done. eapply to_le; [apply to_refl0|lia]. }
  destruct (pair_lv _ _ _ _ _ _ _ _ _ HL G Ep Gp Epr) as [La Lb]. clear Epr.
  destruct (vec_get (n_children pn) (i_arr a)) as [ca| |]; cbn [rbind] in E; [|done..].
  destruct (vec_get (n_children pn) (i_arr b)) as [cb| |]; cbn [rbind] in E; [|done..].
  destruct (i_arena a) as [la|ai] eqn:Eai; cbn [unwrap_internal rbind] in E; [done|]. destruct (i_arena b) as [lb|bi] eqn:Ebi; cbn [unwrap_internal rbind] in E; [done|].
  specialize (La ai eq_refl). specialize (Lb bi eq_refl).
  destruct (bool_decide_reflect (ai = bi)) as [|Dab]; cbn [negb rassert rbind] in E; [done|].
  destruct (get_in t ai) as [na| |] eqn:Ga; cbn [rbind] in E; [|done..]. destruct (get_in t bi) as [nb| |] eqn:Gb; cbn [rbind] in E; [|done..].
  pose proof (lev_get _ _ _ _ _ HL Ga) as Hna. pose proof Hna as (A1 & _ & A3 & _ & A5).
  pose proof (lev_get _ _ _ _ _ HL Gb) as Hnb. pose proof Hnb as (B1 & _ & B3 & _ & B5).
  assert (Dpa : p <> ai) by (intros ->; lia). assert (Dpb : p <> bi) by (intros ->; lia).
  set (A := n_children na) in *. set (Bc := n_children nb) in *.
  assert (KidA : forall c m, c ∈ A \/ c ∈ Bc -> c_arena c = AInt m -> m < anext (in_nodes t) /\ lv ai = S (lv m) /\ lv bi = S (lv m)).
  { intros c m [Hc|Hc] Ha; [destruct (A5 c m Hc Ha)|destruct (B5 c m Hc Ha)]; lia. }
  assert (SetA : forall cs, length cs <= 12 -> (forall c, c ∈ cs -> c ∈ A \/ c ∈ Bc) -> LN (anext (in_nodes t)) H lv ai (with_children na cs)).
  { intros cs Hl Hc. apply (ln_with _ _ _ _ _ _ Hna); [done|by left|]. intros c m Hin Ha. right. destruct (KidA c m (Hc c Hin) Ha) as (? & ? & ?). lia. }
  assert (SetB : forall cs, length cs <= 12 -> (forall c, c ∈ cs -> c ∈ A \/ c ∈ Bc) -> LN (anext (in_nodes t)) H lv bi (with_children nb cs)).
  { intros cs Hl Hc. apply (ln_with _ _ _ _ _ _ Hnb); [done|by left|]. intros c m Hin Ha. right. destruct (KidA c m (Hc c Hin) Ha) as (? & ? & ?). lia. }
  case_decide as Dl.
  - (* move children *)
    match type of E with rbind ?m _ = _ => destruct m as [[[A' B'] re]| |] eqn:Em; cbn [rbind] in E; [|done..] end.
    assert (length A' <= 12 /\ length B' <= 12 /\ (forall c, c ∈ A' -> c ∈ A \/ c ∈ Bc) /\ (forall c, c ∈ B' -> c ∈ A \/ c ∈ Bc) /\ length re <= 24 /\
      (forall m q s, (AInt m, q, s) ∈ re -> q < anext (in_nodes t) /\ lv q = S (lv m))) as (LA & LB & IA & IB & Lre & Ire).
    { assert (Q : forall cs q s m j, (q = ai \/ q = bi) -> (forall c, c ∈ cs -> c ∈ A \/ c ∈ Bc) -> forall q', (AInt m, q', s) ∈ re_entries cs q j -> q' < anext (in_nodes t) /\ lv q' = S (lv m)).
      { intros cs q s m j Hq Hcs q' (-> & c & Hc & Ha)%re_entries_in. destruct (KidA c m (Hcs c Hc) Ha) as (? & ? & ?). destruct Hq as [->| ->]; done. }
      case_decide.
      - destruct (bool_decide_reflect (length (A ++ take ((length Bc - length A) / 2) Bc) <= 12)) as [HA12|]; cbn [rassert rbind] in Em; [|done].
        destruct (delete_range Bc 0 _) as [B0| |] eqn:Ed; cbn [rbind] in Em; [|done..]. injection Em as <- <- <-. apply delete_range_in in Ed as [Ed1 Ed2].
        assert (I1 : forall c, c ∈ take ((length Bc - length A) / 2) Bc -> c ∈ A \/ c ∈ Bc) by (intros c Hc; right; by eapply in_take).
        split_and!; [done|lia| |intros c Hc; right; by apply Ed2| |].
        + intros c [Hc|Hc]%elem_of_app; [by left|by apply I1].
        + rewrite app_length, !re_entries_len, take_length. lia.
        + intros m q s [Hin|Hin]%elem_of_app; [eapply Q; [by left|exact I1|exact Hin]|eapply Q; [by right| |exact Hin]]. intros c Hc. right. by apply Ed2.
      - set (ml := (length A - length Bc) / 2) in *.
        destruct (bool_decide_reflect (length (drop (length A - ml) A ++ Bc) <= 12)) as [HB12|]; cbn [rassert rbind] in Em; [|done].
        destruct (delete_range A _ _) as [A0| |] eqn:Ed; cbn [rbind] in Em; [|done..]. injection Em as <- <- <-. apply delete_range_in in Ed as [Ed1 Ed2].
        assert (I1 : forall c, c ∈ drop (length A - ml) A ++ Bc -> c ∈ A \/ c ∈ Bc) by (intros c [Hc|Hc]%elem_of_app; [left; by eapply in_drop|by right]).
        split_and!; [lia|done|intros c Hc; left; by apply Ed2|done| |].
        + rewrite app_length, !re_entries_len. lia.
        + intros m q s [Hin|Hin]%elem_of_app; [eapply Q; [by right| |exact Hin]|eapply Q; [by right|exact I1|exact Hin]]. intros c Hc. by right. }
    clear Em. rs E. destruct y as [ac d1]. cbn [rbind] in E. rs E. destruct y as [bc d2]. cbn [rbind] in E. rs E. injection E as <- <-.
    assert (L2 : Lev (set_in (set_in t ai (with_children na A')) bi (with_children nb B')) H lv).
    { apply lev_set; [apply lev_set; [done|by apply SetA]|by apply SetB]. }
    pose proof (lev_get _ _ _ _ _ L2 Ey1) as Hpn2. apply set_cache_ar in Ey2. apply set_cache_ar in Ey3.
    destruct (apply_re_st H lv _ _ _ Ey4) as (T4 & L4 & _); [apply lev_set; [done|apply ln_arenas; [done|congruence]]|done|].
    assert (T : Touched 27 t y2).
    { eapply to_le; [eapply to_trans; [eapply to_trans; [eapply to_trans; [apply to_set_in|apply to_set_in]|apply to_set_in]|exact T4]|]. lia. }
    destruct (is_lack _).
    + exists p. split_and!; try done. eapply to_le; [exact T|lia].
    + split; [eapply to_le; [exact T|lia]|done].
  - (* merge *)
    destruct (bool_decide_reflect (length (A ++ Bc) <= 12)) as [H12|]; cbn [rassert rbind] in E; [|done].
    match type of E with rbind ?m _ = _ => destruct m as [[[lk re] t2]| |] eqn:Em; cbn [rbind] in E; [|done..] end.
    assert (Lev t2 H lv /\ Touched 16 t t2 /\ length re <= 12 /\ anext (in_nodes t2) = anext (in_nodes t) /\
      (forall m q s, (AInt m, q, s) ∈ re -> q < anext (in_nodes t) /\ lv q = S (lv m))) as (L2 & T2 & Lre & An2 & Ire).
    { assert (Q : forall cs q s m j, (q = ai \/ q = bi) -> (forall c, c ∈ cs -> c ∈ A \/ c ∈ Bc) -> forall q', (AInt m, q', s) ∈ re_entries cs q j -> q' < anext (in_nodes t) /\ lv q' = S (lv m)).
      { intros cs q s m j Hq Hcs q' (-> & c & Hc & Ha)%re_entries_in. destruct (KidA c m (Hcs c Hc) Ha) as (? & ? & ?). destruct Hq as [->| ->]; done. }
      assert (IAB : forall c, c ∈ A ++ Bc -> c ∈ A \/ c ∈ Bc) by (intros c; by rewrite elem_of_app).
      assert (Hnil : forall c : child, c ∈ @nil child -> c ∈ A \/ c ∈ Bc) by (intros c Hc; by apply elem_of_nil in Hc).
      rewrite app_length in H12. case_decide.
      - rs Em. destruct y as [ac d1]. cbn [rbind] in Em. rs Em. destruct y1 as [cr cs]. cbn [rbind] in Em. rs Em. injection Em as <- <- <-.
        set (t1 := set_in (set_in t ai (with_children na (A ++ Bc))) bi (with_children nb [])) in *.
        assert (L1 : Lev t1 H lv). { apply lev_set; [apply lev_set; [done|apply SetA; [rewrite app_length; lia|done]]|apply SetB; [cbn; lia|done]]. }
        pose proof (lev_get _ _ _ _ _ L1 Ey0) as Hpn2. apply set_cache_ar in Ey1. apply vec_remove_in in Ey2 as (V1 & _ & V2).
        assert (Ll : length y0 = length (n_children y)) by (apply (f_equal length) in Ey1; by rewrite !map_length in Ey1).
        assert (L3 : Lev (set_in t1 p (with_children y cs)) H lv).
        { apply lev_set; [done|]. apply (ln_with _ _ _ _ _ _ Hpn2); [cbn; destruct Hpn2 as (_ & _ & ? & _); lia|by left|].
          cbn. intros c m Hc Ha. left. apply V2 in Hc. by eapply ar_in. }
        erewrite purge_empty_to in Ey3; [|apply get_in_some; rewrite get_set_in_ne by done; apply get_set_in_eq|done]. injection Ey3 as <-.
        destruct (uc_slots_st H lv _ _ _ _ Ey4) as (T4 & L4 & A4); [by apply lev_rem|].
        split_and!; try done.
        + eapply to_le; [eapply to_trans; [eapply to_trans; [eapply to_trans; [eapply to_trans; [apply to_set_in|apply to_set_in]|apply to_set_in]|apply to_rem_in]|exact T4]|lia].
        + rewrite re_entries_len. lia.
        + intros m q s Hin. eapply Q; [by left| |exact Hin]. intros c Hc. by right.
      - rs Em. destruct y as [ac d1]. cbn [rbind] in Em. rs Em. destruct y1 as [cr cs]. cbn [rbind] in Em. rs Em. injection Em as <- <- <-.
        set (t1 := set_in (set_in t ai (with_children na [])) bi (with_children nb (A ++ Bc))) in *.
        assert (L1 : Lev t1 H lv). { apply lev_set; [apply lev_set; [done|apply SetA; [cbn; lia|done]]|apply SetB; [rewrite app_length; lia|done]]. }
        pose proof (lev_get _ _ _ _ _ L1 Ey0) as Hpn2. apply set_cache_ar in Ey1. apply vec_remove_in in Ey2 as (V1 & _ & V2).
        assert (Ll : length y0 = length (n_children y)) by (apply (f_equal length) in Ey1; by rewrite !map_length in Ey1).
        assert (L3 : Lev (set_in t1 p (with_children y cs)) H lv).
        { apply lev_set; [done|]. apply (ln_with _ _ _ _ _ _ Hpn2); [cbn; destruct Hpn2 as (_ & _ & ? & _); lia|by left|].
          cbn. intros c m Hc Ha. left. apply V2 in Hc. by eapply ar_in. }
        erewrite purge_empty_to in Ey3; [|apply get_in_some; rewrite get_set_in_ne by done; unfold t1; rewrite get_set_in_ne by congruence; apply get_set_in_eq|done]. injection Ey3 as <-.
        destruct (uc_slots_st H lv _ _ _ _ Ey4) as (T4 & L4 & A4); [by apply lev_rem|].
        split_and!; try done.
        + eapply to_le; [eapply to_trans; [eapply to_trans; [eapply to_trans; [eapply to_trans; [apply to_set_in|apply to_set_in]|apply to_set_in]|apply to_rem_in]|exact T4]|lia].
        + rewrite app_length, !re_entries_len. lia.
        + intros m q s [Hin|Hin]%elem_of_app; (eapply Q; [by right| |exact Hin]); intros c Hc; [by left|by right]. }
    clear Em. rs E. injection E as <- <-.
    destruct (apply_re_st H lv _ _ _ Ey L2) as (T4 & L4 & _); [by rewrite An2|].
    assert (T : Touched 28 t y) by (eapply to_le; [eapply to_trans; [exact T2|exact T4]|lia]).
    destruct lk; [exists p; split_and!; done|]. split; [exact T|done].
Qed.
Lemma lack1_st H lv t i o t' : handle_lack_single_layer t (AInt i) = Ok (o, t') -> Lev t H lv ->
  match o with
  | Some x => exists p, x = AInt p /\ lv p = S (lv i) /\ lv p <= H /\ Touched 28 t t' /\ Lev t' H lv
  | None => Touched (2 * H + 28) t t'
  end.
Proof.
  intros E HL. destruct (decide (root t = AInt i)) as [Dr|Dr].
  - unfold handle_lack_single_layer in E. rewrite decide_True in E by done. rs E. injection E as <- <-.
    apply (try_reduce_to _ _ _ _ Ey) in HL. eapply to_le; [exact HL|lia].
  - pose proof (lack1_ne _ _ _ _ _ _ E Dr HL) as HN. destruct o; [done|]. destruct HN as [T _]. eapply to_le; [exact T|lia].
Qed.
Lemma lack_to H lv f : forall t i t', handle_lack_f f t (AInt i) = Ok t' -> Lev t H lv -> lv i <= H -> Touched (28 * (H - lv i) + 2 * H + 28) t t'.
Proof.
  induction f as [|f IH]; intros t i t'; [done|]. cbn [handle_lack_f]. intros E HL Hi.
  destruct (handle_lack_single_layer t (AInt i)) as [[o t1]| |] eqn:E1; cbn [rbind] in E; [|done..]. apply (lack1_st _ _ _ _ _ _ E1) in HL. destruct o as [x|].
  - destruct HL as (p & -> & Hp & Hp2 & T & L1). apply IH in E; [|done|lia]. eapply to_le; [eapply to_trans; [exact T|exact E]|]. lia.
  - injection E as <-. eapply to_le; [exact HL|lia].
Qed.
Lemma remove_internal_to H lv f : forall t i t', remove_internal_f f t i = Ok t' -> Lev t H lv -> lv i <= H -> Touched (28 * (H - lv i) + 2 * H + 28) t t'.
Proof.
  induction f as [|f IH]; intros t i t'; [done|]. cbn [remove_internal_f]. intros E HL Hi. case_decide as D.
  { injection E as <-. eapply to_le; [apply to_refl0|lia]. }
  destruct (get_in t i) as [n| |] eqn:G; cbn [rbind] in E; [|done..]. pose proof (lev_get _ _ _ _ _ HL G) as (N1 & N2 & N3 & N4 & N5).
  destruct (n_parent n) as [[l|p]|] eqn:Ep; cbn [ropt unwrap_internal rbind] in E; [done| |done]. destruct (N4 p eq_refl) as [Hp1 Hp2].
  destruct (get_in (rem_in t i) p) as [pn| |] eqn:Gp; cbn [rbind] in E; [|done..].
  assert (L1 : Lev (rem_in t i) H lv) by (by apply lev_rem). pose proof (lev_get _ _ _ _ _ L1 Gp) as Hpn. pose proof Hpn as (_ & P2 & P3 & _).
  destruct (vec_remove _ _) as [[cr cs]| |] eqn:Ev; cbn [rbind] in E; [|done..]. apply vec_remove_in in Ev as (V1 & _ & V2).
  destruct (update_children_parent_slot_from _ _ _) as [t1| |] eqn:Eu; cbn [rbind] in E; [|done..].
  destruct (uc_slots_st H lv _ _ _ _ Eu) as (T & L' & _).
  { apply lev_set; [done|]. apply (ln_with _ _ _ _ _ _ Hpn); [cbn; lia|by left|]. cbn. intros c m Hc Ha. left. exists c. split; [by apply V2|done]. }
  assert (T1 : Touched 14 t t1) by (eapply to_le; [eapply to_trans; [eapply to_trans; [apply to_rem_in|apply to_set_in]|exact T]|lia]).
  destruct (n_is_empty _); [|destruct (is_lack _)].
  - apply IH in E; [|done|lia]. eapply to_le; [eapply to_trans; [exact T1|exact E]|lia].
  - unfold handle_lack_recursively in E. apply (lack_to H lv) in E; [|done|lia]. eapply to_le; [eapply to_trans; [exact T1|exact E]|lia].
  - injection E as <-. eapply to_le; [exact T1|lia].
Qed.
Lemma remove_leaf_to H lv t cur o t' : remove_leaf t cur = Ok (o, t') -> Lev t H lv -> Touched (31 * H + 32) t t'.
Proof.
  unfold remove_leaf. intros E HL. destruct (a_get (leaf_nodes t) (cu_leaf cur)) as [lf|] eqn:Gl; [|injection E as <- <-; eapply to_le; [apply to_refl0|lia]].
  destruct (get_in t (l_parent lf)) as [pn| |] eqn:Gp; cbn [rbind] in E; [|done..]. pose proof (lev_get _ _ _ _ _ HL Gp) as Hpn. pose proof Hpn as (_ & P2 & P3 & _).
  destruct (get_leaf_slot _ _) as [s0| |]; cbn [rbind] in E; [|done..].
  destruct (vec_remove _ _) as [[cr cs]| |] eqn:Ev; cbn [rbind] in E; [|done..]. apply vec_remove_in in Ev as (V1 & _ & V2). rs E. injection E as <- <-.
  set (t1 := rem_lf (set_in t (l_parent lf) (with_children pn cs)) (raw (c_arena cr))) in *.
  assert (L1 : Lev t1 H lv).
  { apply (lev_same (set_in t (l_parent lf) (with_children pn cs))); [done|]. apply lev_set; [done|].
    apply (ln_with _ _ _ _ _ _ Hpn); [cbn; lia|by left|]. cbn. intros c m Hc Ha. left. exists c. split; [by apply V2|done]. }
  assert (T1 : Touched 2 t t1) by (eapply (to_trans 1 1); [apply to_set_in|apply to_rem_lf]).
  destruct (ruc_st H lv _ _ _ _ _ Ey1 L1) as (T2 & L2 & _).
  assert (T3 : Touched (28 * H + 2 * H + 28) y1 y2).
  { destruct (n_is_empty _); [|destruct (is_lack _)].
    - unfold remove_internal_node in Ey2. apply (remove_internal_to H lv) in Ey2; [|done|lia]. eapply to_le; [exact Ey2|lia].
    - unfold handle_lack_recursively in Ey2. apply (lack_to H lv) in Ey2; [|done|lia]. eapply to_le; [exact Ey2|lia].
    - injection Ey2 as <-. eapply to_le; [apply to_refl0|lia]. }
  eapply to_le; [eapply to_trans; [eapply to_trans; [exact T1|exact T2]|exact T3]|]. lia.
Qed.
End lack.
