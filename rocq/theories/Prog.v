(** Prog.v — programs that use a Rope or an OrdTreeMap through its API cannot tell it from a plain string, or from a
    sorted list.  The shipped unit tests are such programs. *)
From Verif Require Export Fuzz Visit Facts Ops2.

(** ** ropes *)
(** A program: every step may depend on everything seen so far.  Methods of rope.rs:48-265 and the test helper
    [test_prev_length], rope.rs:315-330, applied to the result of a query as in [test_index], rope.rs:333-339. *)
Inductive rprog (A : Type) : Type :=
| RDone (a : A)
| RFail                                                    (* a panic of the program itself: a failing assertion *)
| RInsert (i : nat) (x : list nat) (k : rprog A)
| RDelete (st en : nat) (k : rprog A)
| RLen (k : nat -> rprog A)
| RIsEmpty (k : bool -> rprog A)
| RToString (k : list nat -> rprog A)
| RCheck (k : rprog A)
| RPrevLen (i : nat) (k : nat -> rprog A).
Arguments RDone {A}. Arguments RFail {A}. Arguments RInsert {A}. Arguments RDelete {A}. Arguments RLen {A}. Arguments RIsEmpty {A}.
Arguments RToString {A}. Arguments RCheck {A}. Arguments RPrevLen {A}.

Section rope.
Context (CAP : nat) {A : Type}.
(** test_prev_length — rope.rs:315-330.  The model of visit_previous_caches never reports [PrevSiblingElem]. *)
Definition prev_length (r : rope CAP) (q : qresult) : res nat :=
  let? w := visit_previous_caches (rp_tree CAP r) (qr_cursor q) in
  Ok (foldl (fun n (p : @pcache (RopeTrait CAP)) => match p with NodeCache c => n + Z.to_nat c | ThisElemAndOffset _ off => n + off end) 0 w).
Fixpoint rope_prog (p : rprog A) (r : rope CAP) : res A :=
  match p with
  | RDone a => Ok a
  | RFail => Panic
  | RInsert i x k => let? r := rope_insert CAP r i x in rope_prog k r
  | RDelete st en k => let? r := rope_delete_range CAP r st en in rope_prog k r
  | RLen k => rope_prog (k (rope_len CAP r)) r
  | RIsEmpty k => rope_prog (k (rope_is_empty CAP r)) r
  | RToString k => let? s := rope_to_string CAP r in rope_prog (k s) r
  | RCheck k => let? _ := rope_check CAP r in rope_prog k r
  | RPrevLen i k =>
      let? q := query (RopeFinder CAP) (rp_tree CAP r) i in
      let? q := ropt q in
      let? n := prev_length r q in rope_prog (k n) r
  end.
(** the same program on a string of bytes *)
Fixpoint str_prog (p : rprog A) (s : list nat) : res A :=
  match p with
  | RDone a => Ok a
  | RFail => Panic
  | RInsert i x k => if decide (length s < i) then Panic else str_prog k (take i s ++ x ++ drop i s)
  | RDelete st en k => str_prog k (take (Nat.min st en) s ++ drop en s)
  | RLen k => str_prog (k (length s)) s
  | RIsEmpty k => str_prog (k (bool_decide (s = []))) s
  | RToString k => if utf8_ok s then str_prog (k s) s else Panic
  | RCheck k => str_prog k s
  | RPrevLen i k => if decide (s = []) then Panic else str_prog (k i) s
  end.
(** the string never has more than [N] bytes while the program runs *)
Fixpoint str_small (N : nat) (p : rprog A) (s : list nat) : Prop :=
  length s <= N /\
  match p with
  | RDone _ | RFail => True
  | RInsert i x k => i <= length s -> str_small N k (take i s ++ x ++ drop i s)
  | RDelete st en k => str_small N k (take (Nat.min st en) s ++ drop en s)
  | RLen k => str_small N (k (length s)) s
  | RIsEmpty k => str_small N (k (bool_decide (s = []))) s
  | RToString k => str_small N (k s) s
  | RCheck k => str_small N k s
  | RPrevLen i k => str_small N (k i) s
  end.

Context (HC : 0 < CAP).
Lemma foldl_caches cs e off n : foldl (fun n (p : @pcache (RopeTrait CAP)) => match p with NodeCache c => n + Z.to_nat c | ThisElemAndOffset _ off => n + off end) n
  (map NodeCache cs ++ [ThisElemAndOffset e off]) = n + sum_list (map rope_get_len cs) + off.
Proof. revert n. induction cs as [|c cs IH]; intros n; cbn [map app foldl sum_list sum_list_with]; [cbn; lia|]. rewrite IH. unfold rope_get_len at 2. cbn. lia. Qed.
Lemma prev_length_ok r s i : RopeOf CAP r s -> s <> [] -> Shallow (rp_tree CAP r) 9 ->
  exists q, query (RopeFinder CAP) (rp_tree CAP r) i = Ok (Some q) /\ prev_length r q = Ok i.
Proof using HC.
  intros (xs & T & Es & _) Hne Sh. assert (xs <> []) as Hx by (intros ->; by subst s).
  destruct (t_len_query (RopeLaw CAP) rope_get_len _ xs i (rope_LenCache CAP) T Hx) as (X & l & e & Y & s' & Ex & Hi & HY & E & _).
  unfold query, RopeFinder. rewrite E. cbn [rbind]. eexists. split; [done|].
  unfold prev_length. cbn [qr_cursor]. rewrite Ex in T.
  destruct (t_visit_len (RopeLaw CAP) rope_get_len _ X l e Y (i - tlen X) (rope_LenCache CAP) T Sh) as (cs & Ev & Hs).
  rewrite Ev. cbn [rbind]. f_equal. etrans; [apply foldl_caches|]. transitivity (tlen X + (i - tlen X)); [f_equal; exact Hs|lia].
Qed.
Lemma rope_prog_ok p : forall r s, RopeOf CAP r s -> str_small (5 ^ 7) p s -> rope_prog p r = str_prog p s.
Proof using HC.
  induction p as [a| |i x k IH|st en k IH|k IH|k IH|k IH|k IH|i k IH]; intros r s HR [Hl Hs]; cbn [rope_prog str_prog].
  - done.
  - done.
  - case_decide as Hi; [by rewrite (rope_insert_oob CAP HC r s i x HR Hi)|].
    destruct (rope_insert_ok CAP HC r s i x HR ltac:(lia)) as (r' & -> & HR'). cbn [rbind]. apply IH; [done|]. apply Hs. lia.
  - destruct (rope_delete_ok CAP HC r s st en HR) as (r' & -> & HR'). { apply (rope_shallow CAP HC r s 7 HR); [lia|done]. }
    cbn [rbind]. by apply IH.
  - rewrite (rope_len_ok CAP HC r s HR). by apply IH.
  - rewrite (rope_empty_ok CAP HC r s HR). by apply IH.
  - unfold rope_to_string. rewrite (rope_to_bytes_ok CAP HC r s HR). 2:{ apply (rope_shallow CAP HC r s 9 HR); [lia|]. etrans; [exact Hl|]. apply Nat.pow_le_mono_r; lia. }
    cbn [rbind]. destruct (utf8_ok s); [|done]. cbn [rbind]. by apply IH.
  - assert (rope_check CAP r = Ok tt) as ->.
    { pose proof (rope_shallow CAP HC r s 9 HR) as Sh. destruct HR as (xs & T & _). unfold rope_check. apply (t_check (RopeLaw CAP) _ xs T); [|by right].
      apply Sh; [lia|]. etrans; [exact Hl|]. apply Nat.pow_le_mono_r; lia. }
    cbn [rbind]. by apply IH.
  - case_decide as He.
    + subst s. destruct HR as (xs & T & Es & Hn & _). assert (xs = []) as ->.
      { pose proof (ft_len (RopeLaw CAP) (RopeF CAP) xs) as Hf. destruct xs as [|[l e] xs]; [done|]. exfalso. rewrite Es in Hf. cbn [length] in Hf.
        rewrite tlen_cons in Hf. pose proof (Hn l e ltac:(left)). enough (0 = rle_len e + tlen xs) by lia. apply Hf. intros l' e' H'. by apply (tree_valid (RopeLaw CAP) _ _ l' e' T). }
      unfold query. rewrite (t_query_empty (RopeLaw CAP) _ _ _ T). done.
    + destruct (prev_length_ok r s i HR He) as (q & -> & E). { apply (rope_shallow CAP HC r s 9 HR); [lia|]. etrans; [exact Hl|]. apply Nat.pow_le_mono_r; lia. }
      cbn [rbind ropt]. rewrite E. cbn [rbind]. by apply IH.
Qed.
Theorem rope_prog_string p : str_small (5 ^ 7) p [] -> rope_prog p (rope_new CAP) = str_prog p [].
Proof using HC. apply rope_prog_ok, rope_new_ok. Qed.
End rope.

(** ** ordered maps *)
(** Methods of ord.rs:25-167; [OCompare]: two key queries and [compare_pos], as in the test ord.rs:339-365 *)
Inductive oprog (Key Value A : Type) : Type :=
| ODone (a : A)
| OFail
| OInsert (k : Key) (v : Value) (p : oprog Key Value A)
| ODelete (k : Key) (p : option (Key * Value) -> oprog Key Value A)
| OLen (p : nat -> oprog Key Value A)
| OIsEmpty (p : bool -> oprog Key Value A)
| OIter (p : list (Key * Value) -> oprog Key Value A)
| OIterKey (p : list Key -> oprog Key Value A)
| OCheck (p : oprog Key Value A)
| OCompare (k1 k2 : Key) (p : comparison -> oprog Key Value A).
Arguments ODone {_ _ _}. Arguments OFail {_ _ _}. Arguments OInsert {_ _ _}. Arguments ODelete {_ _ _}. Arguments OLen {_ _ _}. Arguments OIsEmpty {_ _ _}.
Arguments OIter {_ _ _}. Arguments OIterKey {_ _ _}. Arguments OCheck {_ _ _}. Arguments OCompare {_ _ _}.

Section ord.
Context {Key Value : Type} {kcmp : Key -> Key -> comparison} (TO : TOrd kcmp) {A : Type}.
Notation OL := (@OrdLaw Key Value kcmp (to_refl _ TO)).
Fixpoint ord_prog (p : oprog Key Value A) (m : omap_t Key Value kcmp) : res A :=
  match p with
  | ODone a => Ok a
  | OFail => Panic
  | OInsert k v p => let? m := om_insert kcmp m k v in ord_prog p m
  | ODelete k p => let? (o, m) := om_delete kcmp m k in ord_prog (p o) m
  | OLen p => ord_prog (p (om_len kcmp m)) m
  | OIsEmpty p => ord_prog (p (om_is_empty kcmp m)) m
  | OIter p => let? l := om_iter kcmp m in ord_prog (p l) m
  | OIterKey p => let? l := om_iter_key kcmp m in ord_prog (p l) m
  | OCheck p => let? _ := check (om_tree kcmp m) in ord_prog p m
  | OCompare k1 k2 p =>
      let? q1 := query (OrdQuery kcmp) (om_tree kcmp m) k1 in
      let? q1 := ropt q1 in
      let? q2 := query (OrdQuery kcmp) (om_tree kcmp m) k2 in
      let? q2 := ropt q2 in
      let? c := compare_pos (om_tree kcmp m) (qr_cursor q1) (qr_cursor q2) in ord_prog (p c) m
  end.
(** the same program on a sorted list of entries *)
Fixpoint sorted_prog (p : oprog Key Value A) (s : list (Key * Value)) : res A :=
  match p with
  | ODone a => Ok a
  | OFail => Panic
  | OInsert k v p => sorted_prog p (sm_insert kcmp k v s)
  | ODelete k p => sorted_prog (p (sm_get kcmp k s)) (sm_delete kcmp k s)
  | OLen p => sorted_prog (p (length s)) s
  | OIsEmpty p => sorted_prog (p (bool_decide (length s = 0))) s
  | OIter p => sorted_prog (p s) s
  | OIterKey p => sorted_prog (p (map fst s)) s
  | OCheck p => sorted_prog p s
  | OCompare k1 k2 p => sorted_prog (p (kcmp k1 k2)) s
  end.
(** what the program must not do: delete an absent key from a non-empty map (C37), run the self-check on an empty map (C45),
    compare the positions of absent keys, or let the map grow to [N] entries *)
Fixpoint ord_legal (N : nat) (p : oprog Key Value A) (s : list (Key * Value)) : Prop :=
  length s < N /\
  match p with
  | ODone _ | OFail => True
  | OInsert k v p => ord_legal N p (sm_insert kcmp k v s)
  | ODelete k p => (s = [] \/ sm_get kcmp k s <> None) /\ ord_legal N (p (sm_get kcmp k s)) (sm_delete kcmp k s)
  | OLen p => ord_legal N (p (length s)) s
  | OIsEmpty p => ord_legal N (p (bool_decide (length s = 0))) s
  | OIter p => ord_legal N (p s) s
  | OIterKey p => ord_legal N (p (map fst s)) s
  | OCheck p => s <> [] /\ ord_legal N p s
  | OCompare k1 k2 p => sm_get kcmp k1 s <> None /\ sm_get kcmp k2 s <> None /\ ord_legal N (p (kcmp k1 k2)) s
  end.

Lemma ord_find_key t xs (k : Key) (e : Key * Value) : Tree OL t xs -> Incr (kcmp := kcmp) (map snd xs) -> sm_get kcmp k (map snd xs) = Some e ->
  exists i l, xs !! i = Some (l, e) /\ query (OrdQuery kcmp) t k = Ok (Some (mkQR (mkCur l 0) true)) /\ kcmp k (fst e) = Eq.
Proof using TO.
  intros T Hi Hg. destruct (ord_query TO t xs k T Hi) as (X & l & e' & Y & -> & HX & HY & E); [by intros ->|].
  assert (Hg2 : sm_get kcmp k (e' :: map snd Y) = Some e).
  { etrans; [symmetry; exact (sm_get_app TO k (map snd X) (e' :: map snd Y) HX)|]. rewrite map_app in Hg. exact Hg. }
  clear Hg. rename Hg2 into Hg. destruct e' as [k' v']. cbn [fst] in *. cbn in Hg.
  destruct (kcmp k k') eqn:Ek.
  - injection Hg as <-. exists (length X), l. split; [by apply list_lookup_middle|]. split; [done|]. exact Ek.
  - exfalso. pose proof (sm_get_above k (map snd Y) HY) as H0. unfold Elem, OrdTrait in *. congruence.
  - exfalso. pose proof (sm_get_above k (map snd Y) HY) as H0. unfold Elem, OrdTrait in *. congruence.
Qed.
Lemma incr_lookup (m : list (Key * Value)) : Incr (kcmp := kcmp) m -> forall i j a b, m !! i = Some a -> m !! j = Some b -> i < j -> kcmp (fst a) (fst b) = Lt.
Proof.
  induction 1 as [|x m _ IH F]; intros i j a b Hi Hj Hij; [done|]. destruct j as [|j]; [lia|]. cbn in Hj. destruct i as [|i]; cbn in Hi.
  - injection Hi as ->. rewrite Forall_forall in F. apply F. by eapply elem_of_list_lookup_2.
  - apply (IH i j a b Hi Hj). lia.
Qed.
Lemma kcmp_eq (a b c d : Key) : kcmp a b = Eq -> kcmp c d = Eq -> kcmp b d = Lt -> kcmp a c = Lt.
Proof using TO.
  intros H1 H2 H3. apply (to_lt_le TO a d c); [apply (to_le_lt TO a b d); [by rewrite H1|done]|]. apply (to_eq TO) in H2. by rewrite H2.
Qed.
Lemma ord_compare_ok t xs (k1 k2 : Key) : Tree OL t xs -> Incr (kcmp := kcmp) (map snd xs) -> sm_get kcmp k1 (map snd xs) <> None -> sm_get kcmp k2 (map snd xs) <> None ->
  exists q1 q2, query (OrdQuery kcmp) t k1 = Ok (Some q1) /\ query (OrdQuery kcmp) t k2 = Ok (Some q2) /\
    compare_pos t (qr_cursor q1) (qr_cursor q2) = Ok (kcmp k1 k2).
Proof using TO.
  intros T Hi H1 H2. destruct (sm_get kcmp k1 (map snd xs)) as [e1|] eqn:E1; [|done]. destruct (sm_get kcmp k2 (map snd xs)) as [e2|] eqn:E2; [|done].
  destruct (ord_find_key t xs k1 e1 T Hi E1) as (i & l1 & Hl1 & Q1 & C1). destruct (ord_find_key t xs k2 e2 T Hi E2) as (j & l2 & Hl2 & Q2 & C2).
  eexists _, _. split; [exact Q1|]. split; [exact Q2|]. cbn [qr_cursor]. rewrite (t_compare_lex OL t xs i j l1 e1 l2 e2 0 0 T Hl1 Hl2). f_equal.
  assert (Hm1 : map snd xs !! i = Some e1) by (etrans; [exact (list_lookup_fmap snd xs i)|by apply (f_equal (fmap snd)) in Hl1]). assert (Hm2 : map snd xs !! j = Some e2) by (etrans; [exact (list_lookup_fmap snd xs j)|by apply (f_equal (fmap snd)) in Hl2]).
  destruct (Nat.compare_spec i j) as [->|Hlt|Hlt].
  - cbn. assert (e1 = e2) as -> by congruence. symmetry. destruct (kcmp k1 k2) eqn:Ek; [done|exfalso..].
    + pose proof (to_lt_le TO k1 k2 (fst e2) Ek ltac:(by rewrite C2)) as H. by rewrite C1 in H.
    + apply (to_gt TO) in Ek. pose proof (to_lt_le TO k2 k1 (fst e2) Ek ltac:(by rewrite C1)) as H. by rewrite C2 in H.
  - symmetry. eapply kcmp_eq; [exact C1|exact C2|]. by apply (incr_lookup _ Hi i j).
  - symmetry. apply (to_gt TO). eapply kcmp_eq; [exact C2|exact C1|]. by apply (incr_lookup _ Hi j i).
Qed.
Lemma ord_prog_ok p : forall m s, MapOf TO m s -> ord_legal (2 * 6 ^ 9) p s -> ord_prog p m = sorted_prog p s.
Proof.
  induction p as [a| |k v p IH|k p IH|p IH|p IH|p IH|p IH|p IH|k1 k2 p IH]; intros m s Hm [Hl Hp]; cbn [ord_prog sorted_prog].
  - done.
  - done.
  - destruct (t_om_insert TO m s k v Hm) as (m' & -> & Hm'). cbn [rbind]. by apply IH.
  - destruct Hp as [Hd Hp]. destruct (sm_get kcmp k s) as [e|] eqn:Eg.
    + destruct (t_om_delete TO m s k e Hm Eg) as (m' & -> & Hm'). cbn [rbind]. by apply IH.
    + destruct Hd as [->|]; [|done]. rewrite (t_om_delete_empty TO m k Hm). cbn [rbind]. by apply IH.
  - destruct (t_om_iter TO m s Hm Hl) as (_ & _ & -> & _). by apply IH.
  - unfold om_is_empty. destruct (t_om_iter TO m s Hm Hl) as (_ & _ & -> & _). by apply IH.
  - destruct (t_om_iter TO m s Hm Hl) as (-> & _). cbn [rbind]. by apply IH.
  - destruct (t_om_iter TO m s Hm Hl) as (_ & -> & _). cbn [rbind]. by apply IH.
  - destruct Hp as [Hne Hp]. destruct s as [|a s]; [done|]. destruct (last (a :: s)) as [z|] eqn:Ez; [|by apply last_None in Ez].
    destruct (t_om_check TO m (a :: s) a z Hm eq_refl Ez) as [_ Hc]. rewrite (Hc Hl). cbn [rbind]. by apply IH.
  - destruct Hp as (H1 & H2 & Hp). pose proof Hm as (xs & T & _ & <- & Hi & _).
    destruct (ord_compare_ok _ xs k1 k2 T Hi H1 H2) as (q1 & q2 & -> & E2 & E3). cbn [rbind ropt]. rewrite E2. cbn [rbind ropt]. rewrite E3. cbn [rbind]. by apply IH.
Qed.
Theorem ord_prog_sorted p : ord_legal (2 * 6 ^ 9) p [] -> ord_prog p (om_new kcmp) = sorted_prog p [].
Proof. apply ord_prog_ok, new_map. Qed.
End ord.
