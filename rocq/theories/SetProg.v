(** SetProg.v — programs that use an OrdTreeSet. *)
From Verif Require Export Prog.

Inductive sprog (Key A : Type) : Type :=
| SDone (a : A)
| SFail                                                    (* a failing assertion of the program itself *)
| SInsert (k : Key) (p : sprog Key A)
| SDelete (k : Key) (p : bool -> sprog Key A)
| SIter (p : list Key -> sprog Key A)
| SLen (p : nat -> sprog Key A)
| SIsEmpty (p : bool -> sprog Key A)
| SCheck (p : sprog Key A).
Arguments SDone {Key A}. Arguments SFail {Key A}. Arguments SInsert {Key A}. Arguments SDelete {Key A}. Arguments SIter {Key A}. Arguments SLen {Key A}. Arguments SIsEmpty {Key A}. Arguments SCheck {Key A}.

(** sorted lists of keys *)
Section keys.
Context {Key : Type} (kcmp : Key -> Key -> comparison).
Fixpoint ks_insert (k : Key) (l : list Key) : list Key :=
  match l with [] => [k] | x :: l' => match kcmp k x with Lt => k :: l | Eq => l | Gt => x :: ks_insert k l' end end.
Fixpoint ks_mem (k : Key) (l : list Key) : bool :=
  match l with [] => false | x :: l' => match kcmp k x with Eq => true | _ => ks_mem k l' end end.
Fixpoint ks_delete (k : Key) (l : list Key) : list Key :=
  match l with [] => [] | x :: l' => match kcmp k x with Eq => l' | _ => x :: ks_delete k l' end end.
End keys.

Section set.
Context {Key : Type} {kcmp : Key -> Key -> comparison} (TO : TOrd kcmp) {A : Type}.
(** ord.rs:115-148 *)
Fixpoint set_prog (p : sprog Key A) (s : omap_t Key unit kcmp) : res A :=
  match p with
  | SDone a => Ok a
  | SFail => Panic
  | SInsert k p => let? s := os_insert kcmp s k in set_prog p s
  | SDelete k p => let? (b, s) := os_delete kcmp s k in set_prog (p b) s
  | SIter p => let? l := os_iter kcmp s in set_prog (p l) s
  | SLen p => set_prog (p (om_len kcmp s)) s
  | SIsEmpty p => set_prog (p (om_is_empty kcmp s)) s
  | SCheck p => let? _ := check (om_tree kcmp s) in set_prog p s
  end.
(** the same program on a sorted list of keys *)
Fixpoint keys_prog (p : sprog Key A) (l : list Key) : res A :=
  match p with
  | SDone a => Ok a
  | SFail => Panic
  | SInsert k p => keys_prog p (ks_insert kcmp k l)
  | SDelete k p => keys_prog (p (ks_mem kcmp k l)) (ks_delete kcmp k l)
  | SIter p => keys_prog (p l) l
  | SLen p => keys_prog (p (length l)) l
  | SIsEmpty p => keys_prog (p (bool_decide (length l = 0))) l
  | SCheck p => keys_prog p l
  end.
(** as for maps: no deletion of an absent key from a non-empty set, no self-check of an empty set, fewer than [N] keys *)
Fixpoint keys_legal (N : nat) (p : sprog Key A) (l : list Key) : Prop :=
  length l < N /\
  match p with
  | SDone _ | SFail => True
  | SInsert k p => keys_legal N p (ks_insert kcmp k l)
  | SDelete k p => (l = [] \/ ks_mem kcmp k l = true) /\ keys_legal N (p (ks_mem kcmp k l)) (ks_delete kcmp k l)
  | SIter p => keys_legal N (p l) l
  | SLen p => keys_legal N (p (length l)) l
  | SIsEmpty p => keys_legal N (p (bool_decide (length l = 0))) l
  | SCheck p => l <> [] /\ keys_legal N p l
  end.

Lemma keys_insert (k : Key) (s : list (Key * unit)) : map fst (sm_insert kcmp k tt s) = ks_insert kcmp k (map fst s).
Proof using. induction s as [|[x []] s IH]; [done|]. cbn [map fst sm_insert ks_insert]. destruct (kcmp k x); cbn [map fst]; by rewrite ?IH. Qed.
Lemma keys_delete (k : Key) (s : list (Key * unit)) : map fst (sm_delete kcmp k s) = ks_delete kcmp k (map fst s).
Proof using. induction s as [|[x []] s IH]; [done|]. cbn [map fst sm_delete ks_delete]. destruct (kcmp k x); cbn [map fst]; by rewrite ?IH. Qed.
Lemma keys_mem (k : Key) (s : list (Key * unit)) : ks_mem kcmp k (map fst s) = match sm_get kcmp k s with Some _ => true | None => false end.
Proof using. induction s as [|[x []] s IH]; [done|]. cbn [map fst sm_get ks_mem]. by destruct (kcmp k x). Qed.
Theorem set_prog_ok p : forall m s, MapOf TO m s -> keys_legal (2 * 6 ^ 9) p (map fst s) -> set_prog p m = keys_prog p (map fst s).
Proof.
  induction p as [a| |k p IH|k p IH|p IH|p IH|p IH|p IH]; intros m s Hm [Hl Hp]; cbn [set_prog keys_prog]; rewrite ?map_length in *.
  - done.
  - done.
  - unfold os_insert. destruct (t_om_insert TO m s k tt Hm) as (m' & -> & Hm'). cbn [rbind]. rewrite <-keys_insert in *. by apply IH.
  - destruct Hp as [Hd Hp]. unfold os_delete. rewrite keys_mem in *. rewrite <-keys_delete in *. destruct (sm_get kcmp k s) as [e|] eqn:Eg.
    + destruct (t_om_delete TO m s k e Hm Eg) as (m' & -> & Hm'). cbn [rbind]. by apply IH.
    + destruct Hd as [Hd|]; [|done]. destruct s; [|done]. rewrite (t_om_delete_empty TO m k Hm). cbn [rbind]. by apply (IH false m []).
  - unfold os_iter. destruct (t_om_iter TO m s Hm Hl) as (_ & -> & _). cbn [rbind]. by apply IH.
  - destruct (t_om_iter TO m s Hm Hl) as (_ & _ & -> & _). by apply IH.
  - unfold om_is_empty. destruct (t_om_iter TO m s Hm Hl) as (_ & _ & -> & _). by apply IH.
  - destruct Hp as [Hne Hp]. destruct s as [|a s]; [done|]. destruct (last (a :: s)) as [z|] eqn:Ez; [|by apply last_None in Ez].
    destruct (t_om_check TO m (a :: s) a z Hm eq_refl Ez) as [_ Hc]. rewrite (Hc Hl). cbn [rbind]. by apply IH.
Qed.
Theorem set_prog_keys p : keys_legal (2 * 6 ^ 9) p [] -> set_prog p (os_new kcmp) = keys_prog p [].
Proof using TO. intros H. apply (set_prog_ok p (om_new kcmp) [] (new_map TO) H). Qed.
End set.

(** bench_ord.rs:12-22: inserting any keys; then the iterator lists them without repetition, in order *)
Section bench.
Context {Key : Type} {kcmp : Key -> Key -> comparison} (TO : TOrd kcmp).
Fixpoint bench_ord (ks : list Key) (p : sprog Key (list Key)) : sprog Key (list Key) := match ks with [] => p | k :: ks => SInsert k (bench_ord ks p) end.
Lemma bench_legal ks N p : forall l, length l + length ks < N -> (forall l', length l' < N -> keys_legal (kcmp := kcmp) N p l') ->
  keys_legal (kcmp := kcmp) N (bench_ord ks p) l.
Proof.
  induction ks as [|k ks IH]; intros l Hl Hp; cbn [bench_ord length] in *; [apply Hp; lia|]. split; [lia|]. apply IH; [|done].
  assert (length (ks_insert kcmp k l) <= S (length l)); [|lia]. clear. induction l as [|x l IH]; [done|]. cbn. destruct (kcmp k x); cbn; lia.
Qed.
Lemma bench_keys ks p : forall l, keys_prog (kcmp := kcmp) (bench_ord ks p) l = keys_prog (kcmp := kcmp) p (fold_left (fun l k => ks_insert kcmp k l) ks l).
Proof. induction ks as [|k ks IH]; intros l; [done|]. apply IH. Qed.
Theorem bench_ord_ok ks : length ks < 2 * 6 ^ 9 ->
  set_prog (bench_ord ks (SIter SDone)) (os_new kcmp) = Ok (fold_left (fun l k => ks_insert kcmp k l) ks []).
Proof using TO.
  intros Hl. rewrite (set_prog_keys TO); [by rewrite bench_keys|]. apply bench_legal; [done|]. intros l' Hl'. by split.
Qed.
(** what sorted lists of keys mean: they stay sorted, and hold a key iff it was inserted and not deleted since *)
Notation KSorted := (StronglySorted (fun a b : Key => kcmp a b = Lt)).
Lemma ks_in k l : ks_mem kcmp k l = true <-> exists x, x ∈ l /\ kcmp k x = Eq.
Proof.
  induction l as [|x l IH]; cbn [ks_mem]. { split; [done|]. intros (x & Hx & _). by apply elem_of_nil in Hx. }
  destruct (kcmp k x) eqn:E; [split; [|done]; intros _; exists x; split; [left|done]| |].
  all: rewrite IH; split; [intros (y & Hy & Ey); exists y; split; [by right|done]|].
  all: intros (y & [->|Hy]%elem_of_cons & Ey); [congruence|by exists y].
Qed.
Lemma ks_insert_elem k l x : x ∈ ks_insert kcmp k l -> x = k \/ x ∈ l.
Proof.
  induction l as [|y l IH]; cbn [ks_insert]; [rewrite elem_of_list_singleton; by left|]. destruct (kcmp k y).
  - by right.
  - intros [->|Hx]%elem_of_cons; [by left|by right].
  - intros [->|Hx]%elem_of_cons; [right; left|]. destruct (IH Hx) as [->|H]; [by left|right; by right].
Qed.
Theorem ks_insert_ok k l : KSorted l -> KSorted (ks_insert kcmp k l) /\
  forall j, ks_mem kcmp j (ks_insert kcmp k l) = (match kcmp j k with Eq => true | _ => false end || ks_mem kcmp j l)%bool.
Proof using TO.
  induction 1 as [|x l Hs IH Hf]; cbn [ks_insert].
  { split; [by repeat constructor|]. intros j. cbn. by destruct (kcmp j k). }
  destruct IH as [IH1 IH2]. destruct (kcmp k x) eqn:E.
  - split; [by constructor|]. intros j. cbn [ks_mem]. destruct (kcmp j k) eqn:Ej; cbn [orb]; [|done..].
    destruct (kcmp j x) eqn:Ex; [done| |]; exfalso.
    + pose proof (to_le_lt TO k j x) as H. rewrite H in E; [done| |done]. apply (to_eq TO) in Ej. by rewrite Ej.
    + apply (to_gt TO) in Ex. pose proof (to_lt_le TO x j k Ex) as H. apply (to_eq TO) in E. rewrite H in E; [done|by rewrite Ej].
  - split; [|intros j; cbn [ks_mem]; by destruct (kcmp j k)]. constructor; [by constructor|]. constructor; [done|]. eapply Forall_impl; [exact Hf|]. intros y Hy. cbn in Hy.
    apply (to_lt_le TO k x y); [done|by rewrite Hy].
  - split.
    + constructor; [done|]. apply Forall_forall. intros y [->|Hy]%ks_insert_elem; [by apply (to_gt TO)|]. by eapply Forall_forall in Hf.
    + intros j. cbn [ks_mem]. rewrite IH2. destruct (kcmp j x), (kcmp j k); done.
Qed.
Theorem ks_delete_ok k l : KSorted l -> KSorted (ks_delete kcmp k l) /\
  forall j, ks_mem kcmp j (ks_delete kcmp k l) = (negb (match kcmp j k with Eq => true | _ => false end) && ks_mem kcmp j l)%bool.
Proof using TO.
  assert (forall j k x, kcmp j k = Eq -> kcmp j x = kcmp k x) as HE.
  { intros j k0 x Ej. destruct (kcmp k0 x) eqn:E.
    - destruct (kcmp j x) eqn:Ex; [done| |]; exfalso.
      + rewrite (to_le_lt TO k0 j x) in E; [done| |done]. apply (to_eq TO) in Ej. by rewrite Ej.
      + apply (to_gt TO) in Ex. apply (to_eq TO) in E. rewrite (to_lt_le TO x j k0 Ex) in E; [done|by rewrite Ej].
    - apply (to_le_lt TO j k0 x); [by rewrite Ej|done].
    - apply (to_gt TO). apply (to_gt TO) in E. apply (to_lt_le TO x k0 j E). apply (to_eq TO) in Ej. by rewrite Ej. }
  induction 1 as [|x l Hs IH Hf]; cbn [ks_delete].
  { split; [constructor|]. intros j. by rewrite andb_false_r. }
  destruct IH as [IH1 IH2]. destruct (kcmp k x) eqn:E.
  - split; [done|]. intros j. cbn [ks_mem]. assert (kcmp j k = kcmp j x) as ->.
    { rewrite (to_flip _ TO k j), (to_flip _ TO x j). f_equal. by apply HE. }
    destruct (kcmp j x) eqn:Ex; cbn [negb andb]; [|done..]. destruct (ks_mem kcmp j l) eqn:Em; [|done]. exfalso.
    apply ks_in in Em as (y & Hy & Ey). eapply Forall_forall in Hf; [|exact Hy]. cbn in Hf.
    rewrite <-(HE j x y Ex) in Hf. congruence.
  - split; [constructor; [done|]|].
    + apply Forall_forall. intros y Hy. apply (proj1 (Forall_forall _ _) Hf y). revert Hy. clear. induction l as [|z l IH]; [done|]. cbn [ks_delete].
      destruct (kcmp k z); [by right|..]; (intros [->|Hy]%elem_of_cons; [left|right; by apply IH]).
    + intros j. cbn [ks_mem]. rewrite IH2. destruct (kcmp j x) eqn:Ex; [|done..]. destruct (kcmp j k) eqn:Ej; [|done..]. exfalso.
      rewrite (HE j k x Ej) in Ex. congruence.
  - split; [constructor; [done|]|].
    + apply Forall_forall. intros y Hy. apply (proj1 (Forall_forall _ _) Hf y). revert Hy. clear. induction l as [|z l IH]; [done|]. cbn [ks_delete].
      destruct (kcmp k z); [by right|..]; (intros [->|Hy]%elem_of_cons; [left|right; by apply IH]).
    + intros j. cbn [ks_mem]. rewrite IH2. destruct (kcmp j x) eqn:Ex; [|done..]. destruct (kcmp j k) eqn:Ej; [|done..]. exfalso.
      rewrite (HE j k x Ej) in Ex. congruence.
Qed.
End bench.
