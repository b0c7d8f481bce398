(** Demo22.v — concrete programs for PropProg.v: every step depends on what was seen before. *)
From Verif Require Export UnitTests.

(** insert in the middle as often as the string is long, then cut out what follows the second letter *)
Fixpoint grow (n : nat) (k : rprog (list nat * nat)) : rprog (list nat * nat) :=
  match n with 0 => k | S n => RLen (fun l => RInsert (l / 2) [65 + l; 97] (grow n k)) end.
Definition rdemo : rprog (list nat * nat) :=
  RInsert 0 [49; 50; 51] (RLen (fun l => grow (2 * l) (RPrevLen 5 (fun i => RDelete i (i + 2) (RCheck (RIsEmpty (fun b =>
    if b then RFail else RToString (fun s => RDone (s, i))))))))).
Fixpoint str_smallb {A} (N : nat) (p : rprog A) (s : list nat) : bool :=
  (length s <=? N) &&
  match p with
  | RDone _ | RFail => true
  | RInsert i x k => (length s <? i) || str_smallb N k (take i s ++ x ++ drop i s)
  | RDelete st en k => str_smallb N k (take (Nat.min st en) s ++ drop en s)
  | RLen k => str_smallb N (k (length s)) s
  | RIsEmpty k => str_smallb N (k (bool_decide (s = []))) s
  | RToString k => str_smallb N (k s) s
  | RCheck k => str_smallb N k s
  | RPrevLen i k => str_smallb N (k i) s
  end.
Lemma str_smallb_ok {A} N M (p : rprog A) : N <= M -> forall s, str_smallb N p s = true -> str_small M p s.
Proof.
  intros HN. induction p as [a| |i x k IH|st en k IH|k IH|k IH|k IH|k IH|i k IH]; intros s H; cbn [str_smallb str_small] in *;
    apply andb_true_iff in H as [H1 H]; apply Nat.leb_le in H1; (split; [lia|]); try done; try by apply IH.
  intros Hi. apply IH. apply orb_true_iff in H as [H|H]; [|done]. apply Nat.ltb_lt in H. lia.
Qed.
Lemma small_57 n : n <= 25 -> n <= 5 ^ 7.
Proof. intros H. etrans; [exact H|]. apply (Nat.pow_le_mono_r 5 2 7); lia. Qed.
Lemma rdemo_ok : str_small (5 ^ 7) rdemo [] /\ str_prog rdemo [] = Ok ([49; 68; 70; 72; 74; 97; 97; 97; 97; 97; 97; 50; 51], 5) /\ rope_prog 3 rdemo (rope_new 3) = Ok ([49; 68; 70; 72; 74; 97; 97; 97; 97; 97; 97; 50; 51], 5).
Proof.
  split; [apply (str_smallb_ok 20); [apply small_57; lia|vm_compute; reflexivity]|]. split; vm_compute; reflexivity.
Qed.
(** delete the smallest and the largest key until three are left *)
Fixpoint trim (n : nat) (p : oprog nat bool (list nat * comparison)) : oprog nat bool (list nat * comparison) :=
  match n with
  | 0 => p
  | S n => OLen (fun l => if decide (l <= 3) then p else OIterKey (fun ks => match ks with k :: _ => ODelete k (fun o =>
      match o with Some _ => OIterKey (fun ks => match last ks with Some k => ODelete k (fun _ => trim n p) | None => OFail end) | None => OFail end) | [] => OFail end))
  end.
Fixpoint odemo_ins (ks : list nat) (p : oprog nat bool (list nat * comparison)) := match ks with [] => p | k :: ks => OInsert (k * 7 mod 31) (Nat.even k) (odemo_ins ks p) end.
Definition odemo : oprog nat bool (list nat * comparison) :=
  odemo_ins (seq 1 30) (OCheck (trim 30 (OCheck (OIter (fun es => match es with (k1, _) :: (k2, _) :: _ => OCompare k2 k1 (fun c => ODone (map fst es, c)) | _ => OFail end))))).
Section legalb.
Context {Value A : Type}.
Notation sget := (sm_get Nat.compare).
Definition isome {X} (o : option X) : bool := match o with Some _ => true | None => false end.
Fixpoint ord_legalb (N : nat) (p : oprog nat Value A) (s : list (nat * Value)) : bool :=
  (length s <? N) &&
  match p with
  | ODone _ | OFail => true
  | OInsert k v p => ord_legalb N p (sm_insert Nat.compare k v s)
  | ODelete k p => ((length s =? 0) || isome (sget k s)) && ord_legalb N (p (sget k s)) (sm_delete Nat.compare k s)
  | OLen p => ord_legalb N (p (length s)) s
  | OIsEmpty p => ord_legalb N (p (bool_decide (length s = 0))) s
  | OIter p => ord_legalb N (p s) s
  | OIterKey p => ord_legalb N (p (map fst s)) s
  | OCheck p => negb (length s =? 0) && ord_legalb N p s
  | OCompare k1 k2 p => isome (sget k1 s) && isome (sget k2 s) && ord_legalb N (p (Nat.compare k1 k2)) s
  end.
Lemma isome_ne {X} (o : option X) : isome o = true -> o <> None.
Proof. by destruct o. Qed.
Lemma ord_legalb_ok N M (p : oprog nat Value A) : N <= M -> forall s, ord_legalb N p s = true -> ord_legal (kcmp := Nat.compare) M p s.
Proof.
  intros HN. induction p as [a| |k v p IH|k p IH|p IH|p IH|p IH|p IH|p IH|k1 k2 p IH]; intros s H; cbn [ord_legalb ord_legal] in *;
    apply andb_true_iff in H as [H1 H]; apply Nat.ltb_lt in H1; (split; [lia|]); try done; try by apply IH.
  - apply andb_true_iff in H as [H2 H]. split; [|by apply IH]. apply orb_true_iff in H2 as [H2|H2]; [left|right; by apply isome_ne].
    apply Nat.eqb_eq in H2. by destruct s.
  - apply andb_true_iff in H as [H2 H]. split; [|by apply IH]. intros ->. done.
  - apply andb_true_iff in H as [H2 H]. apply andb_true_iff in H2 as [H2 H3]. split; [by apply isome_ne|]. split; [by apply isome_ne|by apply IH].
Qed.
End legalb.
Lemma small_69 n : n <= 72 -> n <= 2 * 6 ^ 9.
Proof. intros H. etrans; [exact H|]. change 72 with (2 * 6 ^ 2). apply Nat.mul_le_mono_l, Nat.pow_le_mono_r; lia. Qed.
Lemma odemo_ok : ord_legal (kcmp := Nat.compare) (2 * 6 ^ 9) odemo [] /\ sorted_prog (kcmp := Nat.compare) odemo [] = Ok ([15; 16], Gt) /\ ord_prog (kcmp := Nat.compare) odemo (om_new Nat.compare) = Ok ([15; 16], Gt).
Proof.
  split; [apply (ord_legalb_ok 40); [apply small_69; lia|vm_compute; reflexivity]|]. split; vm_compute; reflexivity.
Qed.
(** the hypotheses of the last unit tests *)
Lemma odata_ok : let data := [7; 3; 12; 1; 9; 4] in NoDup data /\ data <> [] /\ length data < 2 * 6 ^ 9 /\ StronglySorted lt [1; 3; 4; 7; 9; 12] /\ [1; 3; 4; 7; 9; 12] ≡ₚ data /\ 2 + 3 < length data.
Proof.
  cbv zeta. split; [by apply (bool_decide_unpack _); vm_compute|]. split; [done|]. split; [cbn [length]; pose proof (small_69 7 ltac:(lia)); lia|].
  split; [repeat constructor; lia|]. split; [by apply (bool_decide_unpack _); vm_compute|cbn; lia].
Qed.
