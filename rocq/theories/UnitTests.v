(** UnitTests.v — the unit tests shipped with rope.rs and ord.rs as programs (Prog.v).  Loop counts and random data are parameters.
    Each program returns [Ok tt] exactly when the test passes. *)
From Verif Require Export Prog.

(** ** rope.rs *)
Section ropetests.
Notation rp := (rprog unit).
(** assert_eq!(rope.len(), n), assert_eq!(&rope.to_string(), s) *)
Definition a_rlen (n : nat) (k : rp) : rp := RLen (fun m => if decide (m = n) then k else RFail).
Definition a_str (s : list nat) (k : rp) : rp := RToString (fun x => if decide (x = s) then k else RFail).
(** test_index — rope.rs:333-339 *)
Fixpoint ut_index_loop (n i : nat) (k : rp) : rp :=
  match n with 0 => k | S n => RPrevLen i (fun m => if decide (m = i) then ut_index_loop n (S i) k else RFail) end.
Definition ut_index (k : rp) : rp := RLen (fun n => ut_index_loop n 0 k).
(** test — rope.rs:351-365; "123" is 49 50 51, "x" is 120 *)
Definition ut_test : rp :=
  RInsert 0 [49; 50; 51] (a_rlen 3 (RInsert 1 [120] (ut_index (a_rlen 4 (RDelete 2 4 (a_str [49; 120]
    (RDelete 0 1 (a_str [120] (RLen (fun n => RDelete 0 n (a_str [] (a_rlen 0 (RDone tt))))))))))))).
(** test_delete_middle — rope.rs:368-373 *)
Definition ut_delete_middle : rp := RInsert 0 [49; 51; 53] (RDelete 1 2 (a_str [49; 53] (RDone tt))).
(** test_insert_repeatedly — rope.rs:376-384 *)
Definition ut_insert_repeatedly : rp :=
  RInsert 0 [49; 50; 51] (RInsert 1 [120] (RInsert 2 [121] (RInsert 3 [122] (ut_index (a_str [49; 120; 121; 122; 50; 51] (RDone tt)))))).
(** test_insert_many — rope.rs:409-418, with [n] rounds (there: 100) and the string [s] (there: "_12345678_" ten times) *)
Fixpoint ut_insert_many_loop (n i : nat) (s expected : list nat) : rp :=
  match n with
  | 0 => RDone tt
  | S n => let expected := take i expected ++ s ++ drop i expected in RInsert i s (a_str expected (ut_insert_many_loop n (S i) s expected))
  end.
Definition ut_insert_many (n : nat) (s : list nat) : rp := ut_insert_many_loop n 0 s [].
(** test_repeat_insert — rope.rs:421-427, with [n] rounds (there: 10000); "k" is 107 *)
Fixpoint ut_repeat_loop (n : nat) : rp := match n with 0 => RDone tt | S n => RLen (fun l => RInsert (l / 2) [107] (ut_repeat_loop n)) end.
Definition ut_repeat_insert (n : nat) : rp := RInsert 0 [49; 50; 51] (ut_repeat_loop n).
(** ben — rope.rs:2708-2742, for any actions (there: random ones) *)
Fixpoint ut_ben_loop (acts : list raction) (expected : list nat) : rp :=
  match acts with
  | [] => a_str expected (RDone tt)
  | FIns pos content :: acts => RLen (fun n =>
      let pos := pos mod (n + 1) in
      let x := dec content in
      let expected := take pos expected ++ x ++ drop pos expected in
      RInsert pos x (a_rlen (length expected) (ut_ben_loop acts expected)))
  | FDel pos len :: acts => RLen (fun n =>
      let pos := pos mod (n + 1) in
      let len := Nat.min (len mod 10) (n - pos) in
      let expected := take pos expected ++ drop (pos + len) expected in
      RDelete pos (pos + len) (a_rlen (length expected) (ut_ben_loop acts expected)))
  end.
Definition ut_ben (acts : list raction) : rp := ut_ben_loop acts [].

(** the program runs to its end on the string [s], which stays small *)
Definition RPass (p : rp) (s : list nat) : Prop := str_small (5 ^ 7) p s /\ str_prog p s = Ok tt.
Lemma pass_rope CAP p : 0 < CAP -> RPass p [] -> rope_prog CAP p (rope_new CAP) = Ok tt.
Proof. intros HC [Hs Hp]. by rewrite (rope_prog_string CAP HC p Hs). Qed.
Lemma p_done s : length s <= 5 ^ 7 -> RPass (RDone tt) s.
Proof. by repeat split. Qed.
Lemma p_len n k s : n = length s -> RPass k s -> RPass (a_rlen n k) s.
Proof. intros -> [Hs Hp]. split; cbn [a_rlen str_small str_prog]; rewrite decide_True by done; [|done]. split; [|done]. destruct k; by destruct Hs. Qed.
Lemma small_le {A} N (p : rprog A) s : str_small N p s -> length s <= N.
Proof. destruct p; by intros [? ?]. Qed.
Lemma p_rlen k s : RPass (k (length s)) s -> RPass (RLen k) s.
Proof. intros [Hs Hp]. split; [|done]. split; [by eapply small_le|done]. Qed.
Lemma p_str s k : utf8_ok s = true -> RPass k s -> RPass (a_str s k) s.
Proof.
  intros Hu [Hs Hp]. split; cbn [a_str str_small str_prog]; [split; [by eapply small_le|]|rewrite Hu]; by rewrite decide_True by done.
Qed.
Lemma p_ins i x k s : i <= length s -> length s <= 5 ^ 7 -> RPass k (take i s ++ x ++ drop i s) -> RPass (RInsert i x k) s.
Proof. intros Hi Hl [Hs Hp]. split; [by split|]. cbn [str_prog]. by rewrite decide_False by lia. Qed.
Lemma p_del st en k s : length s <= 5 ^ 7 -> RPass k (take (Nat.min st en) s ++ drop en s) -> RPass (RDelete st en k) s.
Proof. intros Hl [Hs Hp]. by split; [split|]. Qed.
Lemma p_index k s : RPass k s -> RPass (ut_index k) s.
Proof.
  intros Hk. apply p_rlen. cut (forall n i, n <= length s -> RPass (ut_index_loop n i k) s); [intros H; by apply H|].
  induction n as [|n IH]; intros i Hn; [done|]. cbn [ut_index_loop]. destruct (IH (S i)) as [Hs Hp]; [lia|]. split; cbn [str_small str_prog].
  - split; [destruct Hk as [Hk _]; by eapply small_le|]. by rewrite decide_True.
  - rewrite decide_False by (intros ->; cbn in Hn; lia). by rewrite decide_True.
Qed.
Ltac pass := repeat first [apply p_done|apply p_len; [reflexivity|]|apply p_str; [reflexivity|]|apply p_ins; [cbn; lia| |]|apply p_del; [|]|apply p_index|apply p_rlen];
  try (apply Nat.leb_le; vm_compute; reflexivity).
Theorem ut_small_pass CAP : 0 < CAP -> rope_prog CAP ut_test (rope_new CAP) = Ok tt /\ rope_prog CAP ut_delete_middle (rope_new CAP) = Ok tt /\
  rope_prog CAP ut_insert_repeatedly (rope_new CAP) = Ok tt.
Proof.
  intros HC. split; [|split]; apply pass_rope; try exact HC.
  - unfold ut_test. pass.
  - unfold ut_delete_middle. pass.
  - unfold ut_insert_repeatedly. pass.
Qed.
Lemma ascii_utf8 s : Forall (fun b => b < 128) s -> utf8_ok s = true.
Proof. induction 1 as [|b s Hb _ IH]; [done|]. cbn [utf8_ok]. by rewrite ltb_T by lia. Qed.
Lemma insert_many_loop_pass s : 0 < length s -> Forall (fun b => b < 128) s -> forall n i e, i <= length e -> Forall (fun b => b < 128) e ->
  length e + n * length s <= 5 ^ 7 -> RPass (ut_insert_many_loop n i s e) e.
Proof.
  intros H0 Hs. induction n as [|n IH]; intros i e Hi He Hl; [by apply p_done; lia|]. cbn [ut_insert_many_loop].
  assert (Forall (fun b => b < 128) (take i e ++ s ++ drop i e)) as He' by (rewrite !Forall_app; split_and!; [by apply Forall_take|done|by apply Forall_drop]).
  assert (length (take i e ++ s ++ drop i e) = length e + length s) as Hl' by (rewrite !app_length, take_length, drop_length; lia).
  apply p_ins; [done|lia|]. apply p_str; [by apply ascii_utf8|]. apply IH; [rewrite Hl'; lia|done|]. rewrite Hl'. lia.
Qed.
Theorem ut_insert_many_pass CAP n s : 0 < CAP -> 0 < length s -> Forall (fun b => b < 128) s -> n * length s <= 5 ^ 7 ->
  rope_prog CAP (ut_insert_many n s) (rope_new CAP) = Ok tt.
Proof. intros HC H0 Hs Hl. apply pass_rope; [done|]. by apply insert_many_loop_pass; [..|cbn [length]; lia]. Qed.
Lemma repeat_loop_pass n : forall s, length s + n <= 5 ^ 7 -> RPass (ut_repeat_loop n) s.
Proof.
  induction n as [|n IH]; intros s Hl; [by apply p_done; lia|]. cbn [ut_repeat_loop]. apply p_rlen.
  pose proof (Nat.div_le_upper_bound (length s) 2 (length s) ltac:(lia) ltac:(lia)) as Hd.
  apply p_ins; [done|lia|]. apply IH. rewrite !app_length, take_length, drop_length. cbn [length]. lia.
Qed.
Theorem ut_repeat_insert_pass CAP n : 0 < CAP -> 3 + n <= 5 ^ 7 -> rope_prog CAP (ut_repeat_insert n) (rope_new CAP) = Ok tt.
Proof. intros HC Hl. apply pass_rope; [done|]. apply p_ins; [done|cbn [length]; lia|]. apply repeat_loop_pass. cbn [take drop app length]. lia. Qed.
Lemma ben_loop_pass acts : Forall byte_ract acts -> forall s, Forall (fun b => 48 <= b < 58) s -> length s + 3 * length acts <= 5 ^ 7 -> RPass (ut_ben_loop acts s) s.
Proof.
  induction 1 as [|a acts Ha _ IH]; intros s Hd Hl; cbn [length] in Hl.
  { apply p_str; [apply ascii_utf8; eapply Forall_impl; [exact Hd|cbn; lia]|]. apply p_done. lia. }
  pose proof (Nat.mod_upper_bound) as Hm. destruct a as [pos c|pos len]; cbn [ut_ben_loop]; apply p_rlen; cbv zeta.
  - pose proof (Nat.mod_upper_bound pos (length s + 1) ltac:(lia)) as Hp. set (p := pos mod (length s + 1)) in *. pose proof (dec_len 1 (le_n 1) c) as Hc.
    assert (length (take p s ++ dec c ++ drop p s) = length s + length (dec c)) as Hl' by (rewrite !app_length, take_length, drop_length; lia).
    apply p_ins; [lia|lia|]. apply p_len; [done|]. apply IH; [|rewrite Hl'; lia].
    rewrite !Forall_app. split_and!; [by apply Forall_take|by apply (dec_digits 1 (le_n 1))|by apply Forall_drop].
  - pose proof (Nat.mod_upper_bound pos (length s + 1) ltac:(lia)) as Hp. set (p := pos mod (length s + 1)) in *. set (n := Nat.min (len mod 10) (length s - p)).
    apply p_del; [lia|]. rewrite Nat.min_l by lia. apply p_len; [done|]. apply IH.
    + rewrite Forall_app. split; [by apply Forall_take|by apply Forall_drop].
    + rewrite app_length, take_length, drop_length. lia.
Qed.
Theorem ut_ben_pass CAP acts : 0 < CAP -> Forall byte_ract acts -> 3 * length acts <= 5 ^ 7 -> rope_prog CAP (ut_ben acts) (rope_new CAP) = Ok tt.
Proof. intros HC Ha Hl. apply pass_rope; [done|]. by apply ben_loop_pass; [..|cbn [length]; lia]. Qed.
End ropetests.

(** ** ord.rs, keys [nat] *)
Section ordtests.
Context {Value : Type}.
Notation op := (oprog nat Value unit).
Notation ins := (sm_insert Nat.compare). Notation del := (sm_delete Nat.compare). Notation get := (sm_get Nat.compare).
(** for value in data {tree.insert(value, v)} *)
Fixpoint o_ins_all (data : list nat) (v : Value) (p : op) : op := match data with [] => p | k :: data => OInsert k v (o_ins_all data v p) end.
(** for value in data {tree.delete(&value)}: what delete returns is ignored *)
Fixpoint o_del_all (data : list nat) (p : op) : op := match data with [] => p | k :: data => ODelete k (fun _ => o_del_all data p) end.
(** test — ord.rs:317-328; [sorted] is what data.sort_unstable() leaves behind *)
Definition ut_ord (data sorted : list nat) (v : Value) : op :=
  o_ins_all data v (OIterKey (fun l => if decide (l = sorted) then OCheck (ODone tt) else OFail)).
(** test_delete — ord.rs:330-336 *)
Definition ut_ord_delete (v : Value) : op := OInsert 12 v (ODelete 12 (fun _ => OLen (fun n => if decide (n = 0) then ODone tt else OFail))).
(** test_compare_pos — ord.rs:338-363, with [n] keys (there: 100) *)
Definition a_cmp (i j : nat) (c : comparison) (p : op) : op := OCompare i j (fun c' => if decide (c' = c) then p else OFail).
Fixpoint o_cmp_js (js : list nat) (i : nat) (p : op) : op := match js with [] => p | j :: js => a_cmp i j Lt (a_cmp j i Gt (o_cmp_js js i p)) end.
Fixpoint o_cmp_is (n : nat) (is : list nat) (p : op) : op :=
  match is with [] => p | i :: is => a_cmp i i Eq (o_cmp_js (seq (S i) (n - S i)) i (o_cmp_is n is p)) end.
Definition ut_compare (n : nat) (v : Value) : op := o_ins_all (seq 0 n) v (o_cmp_is n (seq 0 (n - 1)) (ODone tt)).
(** move_event_test::test — ord.rs:365-388: the first [a] keys are deleted, then the next [b], then the rest from the back *)
Definition ut_move (data : list nat) (a b : nat) (v : Value) : op :=
  o_ins_all data v (o_del_all (take a data) (o_del_all (take b (drop a data)) (OCheck (o_del_all (rev (drop b (drop a data))) (ODone tt))))).

(** the program runs to its end on the sorted list [s] *)
Definition OPass (p : op) (s : list (nat * Value)) : Prop := ord_legal (kcmp := Nat.compare) (2 * 6 ^ 9) p s /\ sorted_prog (kcmp := Nat.compare) p s = Ok tt.
Lemma opass p : OPass p [] -> ord_prog (kcmp := Nat.compare) p (om_new Nat.compare) = Ok tt.
Proof. intros [Hs Hp]. by rewrite (ord_prog_sorted nat_TO p Hs). Qed.
(** [s] holds exactly the keys [K], in order *)
Definition Keys (s : list (nat * Value)) (K : list nat) : Prop := Incr (kcmp := Nat.compare) s /\ map fst s ≡ₚ K.
Lemma keys_len s K : Keys s K -> length s = length K.
Proof. intros [_ H]. apply Permutation_length in H. by rewrite map_length in H. Qed.
Lemma keys_perm s K K' : K ≡ₚ K' -> Keys s K -> Keys s K'.
Proof. intros HK [H1 H2]. split; [done|]. by rewrite H2. Qed.
Lemma keys_get s K k : Keys s K -> k ∈ K -> get k s <> None.
Proof.
  intros [_ HP] Hk. rewrite <-HP in Hk. clear HP K. induction s as [|[k' v'] s IH]; [by apply elem_of_nil in Hk|]. cbn.
  destruct (Nat.compare_spec k k'); [done|..]; cbn in Hk; apply elem_of_cons in Hk as [?|Hk]; try lia; by apply IH.
Qed.
Lemma keys_ins s K k v : Keys s K -> k ∉ K -> Keys (ins k v s) (k :: K).
Proof.
  intros [Hi HP] Hk. split; [by apply (sm_insert_incr nat_TO)|]. rewrite <-HP in Hk |- *. clear HP Hi K.
  induction s as [|[k' v'] s IH]; [done|]. cbn in *. apply not_elem_of_cons in Hk as [Hne Hk].
  destruct (Nat.compare_spec k k'); [done|done|]. cbn. rewrite (IH Hk). apply perm_swap.
Qed.
Lemma del_incr k (s : list (nat * Value)) : Incr (kcmp := Nat.compare) s -> Incr (kcmp := Nat.compare) (del k s).
Proof.
  intros H. assert (forall (P : nat * Value -> Prop) (s : list (nat * Value)), Forall P s -> Forall P (del k s)) as HF.
  { intros P s0. induction 1 as [|[k1 v1] s1 Hp Hf IH]; [constructor|]. cbn. destruct (k ?= k1); [exact Hf|constructor; assumption|constructor; assumption]. }
  induction H as [|[k' v'] s H IH F]; [constructor|]. cbn. destruct (k ?= k'); [done|..]; (constructor; [done|by apply HF]).
Qed.
Lemma keys_del s K k : Keys s (k :: K) -> Keys (del k s) K.
Proof.
  intros [Hi HP]. split; [by apply del_incr|]. apply (Permutation_cons_inv (a := k)). rewrite <-HP.
  assert (k ∈ map fst s) as Hk by (rewrite HP; left). clear HP Hi K.
  induction s as [|[k' v'] s IH]; [by apply elem_of_nil in Hk|]. cbn in *. destruct (Nat.compare_spec k k') as [->|Hl|Hl]; [done|..]; cbn;
    (apply elem_of_cons in Hk as [?|Hk]; [lia|]); rewrite perm_swap; by rewrite (IH Hk).
Qed.
Lemma keys_new : Keys [] [].
Proof. split; [constructor|done]. Qed.
(** two strictly increasing lists with the same members are equal *)
Lemma sorted_unique (l1 : list nat) : StronglySorted lt l1 -> forall l2, StronglySorted lt l2 -> l1 ≡ₚ l2 -> l1 = l2.
Proof.
  induction 1 as [|a l1 H1 IH F1]; intros l2 H2 HP; [by apply Permutation_nil in HP|].
  destruct H2 as [|b l2 H2 F2]; [by apply Permutation_sym, Permutation_nil in HP|].
  assert (a = b) as ->.
  { rewrite Forall_forall in F1, F2. assert (a ∈ b :: l2) as Ha by (rewrite <-HP; left). assert (b ∈ a :: l1) as Hb by (rewrite HP; left).
    apply elem_of_cons in Ha as [?|Ha]; [done|]. apply elem_of_cons in Hb as [?|Hb]; [done|]. apply F2 in Ha. apply F1 in Hb. lia. }
  f_equal. apply IH; [done|]. by eapply Permutation_cons_inv.
Qed.
Lemma keys_sorted s K : Keys s K -> forall srt, StronglySorted lt srt -> srt ≡ₚ K -> map fst s = srt.
Proof.
  intros [Hi HP] srt Hs HP'. apply sorted_unique; [|done|by rewrite HP, HP'].
  clear HP HP'. induction Hi as [|a s Hi IH F]; cbn; constructor; [done|]. apply Forall_map. eapply Forall_impl; [exact F|].
  intros x Hx. cbn. by apply Nat.compare_lt_iff.
Qed.
Lemma o_ins_pass data v p : forall s K, Keys s K -> NoDup (data ++ K) -> length K + length data < 2 * 6 ^ 9 ->
  (forall s', Keys s' (data ++ K) -> OPass p s') -> OPass (o_ins_all data v p) s.
Proof.
  induction data as [|k data IH]; intros s K HK HN Hl Hp; cbn [o_ins_all]; [by apply Hp|].
  cbn [app] in HN. apply NoDup_cons in HN as [Hk HN]. cbn [length] in Hl. assert (k ∉ K) as HkK by (intros ?; apply Hk, elem_of_app; by right).
  destruct (IH (ins k v s) (k :: K)) as [H1 H2].
  - by apply keys_ins.
  - rewrite <-Permutation_middle. by constructor.
  - cbn [length]. lia.
  - intros s' Hs'. apply Hp. eapply keys_perm; [|exact Hs']. by rewrite <-Permutation_middle.
  - split; [|exact H2]. split; [|exact H1]. rewrite (keys_len s K HK). lia.
Qed.
Lemma o_del_pass data p : forall s K, Keys s (data ++ K) -> length K + length data < 2 * 6 ^ 9 ->
  (forall s', Keys s' K -> OPass p s') -> OPass (o_del_all data p) s.
Proof.
  induction data as [|k data IH]; intros s K HK Hl Hp; cbn [o_del_all]; [by apply Hp|]. cbn [length app] in *.
  destruct (IH (del k s) K) as [H1 H2]; [by apply keys_del|lia|done|]. split; [|exact H2].
  split; [rewrite (keys_len s _ HK); cbn [length]; rewrite app_length; lia|]. split; [|exact H1]. right. eapply keys_get; [exact HK|left].
Qed.
Lemma o_done_pass s : length s < 2 * 6 ^ 9 -> OPass (ODone tt) s.
Proof. by repeat split. Qed.
Lemma o_check_pass p s : s <> [] -> OPass p s -> OPass (OCheck p) s.
Proof. intros Hs [H1 H2]. split; [|exact H2]. split; [|split; [done|exact H1]]. by destruct p, H1. Qed.
Theorem ut_ord_pass data sorted v : NoDup data -> data <> [] -> length data < 2 * 6 ^ 9 -> StronglySorted lt sorted -> sorted ≡ₚ data ->
  ord_prog (ut_ord data sorted v) (om_new Nat.compare) = Ok tt.
Proof.
  intros HN Hne Hl Hs HP. apply opass. eapply o_ins_pass; [apply keys_new|by rewrite app_nil_r|cbn [length]; lia|].
  rewrite app_nil_r. intros s HK. pose proof (keys_sorted s data HK sorted Hs HP) as E. pose proof (keys_len s data HK) as El.
  assert (OPass (OCheck (ODone tt)) s) as [H1 H2] by (apply o_check_pass; [intros ->; by destruct data|apply o_done_pass; lia]).
  split; cbn [ord_legal sorted_prog]; (rewrite decide_True by exact E); [|exact H2]. split; [lia|exact H1].
Qed.
Theorem ut_ord_delete_pass v : ord_prog (ut_ord_delete v) (om_new Nat.compare) = Ok tt.
Proof.
  apply opass. split; cbn [ut_ord_delete ord_legal sorted_prog sm_insert sm_get sm_delete Nat.compare length]; [|done].
  assert (1 < 2 * 6 ^ 9) by (apply Nat.ltb_lt; vm_compute; reflexivity).
  split; [lia|]. split; [lia|]. split; [by right|]. split; [lia|]. rewrite decide_True by done. cbn [ord_legal length]. split; [lia|done].
Qed.
Lemma a_cmp_pass s K i j c p : Keys s K -> i ∈ K -> j ∈ K -> (i ?= j) = c -> OPass p s -> OPass (a_cmp i j c p) s.
Proof.
  intros HK Hi Hj Hc [H1 H2]. split; cbn [a_cmp ord_legal sorted_prog]; (rewrite decide_True by exact Hc); [|exact H2].
  split; [by destruct p, H1|]. split; [by eapply keys_get|]. split; [by eapply keys_get|exact H1].
Qed.
Theorem ut_compare_pass n v : n < 2 * 6 ^ 9 -> ord_prog (ut_compare n v) (om_new Nat.compare) = Ok tt.
Proof.
  intros Hl. apply opass. eapply o_ins_pass; [apply keys_new|rewrite app_nil_r; apply NoDup_seq|rewrite seq_length; cbn [length]; lia|].
  rewrite app_nil_r. intros s HK. pose proof (keys_len s _ HK) as El. rewrite seq_length in El.
  assert (forall is, (forall i, i ∈ is -> i < n) -> OPass (o_cmp_is n is (ODone tt)) s) as H; [|apply H; intros i Hi; apply elem_of_seq in Hi; lia].
  induction is as [|i is IH]; intros His; cbn [o_cmp_is]; [apply o_done_pass; lia|].
  assert (i < n) as Hi by (apply His; left).
  apply (a_cmp_pass s _ i i Eq _ HK); [apply elem_of_seq; lia..|apply Nat.compare_refl|].
  assert (forall js, (forall j, j ∈ js -> i < j < n) -> OPass (o_cmp_js js i (o_cmp_is n is (ODone tt))) s) as H; [|apply H; intros j Hj; apply elem_of_seq in Hj; lia].
  induction js as [|j js IHj]; intros Hjs; cbn [o_cmp_js]; [apply IH; intros ? ?; apply His; by right|].
  assert (i < j < n) as Hj by (apply Hjs; left).
  apply (a_cmp_pass s _ i j Lt _ HK); [apply elem_of_seq; lia..|apply Nat.compare_lt_iff; lia|].
  apply (a_cmp_pass s _ j i Gt _ HK); [apply elem_of_seq; lia..|apply Nat.compare_gt_iff; lia|].
  apply IHj. intros ? ?. apply Hjs. by right.
Qed.
Theorem ut_move_pass data a b v : NoDup data -> a + b < length data < 2 * 6 ^ 9 -> ord_prog (ut_move data a b v) (om_new Nat.compare) = Ok tt.
Proof.
  intros HN Hl. apply opass. eapply o_ins_pass; [apply keys_new|by rewrite app_nil_r|cbn [length]; lia|]. rewrite app_nil_r. intros s HK.
  apply (o_del_pass _ _ s (drop a data)); [by rewrite take_drop|rewrite drop_length, take_length; lia|]. clear s HK. intros s HK.
  apply (o_del_pass _ _ s (drop b (drop a data))); [by rewrite take_drop|rewrite take_length, !drop_length; lia|]. clear s HK. intros s HK.
  pose proof (keys_len s _ HK) as El. rewrite !drop_length in El.
  apply o_check_pass; [intros ->; cbn in El; lia|]. apply (o_del_pass _ _ s []).
  - eapply keys_perm; [|exact HK]. rewrite app_nil_r. apply Permutation_rev.
  - rewrite rev_length, !drop_length. cbn [length]. lia.
  - clear s HK El. intros s HK. apply o_done_pass. rewrite (keys_len s _ HK). cbn [length]. lia.
Qed.
End ordtests.
