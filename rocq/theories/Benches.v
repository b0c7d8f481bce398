(** Benches.v — the shipped benchmarks and the example of the rope as programs (Prog.v). *)
From Verif Require Export UnitTests.

(** the body of the editing-trace benchmark — benches/bench_rope.rs:98-105, examples/rope.rs:93-100; an action is (pos, del, ins),
    automerge.rs:7-12, and [ins] the bytes of its string.  [k]: what is done with the rope afterwards *)
Fixpoint bn_trace {A} (acts : list (nat * nat * list nat)) (k : rprog A) : rprog A :=
  match acts with
  | [] => k
  | (pos, del, x) :: acts =>
      let rest := if decide (x = []) then bn_trace acts k else RInsert pos x (bn_trace acts k) in
      if decide (0 < del) then RDelete pos (pos + del) rest else rest
  end.
(** random insertions and deletions — benches/bench_rope.rs:31-44, examples/rope.rs:70-84 *)
Fixpoint bn_random {A} (acts : list raction) (k : rprog A) : rprog A :=
  match acts with
  | [] => k
  | FIns pos content :: acts => RLen (fun n => RInsert (pos mod (n + 1)) (dec content) (bn_random acts k))
  | FDel pos len :: acts => RLen (fun n => let pos := pos mod (n + 1) in RLen (fun n => RDelete pos (pos + Nat.min (len mod 10) (n - pos)) (bn_random acts k)))
  end.

(** what a trace means: replace [del] bytes at [pos] by [x] *)
Definition splice (s : list nat) (a : nat * nat * list nat) : list nat :=
  let '(pos, del, x) := a in take pos s ++ x ++ drop (pos + del) s.
(** every action lies within the text it is applied to *)
Fixpoint trace_ok (acts : list (nat * nat * list nat)) (s : list nat) : Prop :=
  match acts with [] => True | a :: acts => fst (fst a) + snd (fst a) <= length s /\ trace_ok acts (splice s a) end.
Fixpoint trace_small (N : nat) (acts : list (nat * nat * list nat)) (s : list nat) : Prop :=
  length s <= N /\ match acts with [] => True | a :: acts => trace_small N acts (splice s a) end.
(** a random action on a string *)
Definition ract (s : list nat) (a : raction) : list nat :=
  match a with
  | FIns pos c => let i := pos mod (length s + 1) in take i s ++ dec c ++ drop i s
  | FDel pos len => let i := pos mod (length s + 1) in take i s ++ drop (i + len mod 10) s
  end.

Lemma trace_small_le N acts s : trace_small N acts s -> length s <= N.
Proof. by destruct acts; intros []. Qed.
Lemma bn_trace_str {A} (k : rprog A) N acts : forall s, trace_ok acts s -> trace_small N acts s -> str_small N k (fold_left splice acts s) ->
  str_small N (bn_trace acts k) s /\ str_prog (bn_trace acts k) s = str_prog k (fold_left splice acts s).
Proof.
  induction acts as [|[[pos del] x] acts IH]; intros s Ho Hs Hk; [done|]. cbn [bn_trace fold_left trace_ok trace_small fst snd] in *.
  destruct Ho as [Hp Ho]. destruct Hs as [Hl Hs]. destruct (IH _ Ho Hs Hk) as [I1 I2]. clear IH Ho Hk.
  pose proof (trace_small_le _ _ _ Hs) as Hl'. clear Hs.
  assert (E1 : take pos (take pos s ++ drop (pos + del) s) = take pos s) by (rewrite take_app_le, take_take; [f_equal; lia|rewrite take_length; lia]).
  assert (E2 : drop pos (take pos s ++ drop (pos + del) s) = drop (pos + del) s).
  { rewrite drop_app_ge by (rewrite take_length; lia). rewrite drop_drop, take_length. f_equal. lia. }
  assert (HL : length (take pos s ++ drop (pos + del) s) = length s - del) by (rewrite app_length, take_length, drop_length; lia).
  unfold splice in *. repeat case_decide; subst; cbn [str_small str_prog app] in *.
  - rewrite Nat.min_l by lia. split; [split; [done|]|]; done.
  - rewrite Nat.min_l by lia. rewrite (decide_False (P := length _ < pos)) by lia. rewrite E1, E2.
    split; [split; [done|]; split; [lia|]|]; try done.
  - assert (del = 0) as -> by lia. rewrite Nat.add_0_r, take_drop in *. done.
  - assert (del = 0) as -> by lia. rewrite Nat.add_0_r in *. rewrite (decide_False (P := length _ < pos)) by lia. done.
Qed.
Theorem bn_trace_ok {A} CAP (k : rprog A) acts : 0 < CAP -> trace_ok acts [] -> trace_small (5 ^ 7) acts [] -> str_small (5 ^ 7) k (fold_left splice acts []) ->
  rope_prog CAP (bn_trace acts k) (rope_new CAP) = str_prog k (fold_left splice acts []).
Proof. intros HC Ho Hs Hk. destruct (bn_trace_str k _ _ _ Ho Hs Hk) as [H1 <-]. by apply rope_prog_string. Qed.

Lemma ract_len s a : byte_ract a -> length (ract s a) <= length s + 3.
Proof.
  destruct a as [pos c|pos len]; cbn [ract byte_ract]; intros Hc; rewrite ?app_length, take_length, drop_length; [|lia].
  pose proof (dec_len 1 (le_n 1) c) as Hd. pose proof (Nat.mod_upper_bound pos (length s + 1) ltac:(lia)). lia.
Qed.
Lemma bn_random_str {A} (k : rprog A) N acts : Forall byte_ract acts -> forall s, length s + 3 * length acts <= N -> str_small N k (fold_left ract acts s) ->
  str_small N (bn_random acts k) s /\ str_prog (bn_random acts k) s = str_prog k (fold_left ract acts s).
Proof.
  induction 1 as [|a acts Ha _ IH]; intros s Hl Hk; [done|]. cbn [length] in Hl. cbn [fold_left] in Hk |- *.
  pose proof (ract_len s a Ha) as Hr. destruct (IH (ract s a) ltac:(lia) Hk) as [I1 I2]. clear IH Hk.
  destruct a as [pos c|pos len]; cbn [bn_random str_small str_prog]; cbn [ract] in I1, I2, Hr |- *; cbv zeta in *.
  - pose proof (Nat.mod_upper_bound pos (length s + 1) ltac:(lia)) as Hp. set (p := pos mod (length s + 1)) in *.
    rewrite (decide_False (P := length _ < p)) by lia. split; [|done]. split; [lia|]. split; [lia|]. done.
  - pose proof (Nat.mod_upper_bound pos (length s + 1) ltac:(lia)) as Hp. set (p := pos mod (length s + 1)) in *.
    set (n := len mod 10) in *. rewrite Nat.min_l by lia.
    assert (drop (p + Nat.min n (length s - p)) s = drop (p + n) s) as ->.
    { destruct (decide (n <= length s - p)); [by rewrite Nat.min_l by lia|]. rewrite !drop_ge by lia. done. }
    split; [|done]. split; [lia|]. split; [lia|]. split; [lia|]. done.
Qed.
Theorem bn_random_ok {A} CAP (k : rprog A) acts : 0 < CAP -> Forall byte_ract acts -> 3 * length acts <= 5 ^ 7 -> str_small (5 ^ 7) k (fold_left ract acts []) ->
  rope_prog CAP (bn_random acts k) (rope_new CAP) = str_prog k (fold_left ract acts []).
Proof. intros HC Ha Hl Hk. destruct (bn_random_str k (5 ^ 7) _ Ha [] Hl Hk) as [H1 <-]. by apply rope_prog_string. Qed.

