(** Fuzz.v — the fuzzing harnesses shipped with the repository, as programs over the model. *)
From Verif Require Export OrdM Utf8.

(** ** fuzz/fuzz_targets/ord.rs: OrdTreeSet<u8> against std's BTreeSet<u8> *)
(** Action — ord.rs:9-13 of the fuzz target *)
Inductive oaction := FInsert (v : nat) | FDelete.
(** The truth: a BTreeSet (not in the repository) is the list of its members in increasing order. *)
Definition bs_insert (v : nat) (s : list nat) : list nat := filter (fun x => x < v) s ++ [v] ++ filter (fun x => v < x) s.
Definition bs_remove (v : nat) (s : list nat) : list nat := filter (fun x => x <> v) s.
(** the value removed from both sides by [Action::Delete] — ord.rs:24-37 of the fuzz target: the fourth smallest
    if there is one, else the smallest if there is one *)
Definition victim (s : list nat) : option nat := match s !! 3 with Some v => Some v | None => s !! 0 end.
(** the loop — ord.rs:18-39 of the fuzz target *)
Fixpoint ord_loop (acts : list oaction) (s : list nat) (t : omap_t nat unit Nat.compare) : res (list nat * omap_t nat unit Nat.compare) :=
  match acts with
  | [] => Ok (s, t)
  | FInsert v :: acts => let? t := os_insert Nat.compare t v in ord_loop acts (bs_insert v s) t
  | FDelete :: acts =>
      match victim s with
      | Some v => let? (_, t) := os_delete Nat.compare t v in ord_loop acts (bs_remove v s) t
      | None => ord_loop acts s t
      end
  end.
(** the fuzz target — ord.rs:15-45: the loop on an empty set and an empty tree, then [assert_eq!] of the contents *)
Definition fuzz_ord (acts : list oaction) : res unit :=
  let? (s, t) := ord_loop acts [] (os_new Nat.compare) in
  let? l := os_iter Nat.compare t in
  rassert (bool_decide (s = l)).

Lemma filter_none {A} (P : A -> Prop) `{!forall x, Decision (P x)} l : Forall (fun x => ~ P x) l -> filter P l = [].
Proof. induction 1 as [|x l Hx _ IH]; [done|]. by rewrite filter_cons_False. Qed.
Lemma filter_all {A} (P : A -> Prop) `{!forall x, Decision (P x)} l : Forall P l -> filter P l = l.
Proof. induction 1 as [|x l Hx _ IH]; [done|]. by rewrite filter_cons_True, IH. Qed.
Lemma bs_insert_ss v s : StronglySorted lt s -> bs_insert v s = ss_insert (kcmp := Nat.compare) v s.
Proof.
  unfold bs_insert. induction 1 as [|x s _ IH F]; [done|]. cbn [ss_insert]. destruct (Nat.compare_spec v x) as [->|Hl|Hl].
  - rewrite filter_cons_False by lia. rewrite filter_cons_False by lia.
    rewrite filter_none by (eapply Forall_impl; [exact F|cbn; intros; lia]). by rewrite filter_all.
  - rewrite filter_cons_False by lia. rewrite filter_cons_True by done.
    rewrite filter_none by (eapply Forall_impl; [exact F|cbn; intros; lia]).
    rewrite filter_all by (eapply Forall_impl; [exact F|cbn; intros; lia]). done.
  - rewrite filter_cons_True by done. rewrite filter_cons_False by lia. cbn [app]. f_equal. exact IH.
Qed.
Lemma bs_remove_ss v s : StronglySorted lt s -> bs_remove v s = ss_delete (kcmp := Nat.compare) v s.
Proof.
  unfold bs_remove. induction 1 as [|x s _ IH F]; [done|]. cbn [ss_delete]. destruct (Nat.compare_spec v x) as [->|Hl|Hl].
  - rewrite filter_cons_False by (intros H; by apply H). apply filter_all. eapply Forall_impl; [exact F|cbn; intros; lia].
  - rewrite filter_cons_True by lia. by rewrite IH.
  - rewrite filter_cons_True by lia. by rewrite IH.
Qed.
Lemma SetOf_sorted (t : omap_t nat unit Nat.compare) s : SetOf nat_TO t s -> StronglySorted lt s.
Proof.
  intros (m & (xs & T & M & Hx & Hi & Hn) & <-). clear -Hi. induction Hi as [|a m Hm IH F]; cbn; constructor; [done|].
  apply Forall_forall. intros k (b & -> & Hb)%elem_of_list_fmap. rewrite Forall_forall in F. specialize (F b Hb). cbn in F.
  by apply Nat.compare_lt_iff.
Qed.
Definition byte_act (a : oaction) : Prop := match a with FInsert v => v < 256 | FDelete => True end.
Lemma ord_loop_ok acts : forall s t, SetOf nat_TO t s -> Forall (fun x => x < 256) s -> Forall byte_act acts ->
  exists s' t', ord_loop acts s t = Ok (s', t') /\ SetOf nat_TO t' s' /\ Forall (fun x => x < 256) s'.
Proof.
  induction acts as [|a acts IH]; intros s t Hs Hb Ha; [by exists s, t|]. inversion_clear Ha as [|? ? Ha1 Ha2].
  pose proof (SetOf_sorted _ _ Hs) as So. destruct a as [v|]; cbn [ord_loop].
  - destruct (t_os_run nat_TO [SIns v] t s [] (ss_insert (kcmp := Nat.compare) v s) Hs eq_refl) as (t' & E & Hs').
    cbn [srun] in E. destruct (os_insert Nat.compare t v) as [t1| |]; [|done..]. cbn [rbind] in E |- *. injection E as <-.
    apply IH; [by rewrite bs_insert_ss| |done]. unfold bs_insert. rewrite !Forall_app. split_and!; [|by constructor|];
      apply Forall_forall; intros x [_ Hx]%elem_of_list_filter; rewrite Forall_forall in Hb; by apply Hb.
  - destruct (victim s) as [v|] eqn:Ev; [|by apply IH].
    assert (v ∈ s) as Hv.
    { unfold victim in Ev. destruct (s !! 3) as [v3|] eqn:E3; [injection Ev as <-; by eapply elem_of_list_lookup_2|by eapply elem_of_list_lookup_2]. }
    assert (ss_mem (kcmp := Nat.compare) v s = true) as Hm by (apply ss_mem_spec; exists v; split; [done|apply Nat.compare_refl]).
    destruct s as [|x s]; [by apply elem_of_nil in Hv|].
    destruct (t_os_run nat_TO [SDel v] t (x :: s) [true] (ss_delete (kcmp := Nat.compare) v (x :: s)) Hs) as (t' & E & Hs').
    { cbn [ss_run]. by rewrite Hm. }
    cbn [srun] in E. destruct (os_delete Nat.compare t v) as [[b t1]| |]; [|done..]. cbn [rbind] in E |- *.
    injection E as -> <-. apply IH; [by rewrite bs_remove_ss| |done].
    unfold bs_remove. apply Forall_forall. intros y [_ Hy]%elem_of_list_filter. rewrite Forall_forall in Hb. by apply Hb.
Qed.
Lemma sorted_bytes s : StronglySorted lt s -> forall n, Forall (fun x => n <= x < 256) s -> length s <= 256 - n.
Proof.
  induction 1 as [|x s _ IH F]; intros n Hb; cbn [length]; [lia|]. inversion_clear Hb as [|? ? Hx Hb'].
  enough (length s <= 256 - S x) by lia. apply IH. rewrite Forall_forall in Hb', F |- *. intros y Hy. specialize (F y Hy). specialize (Hb' y Hy). lia.
Qed.
Theorem fuzz_ord_ok acts : Forall byte_act acts -> fuzz_ord acts = Ok tt.
Proof.
  intros Ha. unfold fuzz_ord. destruct (ord_loop_ok acts [] (os_new Nat.compare)) as (s & t & -> & Hs & Hb); [|done|done|].
  { exists []. split; [apply new_map|done]. }
  cbn [rbind]. pose proof (SetOf_sorted _ _ Hs) as So. destruct Hs as (m & Hm & <-).
  assert (length (map fst m) <= 256) as Hl.
  { pose proof (sorted_bytes _ So 0) as H. rewrite Nat.sub_0_r in H. apply H. eapply Forall_impl; [exact Hb|cbn; intros; lia]. }
  rewrite map_length in Hl.
  unfold os_iter. destruct (t_om_iter nat_TO t m Hm) as (_ & -> & _).
  { eapply Nat.le_lt_trans; [exact Hl|]. apply Nat.lt_le_trans with (2 * 6 ^ 3); [apply Nat.ltb_lt; by vm_compute|].
    apply Nat.mul_le_mono_l, Nat.pow_le_mono_r; lia. }
  cbn [rbind]. by rewrite bool_decide_eq_true_2.
Qed.

(** ** fuzz/fuzz_targets/rope.rs and the test harness of rope.rs:449-485: Rope against String *)
(** Action — rope.rs:7-11 of the fuzz target, src rope.rs:443-447 *)
Inductive raction := FIns (pos content : nat) | FDel (pos len : nat).
(** u8::to_string (std): the decimal digits as ASCII bytes, without leading zeros *)
Definition dec (n : nat) : list nat :=
  (if 100 <=? n then [48 + n / 100] else []) ++ (if 10 <=? n then [48 + n / 10 mod 10] else []) ++ [48 + n mod 10].
Section rope.
Context (CAP : nat).
(** the three assertions made after every action — src rope.rs:461-463 and 475-477 *)
Definition rope_asserts (s : list nat) (r : rope CAP) : res unit :=
  let? _ := rope_check CAP r in
  let? _ := rassert (bool_decide (rope_len CAP r = length s)) in
  let? x := rope_to_string CAP r in
  rassert (bool_decide (x = s)).
(** the loop — src rope.rs:449-481; with [each = false] that of fuzz_targets/rope.rs:13-31, which asserts nothing
    inside the loop.  The truth is a String of ASCII digits, so that every position is a character boundary and
    [insert_str]/[drain] are list edits; the [dbg!] output is left out. *)
Fixpoint rope_loop (each : bool) (acts : list raction) (s : list nat) (r : rope CAP) : res (list nat * rope CAP) :=
  match acts with
  | [] => Ok (s, r)
  | FIns pos content :: acts =>
      let pos := pos mod (length s + 1) in
      let x := dec content in
      let s := take pos s ++ x ++ drop pos s in
      let? r := rope_insert CAP r pos x in
      let? _ := (if each then rope_asserts s r else Ok tt) in
      rope_loop each acts s r
  | FDel pos len :: acts =>
      let pos := pos mod (length s + 1) in
      let len := Nat.min (len mod 10) (length s - pos) in
      let? r := rope_delete_range CAP r pos (pos + len) in
      let s := take pos s ++ drop (pos + len) s in
      let? _ := (if each then rope_asserts s r else Ok tt) in
      rope_loop each acts s r
  end.
(** the fuzz target — fuzz_targets/rope.rs:13-35 *)
Definition fuzz_rope (acts : list raction) : res unit :=
  let? (s, r) := rope_loop false acts [] (rope_new CAP) in
  let? _ := rope_check CAP r in
  let? x := rope_to_string CAP r in
  rassert (bool_decide (x = s)).
(** the test harness [fuzz] — src rope.rs:449-485 *)
Definition fuzz_test (acts : list raction) : res unit :=
  let? (s, r) := rope_loop true acts [] (rope_new CAP) in
  let? x := rope_to_string CAP r in
  rassert (bool_decide (x = s)).

Context (HC : 0 < CAP).
Lemma dec_digits n : n < 256 -> Forall (fun b => 48 <= b < 58) (dec n).
Proof.
  intros Hn. unfold dec. rewrite !Forall_app. split_and!.
  - destruct (100 <=? n); [|done]. constructor; [|done]. assert (n / 100 < 10) by (apply Nat.div_lt_upper_bound; lia). lia.
  - destruct (10 <=? n); [|done]. constructor; [|done]. pose proof (Nat.mod_upper_bound (n / 10) 10). lia.
  - constructor; [|done]. pose proof (Nat.mod_upper_bound n 10). lia.
Qed.
Lemma digits_utf8 s : Forall (fun b => 48 <= b < 58) s -> utf8_ok s = true.
Proof. induction 1 as [|b s Hb _ IH]; [done|]. cbn [utf8_ok]. by rewrite ltb_T by lia. Qed.
Definition byte_ract (a : raction) : Prop := match a with FIns _ c => c < 256 | FDel _ _ => True end.
Lemma string_ok r s : RopeOf CAP r s -> Forall (fun b => 48 <= b < 58) s -> Shallow (rp_tree CAP r) 7 ->
  rope_check CAP r = Ok tt /\ rope_to_string CAP r = Ok s /\ rope_asserts s r = Ok tt.
Proof using HC.
  intros HR Hd Sh.
  assert (rope_check CAP r = Ok tt) as Hc.
  { destruct HR as (xs & T & _). unfold rope_check. apply (t_check (RopeLaw CAP) _ xs T); [apply (shallow_le CAP HC _ 7); [done|lia]|by right]. }
  assert (rope_to_string CAP r = Ok s) as Es.
  { unfold rope_to_string. rewrite (rope_to_bytes_ok CAP HC r s HR ltac:(apply (shallow_le CAP HC _ 7); [done|lia])). cbn [rbind]. by rewrite digits_utf8. }
  split; [done|]. split; [done|]. unfold rope_asserts. rewrite Hc. cbn [rbind]. rewrite (rope_len_ok CAP HC r s HR).
  rewrite bool_decide_eq_true_2 by done. cbn [rbind rassert]. rewrite Es. cbn [rbind]. by rewrite bool_decide_eq_true_2.
Qed.
Lemma deep_dec r s : RopeOf CAP r s -> Shallow (rp_tree CAP r) 7 \/ ~ Shallow (rp_tree CAP r) 7.
Proof using HC.
  intros (xs & T & _). destruct xs as [|x xs]; [left; apply (empty_shallow (RopeLaw CAP)); [done|lia]|].
  by eapply (shallow_dec (RopeLaw CAP)).
Qed.
Lemma dec_len n : length (dec n) <= 3.
Proof. unfold dec. rewrite !app_length. destruct (100 <=? n), (10 <=? n); cbn; lia. Qed.
Lemma rope_loop_ok acts : forall s r, RopeOf CAP r s -> Forall (fun b => 48 <= b < 58) s -> Forall byte_ract acts ->
  (exists s' r', (forall each, rope_loop each acts s r = Ok (s', r')) /\ RopeOf CAP r' s' /\ Forall (fun b => 48 <= b < 58) s' /\
    Shallow (rp_tree CAP r') 7) \/
  (exists acts1 acts2 s1 r1, acts = acts1 ++ acts2 /\ rope_loop false acts1 s r = Ok (s1, r1) /\ ~ Shallow (rp_tree CAP r1) 7 /\
    RopeOf CAP r1 s1 /\ length s1 <= length s + 3 * length acts1).
Proof using HC.
  induction acts as [|a acts IH]; intros s r HR Hd Ha.
  { destruct (deep_dec r s HR); [left; by exists s, r|]. right. exists [], [], s, r. split; [done|]. split; [done|]. split; [done|]. split; [done|]. cbn. lia. }
  inversion_clear Ha as [|? ? Ha1 Ha2].
  assert ((exists s1 r1, (forall e acts, rope_loop e (a :: acts) s r = let? _ := (if e then rope_asserts s1 r1 else Ok tt) in rope_loop e acts s1 r1) /\
             RopeOf CAP r1 s1 /\ Forall (fun b => 48 <= b < 58) s1 /\ length s1 <= length s + 3) \/ ~ Shallow (rp_tree CAP r) 7) as [(s1 & r1 & E & HR1 & Hd1 & Hl1)|Hn].
  { destruct a as [pos c|pos len].
    - left. pose proof (Nat.mod_upper_bound pos (length s + 1) ltac:(lia)) as Hp. set (p := pos mod (length s + 1)) in *.
      destruct (rope_insert_ok CAP HC r s p (dec c) HR ltac:(lia)) as (r1 & E & HR1). eexists _, r1. split; [|split; [exact HR1|split]].
      + intros e acts'. cbn [rope_loop]. fold p. rewrite E. done.
      + unfold ins. rewrite !Forall_app. split_and!; [by apply Forall_take|by apply dec_digits|by apply Forall_drop].
      + unfold ins. rewrite !app_length, take_length, drop_length. pose proof (dec_len c). lia.
    - pose proof (Nat.mod_upper_bound pos (length s + 1) ltac:(lia)) as Hp. set (p := pos mod (length s + 1)) in *.
      set (n := Nat.min (len mod 10) (length s - p)).
      destruct (rope_delete_any CAP HC r s p (p + n) HR) as [(r1 & E & HR1)|[Hn _]]; [left|by right].
      unfold del in HR1. rewrite Nat.min_l in HR1 by lia. eexists _, r1. split; [|split; [exact HR1|split]].
      + intros e acts'. cbn [rope_loop]. fold p. fold n. rewrite E. done.
      + rewrite !Forall_app. split; [by apply Forall_take|by apply Forall_drop].
      + rewrite !app_length, take_length, drop_length. lia. }
  2: { right. exists [], (a :: acts), s, r. split; [done|]. split; [done|]. split; [done|]. split; [done|]. cbn. lia. }
  destruct (deep_dec r1 s1 HR1) as [Sh|Hn].
  2: { right. exists [a], acts, s1, r1. split; [done|]. split; [by rewrite E|]. split; [done|]. split; [done|]. cbn [length]. lia. }
  assert (forall each, rope_loop each (a :: acts) s r = rope_loop each acts s1 r1) as E1.
  { intros each. rewrite E. destruct each; [|done]. destruct (string_ok r1 s1 HR1 Hd1 Sh) as (_ & _ & ->). done. }
  destruct (IH s1 r1 HR1 Hd1 Ha2) as [(s2 & r2 & E2 & ?)|(a1 & a2 & s2 & r2 & -> & E2 & Hn & HR2 & Hl2)]; [left|right].
  - exists s2, r2. split; [|done]. intros each. by rewrite E1.
  - exists (a :: a1), a2, s2, r2. split; [done|]. split; [by rewrite E|]. split; [done|]. split; [done|]. cbn [length]. lia.
Qed.
(** Both harnesses succeed, unless some prefix of the actions builds a tree deeper than 7 levels. *)
Theorem fuzz_rope_ok acts : Forall byte_ract acts ->
  (fuzz_rope acts = Ok tt /\ fuzz_test acts = Ok tt) \/
  (exists acts1 acts2 s1 r1, acts = acts1 ++ acts2 /\ rope_loop false acts1 [] (rope_new CAP) = Ok (s1, r1) /\ ~ Shallow (rp_tree CAP r1) 7 /\
    RopeOf CAP r1 s1 /\ length s1 <= 3 * length acts1).
Proof using HC.
  intros Ha.
  destruct (rope_loop_ok acts [] (rope_new CAP) (rope_new_ok CAP) ltac:(done) Ha) as [(s & r & E & HR & Hd & Sh)|?]; [left|by right].
  destruct (string_ok r s HR Hd Sh) as (Hc & Es & _). split.
  - unfold fuzz_rope. rewrite E. cbn [rbind]. rewrite Hc. cbn [rbind]. rewrite Es. cbn [rbind]. by rewrite bool_decide_eq_true_2.
  - unfold fuzz_test. rewrite E. cbn [rbind]. rewrite Es. cbn [rbind]. by rewrite bool_decide_eq_true_2.
Qed.
(** with at most 26041 actions they succeed *)
Theorem fuzz_rope_short acts : Forall byte_ract acts -> 3 * length acts <= 5 ^ 7 -> fuzz_rope acts = Ok tt /\ fuzz_test acts = Ok tt.
Proof using HC.
  intros Ha Hl. destruct (fuzz_rope_ok acts Ha) as [?|(a1 & a2 & s1 & r1 & -> & _ & Hn & HR & Hs)]; [done|exfalso].
  apply Hn. apply (rope_shallow CAP HC r1 s1 7 HR); [lia|]. rewrite app_length in Hl. lia.
Qed.
End rope.

(** the ordered-set target only ever deletes members: the same program with deletions of arbitrary values fails *)
Definition fuzz_ord_any (ins dels : list nat) : res unit :=
  let? (_, t) := srun (map SIns ins ++ map SDel dels) (os_new Nat.compare) in
  let? l := os_iter Nat.compare t in
  rassert (bool_decide (fold_left (fun s v => bs_remove v s) dels (fold_left (fun s v => bs_insert v s) ins []) = l)).
Lemma fuzz_ord_blind : fuzz_ord_any [1; 5; 3] [3; 4] = Panic.
Proof. by vm_compute. Qed.
(** concrete runs *)
Definition demo_oacts : list oaction := concat (map (fun i => [FInsert (i * 37 mod 256); FInsert (i * 11 mod 256); FDelete]) (seq 0 30)).
Definition truth_of {A} (x : res (list nat * A)) : option (list nat) := match x with Ok (s, _) => Some s | _ => None end.
Lemma demo_fuzz_ord : Forall byte_act demo_oacts /\ truth_of (ord_loop demo_oacts [] (os_new Nat.compare)) =
  Some [3; 6; 8; 52; 63; 120; 148; 151; 154; 157; 165; 176; 185; 187; 188; 191; 194; 198; 209; 220; 222; 225; 228; 231; 242; 253].
Proof. split; [apply Forall_concat, Forall_fmap, Forall_true; intros i; constructor; [apply Nat.mod_upper_bound; lia|constructor; [apply Nat.mod_upper_bound; lia|by repeat constructor]]|]. by vm_compute. Qed.
Definition demo_racts : list raction :=
  concat (map (fun i => [FIns (i * 91 mod 256) (i * 37 mod 256); FIns (i * 5) (i * 101 mod 256); FDel (i * 53 mod 256) (7 + i)]) (seq 0 20)).
Lemma demo_fuzz_rope : Forall byte_ract demo_racts /\ truth_of (rope_loop 4 true demo_racts [] (rope_new 4)) =
  Some [52; 52; 49; 49; 53; 52; 56; 52; 51; 56; 56; 50; 50; 53; 49; 49; 55; 54; 49; 49; 50; 55; 57; 49; 50; 54; 49; 56; 49; 56; 49; 48; 56; 49].
Proof. split; [apply Forall_concat, Forall_fmap, Forall_true; intros i; constructor; [apply Nat.mod_upper_bound; lia|constructor; [apply Nat.mod_upper_bound; lia|by repeat constructor]]|]. by vm_compute. Qed.
