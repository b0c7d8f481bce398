(** Utf8.v — Rope::to_string (rope.rs:263-274): the UTF-8 check behind [from_utf8(..).unwrap()]. *)
From Verif Require Export RopeP.

(** *** The check of std::str::from_utf8 called at rope.rs:272, byte by byte (the library function is not in
    the repository; this is the table of well-formed sequences of the Unicode standard, table 3-7,
    which its documentation refers to). *)
Definition btw (lo hi b : nat) : bool := (lo <=? b) && (b <=? hi).
Definition second3 (a b : nat) : bool :=
  btw (if a =? 224 then 160 else 128) (if a =? 237 then 159 else 191) b.
Definition second4 (a b : nat) : bool :=
  btw (if a =? 240 then 144 else 128) (if a =? 244 then 143 else 191) b.
Fixpoint utf8_ok (bs : list nat) : bool :=
  match bs with
  | [] => true
  | a :: bs1 =>
      if a <? 128 then utf8_ok bs1
      else match bs1 with
           | [] => false
           | b :: bs2 =>
               if btw 194 223 a then btw 128 191 b && utf8_ok bs2
               else match bs2 with
                    | [] => false
                    | c :: bs3 =>
                        if btw 224 239 a then second3 a b && btw 128 191 c && utf8_ok bs3
                        else match bs3 with
                             | [] => false
                             | d :: bs4 => btw 240 244 a && second4 a b && btw 128 191 c && btw 128 191 d && utf8_ok bs4
                             end
                    end
           end
  end.
(** Display::fmt — rope.rs:263-274: [from_utf8(ans).unwrap()], then written *)
Definition rope_to_string (CAP : nat) (r : rope CAP) : res (list nat) :=
  let? bs := rope_to_bytes CAP r in
  if utf8_ok bs then Ok bs else Panic.

(** *** Specification: strings are sequences of Unicode scalar values, encoded one after the other *)
Open Scope Z_scope.
Definition scalar (c : Z) : Prop := 0 <= c < 0xD800 \/ 0xE000 <= c < 0x110000.
Definition enc (c : Z) : list nat := map Z.to_nat
  (if c <? 0x80 then [c]
   else if c <? 0x800 then [0xC0 + c / 64; 0x80 + c mod 64]
   else if c <? 0x10000 then [0xE0 + c / 4096; 0x80 + c / 64 mod 64; 0x80 + c mod 64]
   else [0xF0 + c / 262144; 0x80 + c / 4096 mod 64; 0x80 + c / 64 mod 64; 0x80 + c mod 64]).
Definition enc_all (cs : list Z) : list nat := concat (map enc cs).
Definition is_str (bs : list nat) : Prop := exists cs, Forall scalar cs /\ bs = enc_all cs.
Close Scope Z_scope.
(** [p] lies between two characters of [bs], or at one of its ends *)
Definition boundary (bs : list nat) (p : nat) : Prop := exists u v, is_str u /\ is_str v /\ bs = u ++ v /\ length u = p.

Lemma btw_iff lo hi b : btw lo hi b = true <-> lo <= b <= hi.
Proof. unfold btw. rewrite andb_true_iff, !Nat.leb_le. done. Qed.
Lemma btw_T lo hi b : lo <= b <= hi -> btw lo hi b = true.
Proof. apply btw_iff. Qed.
Lemma btw_F lo hi b : ~ lo <= b <= hi -> btw lo hi b = false.
Proof. intros H. apply not_true_is_false. rewrite btw_iff. done. Qed.
Lemma ltb_T a b : a < b -> (a <? b) = true.
Proof. apply Nat.ltb_lt. Qed.
Lemma ltb_F a b : ~ a < b -> (a <? b) = false.
Proof. intros H. apply not_true_is_false. rewrite Nat.ltb_lt. done. Qed.

(** the shape of one encoded character *)
Inductive Char : list nat -> Prop :=
| Ch1 a : a < 128 -> Char [a]
| Ch2 a b : 194 <= a <= 223 -> 128 <= b <= 191 -> Char [a; b]
| Ch3 a b c : 224 <= a <= 239 -> second3 a b = true -> 128 <= c <= 191 -> Char [a; b; c]
| Ch4 a b c d : 240 <= a <= 244 -> second4 a b = true -> 128 <= c <= 191 -> 128 <= d <= 191 -> Char [a; b; c; d].

Lemma char_enc bs : Char bs <-> exists c, scalar c /\ enc c = bs.
Proof.
  split.
  - intros [a H|a b Ha Hb|a b c Ha Hb Hc|a b c d Ha Hb Hc Hd].
    + exists (Z.of_nat a). split; [left; lia|]. unfold enc. rewrite (proj2 (Z.ltb_lt _ _)) by lia. cbn. by rewrite Nat2Z.id.
    + exists (64 * (Z.of_nat a - 192) + (Z.of_nat b - 128))%Z. split; [left; lia|]. unfold enc.
      rewrite (proj2 (Z.ltb_ge _ _)), (proj2 (Z.ltb_lt _ _)) by lia. cbn [map].
      repeat f_equal; Z.to_euclidean_division_equations; lia.
    + exists (4096 * (Z.of_nat a - 224) + 64 * (Z.of_nat b - 128) + (Z.of_nat c - 128))%Z.
      unfold second3 in Hb. apply btw_iff in Hb.
      assert (128 <= b <= 191 /\ (a = 224 -> 160 <= b) /\ (a = 237 -> b <= 159)) as (Hb1 & Hb2 & Hb3).
      { destruct (Nat.eqb_spec a 224), (Nat.eqb_spec a 237); lia. }
      split; [unfold scalar; lia|]. unfold enc.
      rewrite !(proj2 (Z.ltb_ge _ _)), (proj2 (Z.ltb_lt _ _)) by lia. cbn [map].
      repeat f_equal; Z.to_euclidean_division_equations; lia.
    + exists (262144 * (Z.of_nat a - 240) + 4096 * (Z.of_nat b - 128) + 64 * (Z.of_nat c - 128) + (Z.of_nat d - 128))%Z.
      unfold second4 in Hb. apply btw_iff in Hb.
      assert (128 <= b <= 191 /\ (a = 240 -> 144 <= b) /\ (a = 244 -> b <= 143)) as (Hb1 & Hb2 & Hb3).
      { destruct (Nat.eqb_spec a 240), (Nat.eqb_spec a 244); lia. }
      split; [unfold scalar; lia|]. unfold enc.
      rewrite !(proj2 (Z.ltb_ge _ _)) by lia. cbn [map].
      repeat f_equal; Z.to_euclidean_division_equations; lia.
  - intros (c & Hs & <-). unfold enc, scalar in *.
    destruct (Z.ltb_spec c 0x80); [cbn; constructor; lia|].
    destruct (Z.ltb_spec c 0x800); [cbn [map]; constructor; Z.to_euclidean_division_equations; lia|].
    destruct (Z.ltb_spec c 0x10000); cbn [map].
    + constructor; [Z.to_euclidean_division_equations; lia| |Z.to_euclidean_division_equations; lia].
      unfold second3. apply btw_iff.
      destruct (Nat.eqb_spec (Z.to_nat (0xE0 + c / 4096)) 224), (Nat.eqb_spec (Z.to_nat (0xE0 + c / 4096)) 237); Z.to_euclidean_division_equations; lia.
    + constructor; [Z.to_euclidean_division_equations; lia| |Z.to_euclidean_division_equations; lia|Z.to_euclidean_division_equations; lia].
      unfold second4. apply btw_iff.
      destruct (Nat.eqb_spec (Z.to_nat (0xF0 + c / 262144)) 240), (Nat.eqb_spec (Z.to_nat (0xF0 + c / 262144)) 244); Z.to_euclidean_division_equations; lia.
Qed.
Lemma is_str_nil : is_str [].
Proof. exists []. done. Qed.
Lemma is_str_cons ch bs : Char ch -> is_str bs -> is_str (ch ++ bs).
Proof.
  intros Hc (cs & HF & ->). apply char_enc in Hc as (c & Hs & <-). exists (c :: cs). split; [by constructor|]. done.
Qed.
Lemma is_str_inv bs : is_str bs -> bs = [] \/ exists ch bs', Char ch /\ is_str bs' /\ bs = ch ++ bs'.
Proof.
  intros ([|c cs] & HF & ->); [by left|]. apply Forall_cons in HF as [Hs HF]. right. exists (enc c), (enc_all cs).
  split_and!; [apply char_enc; eauto|by exists cs|done].
Qed.
Lemma is_str_app u v : is_str u -> is_str v -> is_str (u ++ v).
Proof.
  intros (cs & HF & ->) (cs' & HF' & ->). exists (cs ++ cs'). split; [by apply Forall_app|]. unfold enc_all. by rewrite map_app, concat_app.
Qed.
Lemma ok_char ch bs : Char ch -> utf8_ok (ch ++ bs) = utf8_ok bs.
Proof.
  intros [a H|a b Ha Hb|a b c Ha Hb Hc|a b c d Ha Hb Hc Hd]; cbn [app utf8_ok].
  - by rewrite ltb_T by lia.
  - rewrite ltb_F by lia. by rewrite !btw_T by lia.
  - rewrite ltb_F by lia. rewrite btw_F by lia. rewrite btw_T by lia. rewrite Hb. by rewrite btw_T by lia.
  - rewrite ltb_F by lia. rewrite !btw_F by lia. rewrite btw_T by lia. rewrite Hb. by rewrite !btw_T by lia.
Qed.
Theorem utf8_ok_spec bs : utf8_ok bs = true <-> is_str bs.
Proof.
  split.
  - remember (length bs) as n eqn:En. revert bs En. induction n as [n IH] using lt_wf_ind. intros bs -> H.
    destruct bs as [|a bs]; [apply is_str_nil|]. cbn [utf8_ok] in H.
    destruct (Nat.ltb_spec a 128); [apply (is_str_cons [a]); [by constructor|]; eapply IH; [|done|done]; cbn; lia|].
    destruct bs as [|b bs]; [done|]. destruct (btw 194 223 a) eqn:E2.
    { apply andb_true_iff in H as [Hb H]. apply btw_iff in E2, Hb. apply (is_str_cons [a; b]); [by constructor|]. eapply IH; [|done|done]; cbn; lia. }
    destruct bs as [|c bs]; [done|]. destruct (btw 224 239 a) eqn:E3.
    { rewrite !andb_true_iff in H. destruct H as [[Hb Hc] H]. apply btw_iff in E3, Hc. apply (is_str_cons [a; b; c]); [by constructor|]. eapply IH; [|done|done]; cbn; lia. }
    destruct bs as [|d bs]; [done|]. rewrite !andb_true_iff in H. destruct H as [[[[Ha Hb] Hc] Hd] H]. apply btw_iff in Ha, Hc, Hd.
    apply (is_str_cons [a; b; c; d]); [by constructor|]. eapply IH; [|done|done]; cbn; lia.
  - intros (cs & HF & ->). unfold enc_all. induction HF as [|c cs Hs HF IH]; [done|]. cbn [map concat].
    rewrite ok_char; [done|]. apply char_enc. eauto.
Qed.

(** *** Boundaries *)
(** str::is_char_boundary of the standard library: the end, or a byte that does not continue a character *)
Definition lead (b : nat) : Prop := b < 128 \/ 192 <= b.
Lemma char_lead ch : Char ch -> exists a r, ch = a :: r /\ lead a /\ forall b, b ∈ r -> ~ lead b.
Proof.
  intros [a H|a b Ha Hb|a b c Ha Hb Hc|a b c d Ha Hb Hc Hd]; do 2 eexists; (split; [reflexivity|]); unfold lead; (split; [lia|]).
  - set_solver.
  - intros x. rewrite elem_of_list_singleton. lia.
  - unfold second3 in Hb. apply btw_iff in Hb. intros x. rewrite !elem_of_cons, elem_of_nil.
    destruct (a =? 224), (a =? 237); lia.
  - unfold second4 in Hb. apply btw_iff in Hb. intros x. rewrite !elem_of_cons, elem_of_nil.
    destruct (a =? 240), (a =? 244); lia.
Qed.
Theorem boundary_spec bs p : is_str bs -> boundary bs p <-> p = length bs \/ exists b, bs !! p = Some b /\ lead b.
Proof.
  intros Hs. split.
  - intros (u & v & Hu & Hv & -> & <-). apply is_str_inv in Hv as [->|(ch & v' & Hc & _ & ->)]; [left; by rewrite app_nil_r|].
    right. destruct (char_lead ch Hc) as (a & r & -> & Ha & _). exists a. split; [|done]. by apply list_lookup_middle.
  - destruct Hs as (cs & HF & ->). revert p. induction HF as [|c cs Hs HF IH]; intros p Hp.
    + destruct Hp as [->|(b & Hb & _)]; [|done]. exists [], []. split_and!; try done; apply is_str_nil.
    + unfold enc_all in *. cbn [map concat] in *.
      assert (Char (enc c)) as Hc by (apply char_enc; eauto). destruct (char_lead _ Hc) as (a & r & Er & Ha & Hr).
      assert (is_str (concat (map enc cs))) as Hcs by (by exists cs).
      destruct (decide (p = 0)) as [->|Hp0].
      { exists [], (enc c ++ concat (map enc cs)). split_and!; [apply is_str_nil|by apply is_str_cons|done|done]. }
      destruct (decide (p < length (enc c))) as [Hlt|Hge].
      { exfalso. destruct Hp as [->|(b & Hb & Hl)]; [rewrite app_length in Hlt; lia|].
        rewrite lookup_app_l in Hb by done. rewrite Er in Hb. destruct p as [|p]; [done|]. cbn in Hb. apply elem_of_list_lookup_2 in Hb. by apply (Hr b). }
      destruct (IH (p - length (enc c))) as (u & v & Hu & Hv & E & El).
      { destruct Hp as [->|(b & Hb & Hl)]; [left; rewrite app_length; lia|]. right. exists b. split; [|done]. rewrite lookup_app_r in Hb by lia. done. }
      exists (enc c ++ u), v. split_and!; [by apply is_str_cons|done|by rewrite E, app_assoc|rewrite app_length; lia].
Qed.
Lemma is_str_cancel u v : is_str u -> is_str (u ++ v) -> is_str v.
Proof.
  intros (cs & HF & ->). unfold enc_all. induction HF as [|c cs Hs HF IH]; [done|]. cbn [map concat]. rewrite <- app_assoc, <- !utf8_ok_spec.
  rewrite ok_char by (apply char_enc; eauto). rewrite !utf8_ok_spec. done.
Qed.
Lemma boundary_take bs p : boundary bs p -> is_str (take p bs) /\ is_str (drop p bs) /\ p <= length bs.
Proof. intros (u & v & Hu & Hv & -> & <-). rewrite take_app, drop_app, app_length. split_and!; [done|done|lia]. Qed.

(** *** Edits of strings *)
Theorem str_ins s i x : boundary s i -> is_str x -> is_str (ins i x s).
Proof. intros Hb Hx. apply boundary_take in Hb as (H1 & H2 & _). unfold ins. by repeat apply is_str_app. Qed.
Theorem str_del s a b : boundary s (Nat.min a b) -> boundary s b -> is_str (del a b s).
Proof. intros Ha Hb. apply boundary_take in Ha as (H1 & _ & _). apply boundary_take in Hb as (_ & H2 & _). unfold del. by apply is_str_app. Qed.
(** inserting text inside a character destroys it *)
Theorem str_ins_inside s i x : is_str s -> i <= length s -> ~ boundary s i -> is_str x -> x <> [] -> ~ is_str (ins i x s).
Proof.
  intros Hs Hi Hb Hx Hne Hn. apply Hb. unfold ins in Hn.
  assert (boundary (take i s ++ x ++ drop i s) i) as (u & v & Hu & Hv & E & El).
  { apply boundary_spec; [done|]. right. apply is_str_inv in Hx as [->|(ch & x' & Hc & _ & ->)]; [done|].
    destruct (char_lead ch Hc) as (a & r & -> & Ha & _). exists a. split; [|done].
    rewrite lookup_app_r by (rewrite take_length; lia). rewrite take_length, Nat.min_l, Nat.sub_diag by lia. done. }
  assert (u = take i s) as ->.
  { apply (f_equal (take i)) in E. rewrite take_app_alt in E by (rewrite take_length; lia).
    rewrite take_app_alt in E by done. done. }
  exists (take i s), (drop i s). split_and!; [done| |by rewrite take_drop|done].
  apply (is_str_cancel (take i s)); [done|]. by rewrite take_drop.
Qed.
(** edits that respect the characters of the string they meet (positions beyond the end count as the end) *)
Fixpoint whole (os : list redit) (s : list nat) : Prop :=
  match os with
  | [] => True
  | o :: os' => (match o with RIns i x => boundary s i /\ is_str x
                 | RDel a b => b <= a \/ boundary s (Nat.min a (length s)) /\ boundary s (Nat.min b (length s)) end)
                /\ whole os' (sedit o s)
  end.
Lemma whole_fits os : forall s, whole os s -> fits os s.
Proof.
  induction os as [|o os IH]; intros s; [done|]. intros [Ho Hw]. split; [|by apply IH].
  destruct o as [i x|a b]; [|done]. destruct Ho as [Hb _]. by apply boundary_take in Hb as (_ & _ & ?).
Qed.
Lemma min_take (s : list nat) a : take (Nat.min a (length s)) s = take a s.
Proof. destruct (Nat.min_spec a (length s)) as [[_ ->]|[? ->]]; [done|]. by rewrite !take_ge by lia. Qed.
Lemma min_drop (s : list nat) a : drop (Nat.min a (length s)) s = drop a s.
Proof. destruct (Nat.min_spec a (length s)) as [[_ ->]|[? ->]]; [done|]. by rewrite !drop_ge by lia. Qed.
Theorem whole_str os : forall s, is_str s -> whole os s -> is_str (str_run os s).
Proof.
  induction os as [|o os IH]; intros s Hs; [done|]. intros [Ho Hw]. cbn [str_run fold_left]. apply IH; [|done].
  destruct o as [i x|a b]; cbn [sedit]; [destruct Ho; by apply str_ins|]. unfold del. destruct Ho as [Hab|[Ha Hb]].
  - rewrite Nat.min_r by done. by rewrite take_drop.
  - destruct (Nat.min_spec a b) as [[_ ->]|[_ ->]]; [|by rewrite take_drop].
    apply boundary_take in Ha as (H1 & _ & _). apply boundary_take in Hb as (_ & H2 & _). rewrite min_take in H1. rewrite min_drop in H2.
    by apply is_str_app.
Qed.

Section rope.
Context (CAP : nat) (HC : 0 < CAP).
Theorem rope_to_string_ok r s : RopeOf CAP r s -> Shallow (rp_tree CAP r) 9 ->
  (is_str s /\ rope_to_string CAP r = Ok s) \/ (~ is_str s /\ rope_to_string CAP r = Panic).
Proof using HC.
  intros HR Sh. unfold rope_to_string. rewrite (rope_to_bytes_ok CAP HC r s HR Sh). cbn [rbind].
  destruct (utf8_ok s) eqn:E; [left|right]; (split; [|done]).
  - by apply utf8_ok_spec.
  - intros Hs. apply utf8_ok_spec in Hs. congruence.
Qed.
Theorem rope_string_history os : whole os [] ->
  (forall os1 os2 r', os = os1 ++ os2 -> rope_run CAP os1 (rope_new CAP) = Ok r' -> Shallow (rp_tree CAP r') 7) ->
  exists r, rope_run CAP os (rope_new CAP) = Ok r /\ rope_to_string CAP r = Ok (str_run os []) /\ is_str (str_run os []).
Proof using HC.
  intros Hw Hs. destruct (rope_history CAP HC os (whole_fits _ _ Hw) Hs) as (r & E & Eb & _).
  assert (is_str (str_run os [])) as Hst by (apply whole_str; [apply is_str_nil|done]).
  exists r. split; [done|]. split; [|done]. unfold rope_to_string. rewrite Eb. cbn [rbind]. by rewrite (proj2 (utf8_ok_spec _) Hst).
Qed.
Theorem rope_insert_inside r s i x r' : RopeOf CAP r s -> is_str s -> i <= length s -> ~ boundary s i -> is_str x -> x <> [] ->
  rope_insert CAP r i x = Ok r' -> Shallow (rp_tree CAP r') 9 -> rope_to_string CAP r' = Panic.
Proof using HC.
  intros HR Hs Hi Hb Hx Hne E Sh. destruct (rope_insert_ok CAP HC r s i x HR Hi) as (r2 & E2 & HR2).
  rewrite E in E2. injection E2 as <-. destruct (rope_to_string_ok r' _ HR2 Sh) as [[Hn _]|[_ ?]]; [|done].
  exfalso. by apply (str_ins_inside s i x Hs Hi Hb Hx Hne).
Qed.
(** *** Rope::clear keeps the cached cursor (rope.rs:242-244): if the leaf it names does not exist among the
    leaves of the text inserted next, every later edit at or behind the cached position panics *)
Theorem clear_stale_panics r s r1 pos l : rp_cursor CAP r = Some (mkRC pos l) -> s <> [] ->
  rope_insert CAP (rope_clear CAP r) 0 s = Ok r1 -> a_get (leaf_nodes (rp_tree CAP r1)) l = None ->
  rope_len CAP r1 = length s /\
  (forall i x, pos <= i -> i <= length s -> rope_insert CAP r1 i x = Panic) /\
  (forall st en, pos <= st -> st < en -> st < length s -> rope_delete_range CAP r1 st en = Panic).
Proof using HC.
  intros Ec Hne E Hl.
  destruct (rope_insert_ok CAP HC (rope_new CAP) [] 0 s (rope_new_ok CAP)) as (r0 & E0 & HR0); [done|].
  assert (r1 = mkRope CAP (rp_tree CAP r0) (Some (mkRC pos l))) as ->.
  { unfold rope_insert in E, E0. change (rp_cursor CAP (rope_clear CAP r)) with (rp_cursor CAP r) in E. rewrite Ec in E.
    change (rope_len CAP (rope_clear CAP r)) with 0 in E. change (rope_len CAP (rope_new CAP)) with 0 in E0.
    rewrite decide_False in E, E0 by lia.
    change (rope_is_empty CAP (rope_clear CAP r)) with true in E. change (rope_is_empty CAP (rope_new CAP)) with true in E0.
    change (rp_tree CAP (rope_clear CAP r)) with (@bt_new (RopeTrait CAP)) in E. change (rp_tree CAP (rope_new CAP)) with (@bt_new (RopeTrait CAP)) in E0.
    destruct (from_str CAP s) as [gs| |]; cbn [rbind] in E, E0; [|done|done].
    destruct (Rope.push_all CAP bt_new gs) as [t| |]; cbn [rbind] in E, E0; [|done|done]. injection E as <-. by injection E0 as <-. }
  cbn [rp_tree] in Hl. pose proof (rope_len_ok CAP HC r0 _ HR0) as Hlen. pose proof (rope_empty_ok CAP HC r0 _ HR0) as Hemp.
  unfold ins in Hlen, Hemp. cbn [take drop app] in Hlen, Hemp. rewrite app_nil_r in Hlen, Hemp.
  rewrite bool_decide_eq_false_2 in Hemp by done.
  split_and!.
  - exact Hlen.
  - intros i x Hp Hi. unfold rope_insert. change (rope_len CAP (mkRope CAP (rp_tree CAP r0) (Some (mkRC pos l)))) with (rope_len CAP r0).
    change (rope_is_empty CAP (mkRope CAP (rp_tree CAP r0) (Some (mkRC pos l)))) with (rope_is_empty CAP r0).
    rewrite Hlen, Hemp. rewrite decide_False by lia. unfold rope_ins_cursor. cbn [rp_cursor rp_tree].
    rewrite decide_True by done. unfold get_lf. by rewrite Hl.
  - intros st en Hp Hse Hst. unfold rope_delete_range. change (rope_len CAP (mkRope CAP (rp_tree CAP r0) (Some (mkRC pos l)))) with (rope_len CAP r0).
    change (rope_is_empty CAP (mkRope CAP (rp_tree CAP r0) (Some (mkRC pos l)))) with (rope_is_empty CAP r0).
    rewrite Hlen, Hemp. rewrite decide_False by lia. cbn [rp_cursor rp_tree].
    rewrite decide_True by lia. unfold get_lf. by rewrite Hl.
Qed.
End rope.
