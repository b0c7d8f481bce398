(** RnmProg.v — programs that use a RangeNumMap; a program logic for them whose assertions speak of arrays only; the integration
    tests (tests/integration.rs) as programs. *)
From Verif Require Export Rnm2.

(** A program: every step may depend on everything seen so far. *)
Inductive mprog (A : Type) : Type :=
| PDone (a : A)
| PFail                                                    (* a failing assertion of the program itself *)
| PIns (st en : nat) (v : Z) (p : mprog A)
| PPlus (st en : nat) (c : Z) (p : mprog A)
| PGet (i : nat) (p : option Z -> mprog A)
| PLen (p : nat -> mprog A)
| PIter (p : list (nat * nat * Z) -> mprog A)
| PDrain (st en : nat) (p : list (nat * nat * Z) -> mprog A).
Arguments PDone {A}. Arguments PFail {A}. Arguments PIns {A}. Arguments PPlus {A}. Arguments PGet {A}. Arguments PLen {A}. Arguments PIter {A}. Arguments PDrain {A}.

Section prog.
Context {A : Type} (ord : list aidx -> list aidx).
(** mod.rs:25-104; [iter] and [drain] are run to exhaustion *)
Fixpoint rnm_prog (p : mprog A) (m : rnm) : res A :=
  match p with
  | PDone a => Ok a
  | PFail => Panic
  | PIns st en v p => let? m := rnm_insert ord m st en v in rnm_prog p m
  | PPlus st en c p => let? m := rnm_plus ord m st en c in rnm_prog p m
  | PGet i p => let? o := rnm_get m i in rnm_prog (p o) m
  | PLen p => rnm_prog (p (rnm_len m)) m
  | PIter p => let? ps := rnm_iter m in rnm_prog (p ps) m
  | PDrain st en p => let? (ps, m) := rnm_drain m st en in rnm_prog (p ps) m
  end.
(** what is enough to know of a program, seen as one on arrays, for it to end with a result in [Q].  How [iter] and [drain] cut
    the values into ranges is left open: the program must do with any cutting. *)
Fixpoint arr_wp (N : nat) (p : mprog A) (Q : A -> Prop) (u : list (option Z)) : Prop :=
  length u <= N /\
  match p with
  | PDone a => Q a
  | PFail => False
  | PIns st en v p => st <= en /\ (0 < en \/ u <> []) /\ length (arr_reserve u en) <= N /\ arr_wp N p Q (arr_fill (arr_reserve u en) st en v)
  | PPlus st en c p => st <= en /\ length (arr_reserve u en) <= N /\ arr_wp N p Q (arr_map (fmap (fun x => (x + c)%Z)) (arr_reserve u en) st en)
  | PGet i p => arr_wp N (p (mjoin (u !! i))) Q u
  | PLen p => arr_wp N (p (length u)) Q u
  | PIter p => forall ps, Gapless 0 ps (omap id u) -> arr_wp N (p ps) Q u
  | PDrain st en p => st <= en /\ en <= length u /\ st < length u /\
      forall ps, Gapless st ps (omap id (drop st (take en u))) -> arr_wp N (p ps) Q (take st u ++ drop en u)
  end.
Context (Hord : forall l, ord l ≡ₚ l).
Theorem rnm_prog_ok p Q : forall m u, RnmMd m u -> arr_wp (5 ^ 7) p Q u -> exists a, rnm_prog p m = Ok a /\ Q a.
Proof using Hord.
  induction p as [a| |st en v p IH|st en c p IH|i p IH|p IH|p IH|st en p IH]; intros m u HM [Hl H]; cbn [rnm_prog].
  - by exists a.
  - done.
  - destruct H as (H1 & H2 & H3 & H). pose proof HM as [HR _]. destruct (mop_run_ok ord (MIns st en v) m u Hord HR) as [(m' & E & _)|[_ D]]; [done| |].
    + pose proof (mop_run_md ord (MIns st en v) m u m' Hord HM (conj H1 H2) E) as HM'. cbn [mop_run] in E. rewrite E. cbn [rbind]. by eapply IH.
    + exfalso. destruct D as (m1 & E1 & D). apply D. eapply (rnm_shallow m1 _ 7 (rnm_reserve_md m u en m1 HM E1)); [lia|done].
  - destruct H as (H1 & H3 & H). pose proof HM as [HR _]. destruct (mop_run_ok ord (MPlus st en c) m u Hord HR) as [(m' & E & _)|[_ D]]; [done| |].
    + pose proof (mop_run_md ord (MPlus st en c) m u m' Hord HM H1 E) as HM'. cbn [mop_run] in E. rewrite E. cbn [rbind]. by eapply IH.
    + exfalso. destruct D as (m1 & E1 & D). apply D. eapply (rnm_shallow m1 _ 7 (rnm_reserve_md m u en m1 HM E1)); [lia|done].
  - pose proof HM as [HR _]. rewrite (rnm_get_ok m u i HR). cbn [rbind]. by eapply IH.
  - pose proof HM as [HR _]. rewrite (rnm_len_ok m u HR). by eapply IH.
  - pose proof HM as [HR _]. destruct (rnm_iter_ok m u HR) as (ps & -> & G). { eapply (rnm_shallow m _ 9 HM); [lia|]. etrans; [exact Hl|]. apply Nat.pow_le_mono_r; lia. }
    cbn [rbind]. eapply IH; [exact HM|]. by apply H.
  - destruct H as (H1 & H2 & H3 & H). pose proof HM as [HR _]. destruct (rnm_drain_ok m u st en HR H1 H2 H3) as [(ps & m' & E & _ & G)|[_ D]].
    + assert (mop_run ord (MDrain st en) m = Ok m') as E' by (cbn [mop_run]; rewrite E; done).
      pose proof (mop_run_md ord (MDrain st en) m u m' Hord HM (conj H1 (conj H2 H3)) E') as HM'. rewrite E. cbn [rbind]. eapply IH; [exact HM'|]. by apply H.
    + exfalso. apply D. eapply (rnm_shallow m u 7 HM); [lia|done].
Qed.
Theorem rnm_prog_new p Q : arr_wp (5 ^ 7) p Q [] -> exists a, rnm_prog p rnm_new = Ok a /\ Q a.
Proof using Hord. apply rnm_prog_ok, rnm_new_md. Qed.
End prog.

(** ** integration tests: [n] stands for the 100 there *)
Section tests.
Notation mp := (mprog unit).
Definition a_get (i : nat) (o : option Z) (p : mp) : mp := PGet i (fun x => if decide (x = o) then p else PFail).
Fixpoint a_gets (is : list nat) (f : nat -> option Z) (p : mp) : mp := match is with [] => p | i :: is => a_get i (f i) (a_gets is f p) end.
(** basic — integration.rs:8-24 *)
Definition it_basic : mp :=
  PIns 1 10 0 (a_get 0 None (a_get 7 (Some 0%Z) (a_get 8 (Some 0%Z) (a_get 9 (Some 0%Z) (a_get 10 None (PIns 2 8 1
    (a_get 1 (Some 0%Z) (a_get 2 (Some 1%Z) (a_get 7 (Some 1%Z) (a_get 8 (Some 0%Z) (a_get 9 (Some 0%Z) (a_get 10 None (PDone tt))))))))))))).
(** for i in 0..n {range_map.insert(i..i + 1, i)} *)
Fixpoint p_fill (is : list nat) (p : mp) : mp := match is with [] => p | i :: is => PIns i (i + 1) (Z.of_nat i) (p_fill is p) end.
(** write_buffer_get_item — integration.rs:26-42 *)
Definition it_get_item (n : nat) (c : Z) : mp :=
  p_fill (seq 0 n) (a_gets (seq 0 n) (fun i => Some (Z.of_nat i)) (a_get n None (PIns 0 n c (a_get n None (a_gets (seq 0 n) (fun _ => Some c) (PDone tt)))))).
(** write_buffer_iter — integration.rs:44-59; [k] is the 50, [c] the value 100 there *)
Definition it_iter (n k : nat) (c : Z) : mp :=
  p_fill (seq 0 n) (PIns k n c (PIter (fun ps =>
    if forallb (fun '(a, b, v) => if decide (a < k) then bool_decide (v = Z.of_nat a) else bool_decide (v = c)) ps then PDone tt else PFail))).
(** write_buffer_drain — integration.rs:61-76; [k1], [k2], [st] are the 50, 80, 25 *)
Definition it_drain (n k1 k2 st : nat) (c : Z) : mp :=
  p_fill (seq 0 n) (PIns k1 k2 c (PDrain st n (fun ps =>
    if forallb (fun '(a, b, v) => if decide (a < k1 \/ k2 <= a) then bool_decide (v = Z.of_nat a) else bool_decide (v = c)) ps then PDone tt else PFail))).
(** range_plus — integration.rs:78-94; [k], [en] are the 50, 110 *)
Definition it_plus (n k en : nat) (c : Z) : mp :=
  p_fill (seq 0 n) (PPlus k en c (PIter (fun ps =>
    if forallb (fun '(a, b, v) => bool_decide (a < n) && if decide (a < k) then bool_decide (v = Z.of_nat a) else bool_decide (v = (Z.of_nat a + c)%Z)) ps then PDone tt else PFail))).

Definition MPass (p : mp) (u : list (option Z)) : Prop := arr_wp (5 ^ 7) p (fun _ => True) u.
Lemma mpass ord p : (forall l, ord l ≡ₚ l) -> MPass p [] -> rnm_prog ord p rnm_new = Ok tt.
Proof. intros Hord H. by destruct (rnm_prog_new ord Hord p _ H) as ([] & E & _). Qed.
(** the array of length [n] with the values [f], then [j] entries without value *)
Definition arr (n : nat) (f : nat -> Z) (j : nat) : list (option Z) := (Some <$> (f <$> seq 0 n)) ++ replicate j None.
Lemma arr_len n f j : length (arr n f j) = n + j.
Proof. unfold arr. by rewrite app_length, replicate_length, !fmap_length, seq_length. Qed.
Lemma arr_lookup n f j i : arr n f j !! i = if decide (i < n) then Some (Some (f i)) else if decide (i < n + j) then Some None else None.
Proof.
  unfold arr. case_decide as Hi.
  - rewrite lookup_app_l by (rewrite !fmap_length, seq_length; lia). rewrite !list_lookup_fmap, lookup_seq_lt by lia. done.
  - rewrite lookup_app_r; rewrite !fmap_length, seq_length; [|lia]. case_decide; [apply lookup_replicate_2; lia|]. apply lookup_ge_None. rewrite replicate_length. lia.
Qed.
Lemma mp_done p u : length u <= 5 ^ 7 -> p = PDone tt -> MPass p u.
Proof. by intros ? ->. Qed.
Lemma mp_len p u : MPass p u -> length u <= 5 ^ 7.
Proof. by destruct p; intros [? ?]. Qed.
Lemma mp_get i o p u : mjoin (u !! i) = o -> MPass p u -> MPass (a_get i o p) u.
Proof. intros Ho H. split; [by eapply mp_len|]. by rewrite decide_True. Qed.
Lemma mp_gets is f p u : (forall i, i ∈ is -> mjoin (u !! i) = f i) -> MPass p u -> MPass (a_gets is f p) u.
Proof. induction is as [|i is IH]; intros Hf H; cbn [a_gets]; [done|]. apply mp_get; [apply Hf; left|]. apply IH; [|done]. intros ? ?. apply Hf. by right. Qed.
Lemma fill_lookup u st en v i : st <= en -> en <= length u -> arr_fill u st en v !! i = if decide (st <= i < en) then Some (Some v) else u !! i.
Proof.
  intros H1 H2. unfold arr_fill. case_decide as Hi.
  - rewrite lookup_app_r; rewrite take_length; [|lia]. rewrite lookup_app_l by (rewrite replicate_length; lia). apply lookup_replicate_2. lia.
  - destruct (decide (i < st)).
    + rewrite lookup_app_l by (rewrite take_length; lia). by apply lookup_take.
    + rewrite lookup_app_r; rewrite take_length; [|lia]. rewrite lookup_app_r; rewrite replicate_length; [|lia]. rewrite lookup_drop. f_equal. lia.
Qed.
Lemma map_lookup g u st en i : st <= en -> en <= length u -> arr_map g u st en !! i = if decide (st <= i < en) then g <$> u !! i else u !! i.
Proof.
  intros H1 H2. unfold arr_map. assert (length (drop st (take en u)) = en - st) as Hl by (rewrite drop_length, take_length; lia). case_decide as Hi.
  - rewrite lookup_app_r; rewrite take_length; [|lia]. rewrite lookup_app_l by (rewrite map_length, Hl; lia).
    etrans; [apply (list_lookup_fmap g)|]. rewrite lookup_drop, lookup_take by lia. do 2 f_equal. lia.
  - destruct (decide (i < st)).
    + rewrite lookup_app_l by (rewrite take_length; lia). by apply lookup_take.
    + rewrite lookup_app_r; rewrite take_length; [|lia]. rewrite lookup_app_r; rewrite map_length, Hl; [|lia]. rewrite lookup_drop. f_equal. lia.
Qed.
Lemma reserve_arr n f j en : arr_reserve (arr n f j) en = arr n f (if decide (n + j < en) then en - n + 10 else j).
Proof.
  unfold arr_reserve. rewrite arr_len. case_decide; [|done]. unfold arr. rewrite <-app_assoc, <-replicate_add. do 2 f_equal. lia.
Qed.
Lemma arr_ext n f g j : (forall i, i < n -> f i = g i) -> arr n f j = arr n g j.
Proof. intros H. apply list_eq. intros i. rewrite !arr_lookup. case_decide; [|done]. by rewrite H. Qed.
(** writing [st .. en) where it leaves no hole *)
Lemma fill_arr n f j st en v : st <= en -> st <= n -> en <= n + j ->
  arr_fill (arr n f j) st en v = arr (Nat.max n en) (fun i => if decide (st <= i < en) then v else f i) (n + j - Nat.max n en).
Proof.
  intros H1 H2 H3. apply list_eq. intros i. rewrite fill_lookup by (rewrite ?arr_len; lia). rewrite !arr_lookup.
  repeat case_decide; try done; try lia.
Qed.
Lemma plus_arr n f j st en c : st <= en -> en <= n + j ->
  arr_map (fmap (fun x => (x + c)%Z)) (arr n f j) st en = arr n (fun i => if decide (st <= i < en) then (f i + c)%Z else f i) j.
Proof.
  intros H1 H3. apply list_eq. intros i. rewrite map_lookup by (rewrite ?arr_len; lia). rewrite !arr_lookup.
  repeat case_decide; try done; try lia.
Qed.
(** filling: after [i] insertions the array has the values 0 .. i-1 and at most 10 further entries *)
Lemma mp_fill p n : forall i j, i + n + 10 <= 5 ^ 7 -> j <= 10 ->
  (forall j', j' <= 10 -> MPass p (arr (i + n) Z.of_nat j')) -> MPass (p_fill (seq i n) p) (arr i Z.of_nat j).
Proof.
  induction n as [|n IH]; intros i j Hl Hj Hp; cbn [seq p_fill]; [rewrite Nat.add_0_r in Hp; by apply Hp|].
  split; [rewrite arr_len; lia|]. split; [lia|]. split; [left; lia|]. rewrite reserve_arr. set (j1 := if decide _ then _ else _).
  assert (1 <= j1 <= 11) as Hj1 by (subst j1; case_decide; lia). split; [rewrite arr_len; lia|]. rewrite fill_arr by lia.
  rewrite Nat.max_r by lia. rewrite (arr_ext _ _ Z.of_nat). 2:{ intros a Ha. case_decide; [f_equal; lia|done]. }
  rewrite (Nat.add_1_r i) in *. apply IH; [lia|lia|]. intros j' Hj'. replace (S i + n) with (i + S n) by lia. by apply Hp.
Qed.
Lemma mp_fill0 p n : n + 10 <= 5 ^ 7 -> (forall j, j <= 10 -> MPass p (arr n Z.of_nat j)) -> MPass (p_fill (seq 0 n) p) [].
Proof. intros Hl Hp. apply (mp_fill p n 0 0); [lia|lia|done]. Qed.
(** ranges without gaps: the value of a range is the entry at its start *)
Lemma gapless_start i ps w : Gapless i ps w -> forall a b v, (a, b, v) ∈ ps -> i <= a /\ w !! (a - i) = Some v.
Proof.
  induction 1 as [i|i b v ps w Hb G IH]; intros a b' v' Hin; [by apply elem_of_nil in Hin|]. apply elem_of_cons in Hin as [[= -> -> ->]|Hin].
  - split; [lia|]. rewrite Nat.sub_diag. replace (b - i) with (S (b - i - 1)) by lia. done.
  - destruct (IH a b' v' Hin) as [H1 H2]. split; [lia|]. rewrite lookup_app_r; rewrite replicate_length; [|lia]. rewrite <-H2. f_equal. lia.
Qed.
Lemma omap_arr n f j : omap id (arr n f j) = f <$> seq 0 n.
Proof.
  unfold arr. rewrite omap_app, omap_id_replicate, app_nil_r. generalize (f <$> seq 0 n) as w. induction w as [|x w IH]; [done|]. cbn. by rewrite IH.
Qed.
Lemma iter_arr n f j ps (P : nat * nat * Z -> bool) : Gapless 0 ps (omap id (arr n f j)) -> (forall a b, a < n -> P (a, b, f a) = true) -> forallb P ps = true.
Proof.
  rewrite omap_arr. intros G HP. apply forallb_forall. intros [[a b] v] Hin. apply elem_of_list_In in Hin.
  destruct (gapless_start _ _ _ G a b v Hin) as [_ H]. rewrite Nat.sub_0_r, list_lookup_fmap in H. destruct (decide (a < n)) as [Ha|Ha].
  - rewrite lookup_seq_lt in H by done. injection H as <-. by apply HP.
  - rewrite lookup_seq_ge in H by lia. done.
Qed.
Lemma drain_arr n f j st en ps (P : nat * nat * Z -> bool) : st <= en -> en <= n -> Gapless st ps (omap id (drop st (take en (arr n f j)))) ->
  (forall a b, st <= a < en -> P (a, b, f a) = true) -> forallb P ps = true.
Proof.
  intros H1 H2 G HP. assert (drop st (take en (arr n f j)) = arr (en - st) (fun i => f (st + i)) 0) as E.
  { apply list_eq. intros i. rewrite lookup_drop, arr_lookup. case_decide as Hi.
    - rewrite lookup_take by lia. rewrite arr_lookup, decide_True by lia. done.
    - rewrite decide_False by lia. apply lookup_take_ge. lia. }
  rewrite E, omap_arr in G. apply forallb_forall. intros [[a b] v] Hin. apply elem_of_list_In in Hin.
  destruct (gapless_start _ _ _ G a b v Hin) as [Ha H]. rewrite list_lookup_fmap in H. destruct (decide (a - st < en - st)) as [Hb|Hb].
  - rewrite lookup_seq_lt in H by done. cbn in H. injection H as <-. replace (st + (a - st)) with a by lia. apply HP. lia.
  - rewrite lookup_seq_ge in H by lia. done.
Qed.
Context (ord : list aidx -> list aidx) (Hord : forall l, ord l ≡ₚ l).
Theorem it_get_item_pass n c : 0 < n -> n + 10 <= 5 ^ 7 -> rnm_prog ord (it_get_item n c) rnm_new = Ok tt.
Proof using Hord.
  intros H0 Hl. apply mpass; [done|]. apply mp_fill0; [done|]. intros j Hj.
  apply mp_gets. { intros i Hi%elem_of_seq. rewrite arr_lookup, decide_True by lia. done. }
  apply mp_get. { rewrite arr_lookup, decide_False by lia. by case_decide. }
  split; [rewrite arr_len; lia|]. split; [lia|]. split; [by left|]. rewrite reserve_arr, decide_False by lia. split; [rewrite arr_len; lia|].
  rewrite fill_arr, Nat.max_id by lia. apply mp_get. { rewrite arr_lookup, decide_False by lia. by case_decide. }
  apply mp_gets. { intros i Hi%elem_of_seq. rewrite arr_lookup, decide_True, decide_True by lia. done. }
  apply mp_done; [rewrite arr_len; lia|done].
Qed.
Theorem it_iter_pass n k c : 0 < n -> k <= n -> n + 10 <= 5 ^ 7 -> rnm_prog ord (it_iter n k c) rnm_new = Ok tt.
Proof using Hord.
  intros H0 Hk Hl. apply mpass; [done|]. apply mp_fill0; [done|]. intros j Hj.
  split; [rewrite arr_len; lia|]. split; [lia|]. split; [by left|]. rewrite reserve_arr, decide_False by lia. split; [rewrite arr_len; lia|].
  rewrite fill_arr, Nat.max_id by lia. split; [rewrite arr_len; lia|]. intros ps G. rewrite (iter_arr _ _ _ _ _ G).
  - apply mp_done; [rewrite arr_len; lia|done].
  - intros a b Ha. repeat case_decide; try lia; by apply bool_decide_eq_true.
Qed.
Theorem it_drain_pass n k1 k2 st c : k1 <= k2 -> k2 <= n -> st < n -> n + 10 <= 5 ^ 7 -> rnm_prog ord (it_drain n k1 k2 st c) rnm_new = Ok tt.
Proof using Hord.
  intros H1 H2 Hs Hl. apply mpass; [done|]. apply mp_fill0; [done|]. intros j Hj.
  split; [rewrite arr_len; lia|]. split; [lia|]. split. { right. intros E. apply (f_equal length) in E. rewrite arr_len in E. cbn in E. lia. }
  rewrite reserve_arr, decide_False by lia. split; [rewrite arr_len; lia|].
  rewrite fill_arr by lia. rewrite Nat.max_l by lia. split; [rewrite arr_len; lia|]. split; [lia|]. split; [rewrite arr_len; lia|]. split; [rewrite arr_len; lia|].
  intros ps G. rewrite (drain_arr _ _ _ st n ps _ (Nat.lt_le_incl _ _ Hs) (le_n n) G).
  - apply mp_done; [|done]. rewrite app_length, take_length, drop_length, arr_len. lia.
  - intros a b Ha. repeat case_decide; try lia; by apply bool_decide_eq_true.
Qed.
Theorem it_plus_pass n k en c : k <= en -> n <= en -> en + 10 <= 5 ^ 7 -> rnm_prog ord (it_plus n k en c) rnm_new = Ok tt.
Proof using Hord.
  intros H1 H2 Hl. apply mpass; [done|]. apply mp_fill0; [lia|]. intros j Hj.
  split; [rewrite arr_len; lia|]. split; [lia|]. rewrite reserve_arr. set (j1 := if decide _ then _ else _).
  assert (en <= n + j1 /\ n + j1 <= 5 ^ 7) as Hj1 by (subst j1; case_decide; lia). split; [rewrite arr_len; lia|].
  rewrite plus_arr by lia. split; [rewrite arr_len; lia|]. intros ps G. rewrite (iter_arr _ _ _ _ _ G).
  - apply mp_done; [rewrite arr_len; lia|done].
  - intros a b Ha. rewrite bool_decide_eq_true_2 by done. repeat case_decide; try lia; by apply bool_decide_eq_true.
Qed.
Theorem it_basic_pass : rnm_prog ord it_basic rnm_new = Ok tt.
Proof using Hord.
  apply mpass; [done|]. assert (20 <= 5 ^ 7) as H20 by (etrans; [|apply (Nat.pow_le_mono_r 5 2 7); lia]; cbn; lia).
  assert (forall n, n <= 20 -> n <= 5 ^ 7) as HL by (intros n Hn; etrans; [exact Hn|exact H20]). clear H20.
  assert (forall u : list (option Z), (length u <=? 20) = true -> length u <= 5 ^ 7) as HU by (intros u Hu; apply HL; by apply Nat.leb_le).
  unfold it_basic. split; [by apply (HU [])|]. split; [lia|]. split; [left; lia|]. split; [apply (HU (arr_reserve [] 10)); reflexivity|].
  set (u := arr_fill _ _ _ _). vm_compute in u. subst u. do 5 (apply mp_get; [reflexivity|]).
  split; [by apply HU|]. split; [lia|]. split; [left; lia|]. split; [apply HU; reflexivity|].
  set (u := arr_fill _ _ _ _). vm_compute in u. subst u. do 6 (apply mp_get; [reflexivity|]). apply mp_done; [by apply HU|done].
Qed.
End tests.
