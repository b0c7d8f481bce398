(** Demo6.v — concrete cases for iter_with_filter and from_iter. *)
From Verif Require Export Demo5 Filter FromIter.

(** accept what holds at least three bytes; offsets are byte positions *)
Definition dfilt (c : Cache RT) : bool * Z := ((3 <=? c)%Z, c).
Lemma zsum_nonneg (ys : list (nat * Elem RT)) : (0 <= zsum (map (fun x => @get_elem_cache RT (snd x)) ys))%Z.
Proof. induction ys as [|[l e] ys IH]; cbn [map]; [cbn; lia|]. rewrite zsum_cons. assert (0 <= @get_elem_cache RT e)%Z by (cbn; lia). cbn [snd]. lia. Qed.
Lemma dfilt_law : FiltLaw RL Z.add dfilt (evalid RL).
Proof.
  constructor.
  - intros ys l e _ Hin H. unfold dfilt in *. cbn [fst] in *. apply Z.leb_le in H. apply Z.leb_le. unfold agg. cbn [summ RL RopeLaw].
    apply elem_of_list_split in Hin as (A & Z1 & ->). rewrite map_app, zsum_app. cbn [map snd]. rewrite zsum_cons.
    pose proof (zsum_nonneg A). pose proof (zsum_nonneg Z1). lia.
  - intros ys r _ _. unfold dfilt. cbn [snd]. unfold agg. cbn [summ RL RopeLaw]. revert r.
    induction ys as [|[l e] ys IH]; intros r; cbn [map fold_left snd]; [cbn; lia|]. rewrite zsum_cons, <- IH. lia.
Qed.
Definition dhits : list (Z * list nat) :=
  [(0%Z, [1; 2; 3; 4]); (4%Z, [10; 10; 10; 10]); (15%Z, [8; 8; 8]); (22%Z, [70; 70; 70; 70]); (26%Z, [70; 71; 72])].
Lemma demo_filter : exists (t : btree RT) (xs : list (nat * Elem RT)), Tree RL t xs /\ length xs = 15 /\ FiltLaw RL Z.add dfilt (evalid RL) /\
  map (fun x => (fst x, to_vec (snd x))) (hits Z.add dfilt 0%Z xs) = dhits.
Proof.
  destruct (reach_ok RL demo_hist demo_hist_ok) as (t & xs & E & T & _). exists t, xs. split; [exact T|].
  assert (H : (let? t := run_ops demo_hist bt_new in Ok (length (elems t), map (fun x => (fst x, to_vec (snd x))) (hits Z.add dfilt 0%Z (elems t)))) = Ok (15, dhits)).
  { vm_compute. reflexivity. }
  rewrite E in H. cbn [rbind] in H. apply Ok_inj, pair_inj in H as [H1 H2]. rewrite (Tree_elems RL t xs T) in H1, H2. split; [exact H1|]. split; [exact dfilt_law|exact H2].
Qed.

(** twenty-eight elements: three nodes below the root *)
Lemma demo_from : Forall (evalid RL) (dgb ++ dgb : list (Elem RT)) /\ length (dgb ++ dgb) = 28 /\
  (let? t := from_iter (B := RT) (dgb ++ dgb) in Ok (depth t, check t, map (fun x => (fst x, to_vec (snd x))) (elems t))) =
  Ok (Ok 2, Ok tt, zip (seq 0 28) (dseq ++ dseq)).
Proof. split; [apply Forall_app; split; exact dgb_valid|]. split; [reflexivity|vm_compute; reflexivity]. Qed.
