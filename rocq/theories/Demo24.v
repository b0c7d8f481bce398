(** Demo24.v — a RangeNumMap program meeting the hypotheses of C63. *)
From Verif Require Export RnmProg.
(** writes two ranges, drains from the length read minus 9 on, reads the length and an entry *)
Definition pdemo : mprog (nat * option Z) :=
  PIns 0 3 9 (PIns 3 5 2 (PGet 4 (fun o => match o with Some 2%Z => PLen (fun n => PDrain (n - 9) n (fun ps =>
    if forallb (fun '(a, b, v) => bool_decide (v = 2%Z)) ps then PLen (fun k => PGet 2 (fun x => PDone (k, x))) else PFail)) | _ => PFail end))).
Lemma pdemo_ok : arr_wp (5 ^ 7) pdemo (fun a => a = (4, Some 9%Z)) [] /\ rnm_prog (fun l => l) pdemo rnm_new = Ok (4, Some 9%Z).
Proof.
  split; [|vm_compute; reflexivity]. assert (20 <= 5 ^ 7) as H20 by (etrans; [|apply (Nat.pow_le_mono_r 5 2 7); lia]; cbn; lia).
  assert (forall u : list (option Z), (length u <=? 20) = true -> length u <= 5 ^ 7) as HU by (intros u Hu%Nat.leb_le; by etrans; [exact Hu|]). clear H20.
  unfold pdemo. split; [by apply (HU [])|]. split; [lia|]. split; [left; lia|]. split; [apply HU; reflexivity|].
  set (u := arr_fill _ _ _ _). vm_compute in u. subst u. split; [by apply HU|]. split; [lia|]. split; [left; lia|]. split; [apply HU; reflexivity|].
  set (u := arr_fill _ _ _ _). vm_compute in u. subst u. split; [by apply HU|]. cbn [lookup list_lookup mjoin option_join].
  split; [by apply HU|]. cbn [length]. split; [by apply HU|]. cbn [Nat.sub]. split; [lia|]. split; [cbn [length]; lia|]. split; [cbn [length]; lia|].
  intros ps G. assert (forallb (fun '(a, b, v) => bool_decide (v = 2%Z)) ps = true) as ->.
  { apply forallb_forall. intros [[a b] v] Hin. apply elem_of_list_In in Hin. destruct (gapless_start _ _ _ G a b v Hin) as [_ H].
    cbn [take drop omap list_omap id] in H. destruct (a - 4) as [|k]; cbn in H; [injection H as <-; by apply bool_decide_eq_true|by destruct k]. }
  cbn [take drop app]. split; [by apply HU|]. split; [by apply HU|]. split; [by apply HU|]. reflexivity.
Qed.
Lemma it_demo : rnm_prog (fun l => l) (it_drain 14 5 9 3 77) rnm_new = Ok tt /\ rnm_prog (fun l => l) (it_plus 14 5 17 77) rnm_new = Ok tt.
Proof. split; vm_compute; reflexivity. Qed.
