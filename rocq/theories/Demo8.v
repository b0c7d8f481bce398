(** Demo8.v — concrete cases for get_elem_mut and update_cache_and_elem_with_filter. *)
From Verif Require Export Demo7 Poke Ucf.

Lemma demo_poke : exists (t : btree RT) (X : list (nat * Elem RT)) (e : Elem RT) (Y : list (nat * Elem RT)), Tree RL t (X ++ (5, e) :: Y) /\ length X = 5 /\ length Y = 8 /\
  @USE_DIFF RT = true /\ evalid RL (gbs [7]) /\ drel RL (@get_elem_cache RT e) (-2)%Z (@get_elem_cache RT (gbs [7])) /\
  evalid RL (gbs [7; 8; 9]) /\ @get_elem_cache RT (gbs [7; 8; 9]) = @get_elem_cache RT e.
Proof.
  destruct demo_mid as (t & X & e & Y & T & _ & _ & HX & HY & _ & He & _). exists t, X, e, Y. split; [exact T|]. split; [exact HX|]. split; [exact HY|].
  split; [reflexivity|]. split; [apply gbs_valid; cbn; lia|]. change (gb_len e = 3) in He. split.
  - cbn [drel RL RopeLaw]. change (@get_elem_cache RT e) with (Z.of_nat (gb_len e)). rewrite He. reflexivity.
  - split; [apply gbs_valid; cbn; lia|]. change (@get_elem_cache RT e) with (Z.of_nat (gb_len e)). rewrite He. reflexivity.
Qed.

(** rewrite the bytes of every chunk of at least three bytes; no length changes *)
Definition u_dr (c : Cache RT) : bool := (3 <=? c)%Z.
Definition u_g (e : Elem RT) : Elem RT := gb_add e 1.
Lemma zsum_in (ys : list (nat * Elem RT)) x : x ∈ ys -> (@get_elem_cache RT (snd x) <= agg RL ys)%Z.
Proof.
  intros (A & Z1 & ->)%elem_of_list_split. unfold agg. cbn [summ RL RopeLaw]. rewrite map_app, zsum_app. cbn [map]. rewrite zsum_cons.
  pose proof (zsum_nonneg A). pose proof (zsum_nonneg Z1). lia.
Qed.
Lemma u_law : UcfLaw RL (fun c => c) u_dr u_g.
Proof.
  constructor.
  - intros [l e] V. unfold hx. cbn [fst snd]. destruct (u_dr _); [by apply gb_add_valid|done].
  - intros ys _ _. unfold agg. f_equal. rewrite map_map. apply map_ext_in. intros [l e] _. unfold hx. cbn [fst snd]. destruct (u_dr _); [|done].
    cbn. unfold gb_len, u_g, gb_add. cbn. by rewrite map_length.
  - intros ys _ _ Hd x Hx. apply zsum_in in Hx. unfold hx, u_dr in *. apply Z.leb_gt in Hd. rewrite (proj2 (Z.leb_gt _ _)); [by destruct x|lia].
Qed.
Definition u_out : list (list nat) := map (map (fun u => u + 100)) dseq.
Lemma demo_ucf : exists (t : btree RT) (xs : list (nat * Elem RT)) t', Tree RL t xs /\ length xs = 14 /\ UcfLaw RL (fun c => c) u_dr u_g /\
  agg RL (map (hx u_dr u_g) xs) = agg RL xs /\
  update_cache_and_elem_with_filter (pfu (fun c => c) u_dr) (pgu u_g) t tt = Ok (tt, t') /\ map (fun x => to_vec (snd x)) (elems t') = u_out.
Proof.
  destruct demo_tree as (t & E & T & _ & _ & _ & Hx).
  assert (H : (let? t := Demo.push_all (B := RT) bt_new dgb in let? (u, t') := update_cache_and_elem_with_filter (pfu (fun c : Cache RT => c) u_dr) (pgu u_g) t tt in
    Ok (u, map (fun x => to_vec (snd x)) (elems t'))) = Ok (tt, u_out)) by (vm_compute; reflexivity).
  rewrite E in H. cbn [rbind] in H. apply rbind_Ok in H as ([u t'] & E' & H). apply Ok_inj, pair_inj in H as [-> H].
  exists t, (elems t), t'. split; [exact T|]. assert (Hl : length (elems t) = 14). { apply (f_equal length) in Hx. rewrite map_length in Hx. exact Hx. }
  split; [exact Hl|]. split; [exact u_law|]. split; [|split; [exact E'|exact H]].
  symmetry. apply (ul_agg _ _ _ _ u_law).
  - intros E0. rewrite E0 in Hl. done.
  - intros [l e] Hin. by apply (tree_valid RL t (elems t) l e T).
Qed.

(** emptying every chunk: callbacks that keep the caches of all children right *)
Definition w_dr (c : Cache RT) : bool := (0 <? c)%Z.
Definition w_g (e : Elem RT) : Elem RT := gb_new 4.
Definition w_nc (_ : Cache RT) : Cache RT := 0%Z.
Lemma w_law : UcfLaw RL w_nc w_dr w_g.
Proof.
  assert (Hz : forall x : nat * Elem RT, @get_elem_cache RT (snd (hx w_dr w_g x)) = 0%Z).
  { intros [l e]. unfold hx, w_dr. cbn [fst snd]. destruct (0 <? @get_elem_cache RT e)%Z eqn:Ez; [done|]. apply Z.ltb_ge in Ez.
    change (@get_elem_cache RT e) with (Z.of_nat (gb_len e)) in *. lia. }
  constructor.
  - intros [l e] V. unfold hx. cbn [fst snd]. destruct (w_dr _); [|done]. split; cbn; [done|lia].
  - intros ys _ _. unfold agg. rewrite map_map. cbn [summ RL RopeLaw]. unfold w_nc. induction ys as [|x ys IH]; [done|]. cbn [map]. etrans; [|symmetry; apply zsum_cons]. rewrite <- IH, Hz. done.
  - intros ys _ _ Hd x Hx. apply zsum_in in Hx. unfold hx, w_dr in *. apply Z.ltb_ge in Hd. rewrite (proj2 (Z.ltb_ge _ _)); [by destruct x|lia].
Qed.
Lemma ucf_root_stale : exists (t t' : btree RT) (xs : list (nat * Elem RT)), Tree RL t xs /\ UcfLaw RL w_nc w_dr w_g /\
  update_cache_and_elem_with_filter (pfu w_nc w_dr) (pgu w_g) t tt = Ok (tt, t') /\
  contents t' = Ok [[]; []] /\ root_cache t' = 6%Z /\ check t' = Panic /\ ~ exists ys, Tree RL t' ys.
Proof.
  destruct (push_all_ok RL [gbs [1; 1]; gbs [2; 2; 2; 2]] bt_new [] (Tree_new RL) (MD_new false)) as (t & ys & E & T & _).
  { repeat constructor; apply gbs_valid; cbn; lia. }
  assert (H : (let? t := Demo.push_all (B := RT) bt_new [gbs [1; 1]; gbs [2; 2; 2; 2]] in
    let? (u, t') := update_cache_and_elem_with_filter (pfu w_nc w_dr) (pgu w_g) t tt in
    Ok (u, (contents t', (root_cache t' : Z, (check t', (depth t', length (elems t'))))))) = Ok (tt, (Ok [[]; []], (6%Z, (@Panic unit, (Ok 1, 2)))))) by (vm_compute; reflexivity).
  rewrite E in H. cbn [rbind] in H. apply rbind_Ok in H as ([u t'] & E' & H). apply Ok_inj, pair_inj in H as [-> H].
  apply pair_inj in H as [H1 H]. apply pair_inj in H as [H2 H]. apply pair_inj in H as [H3 H4]. apply pair_inj in H4 as [H4 H5].
  exists t, t', ys. split; [exact T|]. split; [exact w_law|]. split; [exact E'|]. split; [exact H1|]. split; [exact H2|]. split; [exact H3|].
  intros [zs Tz]. rewrite (Tree_elems RL _ _ Tz) in H5. assert (check t' = Ok tt) as Hc; [|rewrite H3 in Hc; discriminate Hc].
  apply (t_check RL t' zs Tz); [|by right]. apply (shallow_depth RL t' 1 9 zs Tz); [|exact H4|lia]. intros ->. discriminate H5.
Qed.
