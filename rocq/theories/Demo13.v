(** Demo13.v — concrete runs of the lazy iterators. *)
From Verif Require Export Demo6 Lazy.

(** a filter that counts its calls and refuses every third node it is asked about *)
Definition cfilt (s : nat) (c : Cache RT) : nat * (bool * Z) := (S s, (negb (s mod 3 =? 2), c)).
Definition couts : list (Z * list nat) :=
  [(4%Z, [10; 11; 12]); (7%Z, [20; 20; 20; 20]); (14%Z, [30; 30; 30; 30]); (18%Z, [30; 31; 32]); (25%Z, [40; 41; 42]);
   (28%Z, [50; 50; 50; 50]); (35%Z, [60; 60; 60; 60]); (39%Z, [60; 61; 62]); (46%Z, [70; 71; 72])].
Lemma demo_lazy_filter : exists (t : btree RT) (xs : list (nat * Elem RT)) s' out, Tree RL t xs /\ length xs = 14 /\
  iter_with_filter 0%Z Z.add cfilt t 0 = Ok (s', out) /\ s' = 16 /\ map (fun x => (fst x, to_vec (snd x))) out = couts.
Proof.
  destruct demo_tree as (t & E & T & _ & _ & _ & Hx).
  destruct (t_filter_state RL 0%Z Z.add cfilt t (elems t) 0 T) as (s' & out & E' & _). exists t, (elems t), s', out.
  split; [exact T|]. split; [apply (f_equal length) in Hx; rewrite map_length in Hx; exact Hx|]. split; [exact E'|].
  assert (H : (let? t := push_all (B := RT) bt_new dgb in let? (s', out) := iter_with_filter 0%Z Z.add cfilt t 0 in Ok (s', map (fun x => (fst x, to_vec (snd x))) out)) = Ok (16, couts)).
  { vm_compute. reflexivity. }
  rewrite E in H. cbn [rbind] in H. rewrite E' in H. cbn [rbind] in H. apply Ok_inj, pair_inj in H. exact H.
Qed.
(** sixteen [next] calls on the iterator over fourteen chunks, and on a range of three of them *)
Lemma demo_lazy_iter :
  (let? t := push_all (B := RT) bt_new dgb in let? s := iter_start t in let? (os, _) := nexts (iter_next t) 16 s in Ok (map (option_map to_vec) os)) =
  Ok (map Some dseq ++ [None; None]).
Proof. vm_compute. reflexivity. Qed.
Lemma demo_lazy_range :
  (let? t := push_all (B := RT) bt_new dgb in let? s := range_start_ t (mkCur 4 1) (mkCur 6 0) in
   let? (os, _) := nexts (range_next t (mkCur 4 1) (mkCur 6 0) false) 3 s in Ok (map (option_map (fun x : elem_slice (B := RT) => (to_vec (es_elem x : gbuf), es_start x, es_end x))) os)) =
  Ok [Some ([30; 30; 30; 30], Some 1, None); Some ([30; 31; 32], None, None); None].
Proof. vm_compute. reflexivity. Qed.
