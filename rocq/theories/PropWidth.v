(** PropWidth.v — C64: cached lengths in machine integers.

    [WRope h Hh CAP] (IntWidth.v): the trait of the rope with its cache in wrapping integers from -h to h-1; [isize] is h = 2^63
    (2^31 on 32-bit targets).  [w_get_len]: the cast to [usize], modulo 2 h; [wr]: the wrapped number; [tlen xs]: the true total
    length.  [WLaw]: this trait is lawful, so all theorems for lawful traits hold of it, at any length. *)
From Verif Require Import Demo26.

Theorem C64_len h Hh CAP (t : btree (WRope h Hh CAP)) xs : Tree (WLaw h Hh CAP) t xs -> w_get_len h (root_cache t) = tlen xs mod Z.to_nat (2 * h).
Proof. exact (w_root h Hh CAP t xs). Qed.
Print Assumptions C64_len.
(** stored lengths, in every node *)
Theorem C64_caches h Hh CAP (t : btree (WRope h Hh CAP)) xs i n c d ys : Tree (WLaw h Hh CAP) t xs ->
  a_get (in_nodes t) i = Some n -> c ∈ n_children n -> InOrder t (c_arena c) d ys ->
  wz h (c_cache c) = wr h (Z.of_nat (tlen ys)) /\ ((Z.of_nat (tlen xs) < h)%Z -> wz h (c_cache c) = Z.of_nat (tlen ys) /\ tlen ys <= tlen xs).
Proof. exact (fun T => w_caches h Hh CAP t xs T i n c d ys). Qed.
Print Assumptions C64_caches.
(** lookups by position are right as long as the total length fits in a [usize] *)
Theorem C64_lookup h Hh CAP (t : btree (WRope h Hh CAP)) X l e Y k : Tree (WLaw h Hh CAP) t (X ++ (l, e) :: Y) -> tlen (X ++ (l, e) :: Y) < Z.to_nat (2 * h) ->
  k < rle_len e -> query (WFinder h Hh CAP) t (tlen X + k) = Ok (Some (mkQR (mkCur l k) true)).
Proof. exact (fun T => w_query h Hh CAP t _ T X l e Y k eq_refl). Qed.
Print Assumptions C64_lookup.
(** all of this after any history of tree operations; none of them panics because of an overflow *)
Theorem C64_history h Hh CAP (S0 : Type) (os : list (op2 (WRope h Hh CAP) S0)) : valid_ops2 (WLaw h Hh CAP) bt_new os ->
  exists t xs, run_ops2 os bt_new = Ok t /\ Tree (WLaw h Hh CAP) t xs /\ (Shallow t 9 -> check t = Ok tt) /\
    w_get_len h (root_cache t) = tlen xs mod Z.to_nat (2 * h) /\
    (forall X l e Y k, xs = X ++ (l, e) :: Y -> tlen xs < Z.to_nat (2 * h) -> k < rle_len e ->
      query (WFinder h Hh CAP) t (tlen X + k) = Ok (Some (mkQR (mkCur l k) true))).
Proof. exact (w_history h Hh CAP S0 os). Qed.
Print Assumptions C64_history.
(** the bound is needed: with lengths modulo 8 and thirteen leaves of four bytes, position 0 is looked up in the second half of
    an intact tree *)
Theorem C64_bound_needed :
  (let? t := wpush bt_new (replicate 13 (gbs [1; 2; 3; 4])) in let? r := query (WFinder 4 h4 4) t 0 in let? f := first_leaf t in
   let? _ := check t in Ok (f, w_get_len 4 (root_cache t), (fun r => (qr_cursor r, qr_found r)) <$> r)) = Ok (Some 0, 4, Some (mkCur 6 0, true)).
Proof. exact wrap_wrong. Qed.
Print Assumptions C64_bound_needed.
Example C64_example :
  (let? t := wpush bt_new [gbs [1; 2; 3]; gbs [4; 5; 6; 7]] in let? r := query (WFinder 4 h4 4) t 5 in
   let? _ := check t in Ok (w_get_len 4 (root_cache t), (fun r => (qr_cursor r, qr_found r)) <$> r)) = Ok (7, Some (mkCur 1 2, true)) /\
  (let? t := wpush bt_new [gbs [1; 2; 3]; gbs [4; 5; 6; 7]; gbs [8; 9]] in let? r := query (WFinder 4 h4 4) t 8 in
   let? _ := check t in Ok (w_get_len 4 (root_cache t), map (fun x => to_vec (snd x)) (elems t), (fun r => (qr_cursor r, qr_found r)) <$> r)) =
    Ok (1, [[1; 2; 3]; [4; 5; 6; 7]; [8; 9]], Some (mkCur 2 1, true)).
Proof. exact wrap_demo. Qed.
Example C64_history_example : valid_ops2 (WLaw 4 h4 4) bt_new dh_wrap /\ (let? t := run_ops2 dh_wrap bt_new in Ok (length (elems t))) = Ok 13.
Proof. exact dh_wrap_ok. Qed.
