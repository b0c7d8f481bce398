(** NoCur.v — insert_many_by_cursor without a cursor: what it does on every intact tree. *)
From Verif Require Export Pos.

Section nocur.
Context {B : BTreeTrait} (L : Lawful B) {U : Type} (F : Flatten L U).
(** the chunks of a list: nothing is lost between them *)
Lemma chunks_concat {A} n (l : list A) : 0 < n -> concat (chunks n l) = l /\ Forall (fun c => 0 < length c <= n) (chunks n l).
Proof.
  intros Hn. unfold chunks. cut (forall f l, length l <= f -> concat (chunks_f f n l) = l /\ Forall (fun c => 0 < length c <= n) (chunks_f (A := A) f n l)); [intros H; by apply H|].
  clear l. induction f as [|f IH]; intros l Hl; [destruct l; [by split; [|constructor]|cbn in Hl; lia]|]. destruct l as [|x l]; [by split; [|constructor]|]. cbn [chunks_f].
  destruct (IH (drop n (x :: l))) as [E1 E2]. { rewrite drop_length. cbn [length] in *. lia. }
  split; [cbn [concat]; rewrite E1; by apply take_drop|]. constructor; [|done]. rewrite take_length. cbn [length]. lia.
Qed.
Lemma create_subtrees_panics (t : btree B) x data : create_subtrees_from_elem t (x :: data) = Panic.
Proof.
  unfold create_subtrees_from_elem, chunks. cbn [length chunks_f take cst_level0]. cbv beta iota zeta delta [ins_in].
  cbn [cst_leaves]. cbv beta iota zeta delta [alloc_leaf_child ins_lf]. cbn [in_nodes leaf_nodes root root_cache].
  unfold get_in. cbn [in_nodes]. unfold a_get, a_insert. cbn. rewrite lookup_insert. done.
Qed.
(** no cursor: nothing for no data, [push] if the data compact to one element, otherwise a panic — on the empty tree because
    create_subtrees_from_elem writes to an index of an empty vector, on other trees by [expect] *)
Theorem no_cursor (t : btree B) xs data : Tree L t xs -> Forall (evalid L) data ->
  match data with
  | [] => insert_many_by_cursor t None data = Ok t
  | [x] => insert_many_by_cursor t None data = (let? (_, t') := push t x in Ok t')
  | _ => exists d, merge_adj data = Ok d /\
      match d with
      | [x] => insert_many_by_cursor t None data = (let? (_, t') := push t x in Ok t')
      | _ => insert_many_by_cursor t None data = Panic
      end
  end.
Proof using F.
  intros T V. destruct data as [|x [|y data]]; [done|done|]. destruct (merge_adj_perm L F (x :: y :: data) V ltac:(done)) as (d & E & _ & Hd & _).
  exists d. split; [done|]. unfold insert_many_by_cursor. rewrite E. cbn [rbind]. destruct d as [|a [|b d]]; [done|done|].
  rewrite (t_is_empty L t xs T). cbn [rbind]. case_bool_decide; [|done]. by rewrite create_subtrees_panics.
Qed.
End nocur.
