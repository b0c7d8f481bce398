(** Demo25.v — concrete cases for C61 and C28. *)
From Verif Require Export UnitTests2 NoCur Refuted.
Lemma tests_demo : ut_from_iter 3 [[104; 101; 108; 108; 111]; []; [119; 111; 114; 108; 100]] = Ok tt /\
  ut_drain 3 11 [[104; 101; 108; 108; 111]; []; [119; 111; 114; 108; 100]] = Ok tt /\ ut_clear 3 [1; 2; 3; 4; 5] [65; 66; 67; 68] = Ok tt /\ ut_from_str 3 [65; 66] = Ok tt.
Proof. split; [|split; [|split]]; vm_compute; reflexivity. Qed.
Lemma no_cursor_demo : (let? d := @merge_adj RT [gbs [1; 1; 1; 1]; gbs [2; 2; 2; 2]] in Ok (length d)) = Ok 2 /\
  match pushes bt_new [[1]; [2; 3; 4; 5]] with Ok t => @insert_many_by_cursor RT t None [gbs [1; 1; 1; 1]; gbs [2; 2; 2; 2]] = Panic | _ => False end.
Proof. split; vm_compute; reflexivity. Qed.
Lemma chunks_demo : chunks 3 [1; 2; 3; 4; 5; 6; 7] = [[1; 2; 3]; [4; 5; 6]; [7]].
Proof. reflexivity. Qed.
