(* Model of the fsync of the command log files and of the group commit: cmdlogfile.c 205-268
   cmdlog_file_sync, cmdlogmgr.c 156-193, 232-266, 361-395.  On top of the log buffer (LbModel.v).
   Every critical section is a step.  A file has a durable length: what fsync has secured; after a
   power failure at least these bytes are there.  fsync does not fail. *)
From Verif Require Import Base LbModel.
Open Scope N_scope.

(* the progress of cmdlog_file_sync, which holds log_fsync_lock *)
Inductive syph :=
| YIdle
| YLsn (F : lsn)                                            (* 216: after cmdlog_get_flush_lsn *)
| YFds (F : lsn) (prev : option N) (fd : N) (next : option N). (* 219-228: after the descriptors have been taken *)

Record sy := { y_lb : lb; y_len : N -> N; y_fs : lsn; y_ph : syph }.

Inductive sop := L (o : lop) | SyncLsn | SyncFds | SyncEnd.

Definition fsync (f : files) (id : option N) (len : N -> N) : N -> N :=
  match id with Some i => upd len i (N.of_nat (length (f_data f i))) | None => len end.

Section Sizes.
  Variable SZ FQ : N.
  Definition ystep (o : sop) (y : sy) : sy :=
    match o with
    | L o => {| y_lb := lstep SZ FQ o (y_lb y); y_len := y_len y; y_fs := y_fs y; y_ph := y_ph y |}
    | SyncLsn =>
        match y_ph y with
        | YIdle => {| y_lb := y_lb y; y_len := y_len y; y_fs := y_fs y; y_ph := YLsn (l_flush (b_lsn (y_lb y))) |}
        | _ => y
        end
    | SyncFds =>
        match y_ph y with
        | YLsn F => let f := b_file (y_lb y) in
            {| y_lb := take_prev (y_lb y); y_len := y_len y; y_fs := y_fs y; y_ph := YFds F (f_prev f) (f_fd f) (f_next f) |}
        | _ => y
        end
    | SyncEnd =>
        match y_ph y with
        | YFds F p fd nx =>
            let f := b_file (y_lb y) in
            let len1 := fsync f p (y_len y) in
            if lsn_gt F (y_fs y) then
              {| y_lb := y_lb y; y_len := fsync f nx (fsync f (Some fd) len1); y_fs := F; y_ph := YIdle |}
            else {| y_lb := y_lb y; y_len := len1; y_fs := y_fs y; y_ph := YIdle |}
        | _ => y
        end
    end.
  Fixpoint yrun (l : list sop) (y : sy) : sy := match l with [] => y | o :: l' => yrun l' (ystep o y) end.
End Sizes.

(* cmdlogfile.c 331-332; the log file read at the start is durable *)
Definition yinit (m : N -> N) (old : bytes) : sy :=
  {| y_lb := linit m old; y_len := fun id => if id =? 0 then N.of_nat (length old) else 0; y_fs := (1, 0); y_ph := YIdle |}.

(* cmdlogmgr.c 171-178 do_cmdlog_get_commit_waiter, 376: the command whose record has log sequence number x
   (the number before the record was written: cmdlogbuf.c 234, 347) is answered when this holds *)
Definition answered (y : sy) (x : lsn) : bool := negb (lsn_le (y_fs y) x).
