(* Specification for C26: what must be durable. *)
From Verif Require Import Base LbModel LbSpec SyModel.
Open Scope N_scope.

Section Sizes.
  Variable SZ FQ : N.
  (* the steps allowed: those of LbSpec; synchronous mode keeps the previous file until it is synced
     (cmdlogfile.c 183); a failed file is not closed during an fsync (cmdlogfile.c 305); a checkpoint starts
     when the previous file is synced (cmdlogfile.c 196-200); only cmdlog_file_sync takes the previous file *)
  Definition yallowed (o : sop) (y : sy) (w : want) : Prop :=
    match o with
    | L TakePrev => False
    | L (Flush2 async) => async = false
    | L Close => allowed SZ FQ Close (y_lb y) w /\ y_ph y = YIdle
    | L Open => allowed SZ FQ Open (y_lb y) w /\ f_prev (b_file (y_lb y)) = None
    | L o => allowed SZ FQ o (y_lb y) w
    | _ => True
    end.
  Definition ywstep (o : sop) (y : sy) (w : want) : want :=
    match o with L o => wstep o (accepted SZ FQ o (y_lb y)) w | _ => w end.
  Fixpoint ywrun (l : list sop) (y : sy) (w : want) : want :=
    match l with [] => w | o :: l' => ywrun l' (ystep SZ FQ o y) (ywstep o y w) end.
  Fixpoint ylawful (l : list sop) (y : sy) (w : want) : Prop :=
    match l with [] => True | o :: l' => yallowed o y w /\ ylawful l' (ystep SZ FQ o y) (ywstep o y w) end.
End Sizes.

(* what is on disk after a power failure, at least *)
Definition durable (y : sy) (id : N) : bytes := firstn (N.to_nat (y_len y id)) (f_data (b_file (y_lb y)) id).
Definition durable_log (y : sy) : bytes := durable y (f_fd (b_file (y_lb y))).
