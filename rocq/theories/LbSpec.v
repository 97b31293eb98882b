(* Specification for C25: the contents the command log files must get, independent of buffering. *)
From Verif Require Import Base LbModel.
Open Scope N_scope.

(* Normal: no checkpoint; Active: a checkpoint is scanning, records may be written to both files;
   Switching: the scan succeeded, everything from now on belongs to the new file only;
   Failed: the scan failed, the new file is not closed yet. *)
Inductive mode := Normal | Active | Switching | Failed.

(* cur: what the log file in use must finally contain; next: the same for the file of the running
   checkpoint; old: what the previous file must contain at the end of its use *)
Record want := { w_cur : bytes; w_next : bytes; w_old : bytes; w_mode : mode }.

(* the effect of a step; only steps of the commands and of the checkpoint matter, flushing does not.
   [done]: the write of the record was accepted *)
Definition wstep (o : lop) (done : bool) (w : want) : want :=
  match o with
  | Write r d =>
      if done then {| w_cur := w_cur w ++ r; w_next := if d then w_next w ++ r else w_next w; w_old := w_old w; w_mode := w_mode w |}
      else w
  | Open => {| w_cur := w_cur w; w_next := []; w_old := []; w_mode := Active |}
  | Complete true => {| w_cur := w_next w; w_next := []; w_old := w_cur w; w_mode := Switching |}
  | Complete false => {| w_cur := w_cur w; w_next := []; w_old := []; w_mode := Failed |}
  | Close => {| w_cur := w_cur w; w_next := []; w_old := []; w_mode := Normal |}
  | _ => w
  end.

Section Sizes.
  Variable SZ FQ : N.
  Definition accepted (o : lop) (s : lb) : bool := match o with Write r d => snd (try_write SZ FQ r d s) | _ => true end.

  (* places used in the queue of flush requests *)
  Definition used (s : lb) : N := (q_end (b_que s) + FQ - q_bgn (b_que s)) mod FQ.

  (* the flusher is about to write data to both files *)
  Definition flying (s : lb) : bool :=
    match b_ph s with Picked n d _ | Ready n d => (0 <? n) && d | _ => false end.

  (* the steps the rest of the server may take: records are not empty, both files are written only
     while a checkpoint scans, a checkpoint starts when the previous one is finished
     (checkpoint.c 330-339) and the flusher does not still hold data of a failed one, ends once, and
     closes its file after a failure; the queue of flush requests (6553600 places) is not full *)
  Definition allowed (o : lop) (s : lb) (w : want) : Prop :=
    match o with
    | Write r d => r <> [] /\ (d = true -> w_mode w = Active) /\ used s + (N.of_nat (length r)) / AUTO + 3 < FQ /\ N.of_nat (length r) < SZ
    | Open => (w_mode w = Normal \/ (w_mode w = Switching /\ f_next (b_file s) = None)) /\ flying s = false
    | Complete _ => w_mode w = Active /\ used s + 1 < FQ
    | Close => w_mode w = Failed
    | _ => True
    end.

  Fixpoint wrun (l : list lop) (s : lb) (w : want) : want :=
    match l with [] => w | o :: l' => wrun l' (lstep SZ FQ o s) (wstep o (accepted o s) w) end.
  Fixpoint lawful (l : list lop) (s : lb) (w : want) : Prop :=
    match l with [] => True | o :: l' => allowed o s w /\ lawful l' (lstep SZ FQ o s) (wstep o (accepted o s) w) end.
End Sizes.

Definition w0 (old : bytes) : want := {| w_cur := old; w_next := []; w_old := []; w_mode := Normal |}.

Definition prefix (a b : bytes) : Prop := exists c, a ++ c = b.

(* content of the files *)
Definition cur_file (s : lb) : bytes := f_data (b_file s) (f_fd (b_file s)).
Definition next_file (s : lb) : option bytes := option_map (f_data (b_file s)) (f_next (b_file s)).
Definition prev_file (s : lb) : option bytes := option_map (f_data (b_file s)) (f_prev (b_file s)).

(* nothing waits in the buffer *)
Definition drained (s : lb) : Prop :=
  b_ph s = Idle /\ q_bgn (b_que s) = q_end (b_que s) /\ open_n (b_que s) = 0 /\ q_dw (b_que s) = None.
