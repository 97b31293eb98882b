(* Model of /repo/engines/default/cmdlogbuf.c (the ring buffer of log records, the queue of flush
   requests, the flusher, dual writing during a checkpoint) and of the file handling of
   cmdlogfile.c.  The critical sections of the code are the atomic steps of the model, so every
   list of steps is a schedule of the writer, flusher, checkpoint and fsync threads.
   Waking up and sleeping of threads is not modelled; disk writes do not fail. *)
From Verif Require Import Base.
Open Scope N_scope.

(* cmdlogbuf.c 32 CMDLOG_FLUSH_AUTO_SIZE *)
Definition AUTO : N := 32768.

(* cmdlogrec.h LogSN and LOGSN_IS_LE / LOGSN_IS_GT: file number, offset *)
Definition lsn : Type := N * N.
Definition lsn_le (a b : lsn) : bool := (fst a <? fst b) || ((fst a =? fst b) && (snd a <=? snd b)).
Definition lsn_gt (a b : lsn) : bool := (fst b <? fst a) || ((fst a =? fst b) && (snd b <? snd a)).

(* log_BUFFER: cmdlogbuf.c 45-63; last and dw_end are None for -1; memory is a function *)
Record ring := { r_mem : N -> N; r_head : N; r_tail : N; r_last : option N }.
Record queue := { q_at : N -> N * bool; q_bgn : N; q_end : N; q_dw : option N; q_dwsize : N }.
(* cmdlogbuf.c 78-80: nxt_write_lsn, nxt_flush_lsn, upt_flush_lsn *)
Record lsns := { l_write : lsn; l_flush : lsn; l_upto : lsn }.
(* log_FILE: cmdlogfile.c 33-40; a descriptor is the number of an opened file, f_data its content *)
Record files := { f_data : N -> bytes; f_fd : N; f_next : option N; f_prev : option N;
                  f_size : N; f_nsize : N; f_new : N }.
(* where the holder of log_flush_lock is inside do_log_buff_flush (cmdlogbuf.c 112-177) *)
Inductive phase :=
| Idle
| Picked (n : N) (d : bool) (c : option N)  (* after the first critical section; c: dual_write_size when completing *)
| Ready (n : N) (d : bool)                  (* after the file switch *)
| Written (n : N).                          (* after the file write and the update of nxt_flush_lsn *)
(* bad: an assertion of the code failed *)
Record lb := { b_ring : ring; b_que : queue; b_lsn : lsns; b_file : files; b_ph : phase; b_bad : bool }.

Section Sizes.
  Variable SZ : N.   (* logbuff->size: cmdlogbuf.c 431 *)
  Variable FQ : N.   (* logbuff->fqsz: cmdlogbuf.c 442 *)

  Definition nxt (i : N) : N := if i + 1 =? FQ then 0 else i + 1.
  Definition upd {A} (f : N -> A) (i : N) (x : A) : N -> A := fun j => if j =? i then x else f j.
  Definition bump (q : queue) : queue :=
    {| q_at := q_at q; q_bgn := q_bgn q; q_end := nxt (q_end q); q_dw := q_dw q; q_dwsize := q_dwsize q |}.
  Definition open_n (q : queue) : N := fst (q_at q (q_end q)).
  (* if (fque[fend].nflush > 0) fend++ : cmdlogbuf.c 203-205, 264-266 *)
  Definition close_open (q : queue) : queue := if 0 <? open_n q then bump q else q.

  (* memory [a, a + len) := r ; lrec_write_to_buffer at cmdlogbuf.c 226 *)
  Definition blit (m : N -> N) (a : N) (r : bytes) : N -> N :=
    fun j => if (a <=? j) && (j <? a + N.of_nat (length r)) then nth (N.to_nat (j - a)) r 0 else m j.
  Definition slice (m : N -> N) (a len : N) : bytes := map (fun i => m (a + N.of_nat i)) (seq 0 (N.to_nat len)).

  (* the search for a position, one iteration: cmdlogbuf.c 190-216; the third component is a failed assertion *)
  Definition find_pos (r : ring) (q : queue) (len : N) : ring * queue * bool * bool :=
    if r_head r <=? r_tail r then
      let bad := match r_last r with None => false | Some _ => true end in
      if len <? SZ - r_tail r then (r, q, bad, true)
      else if 0 <? r_head r then
        ({| r_mem := r_mem r; r_head := r_head r; r_tail := 0; r_last := Some (r_tail r) |}, close_open q, bad, len <? r_head r)
      else (r, q, bad, false)
    else
      let bad := match r_last r with None => true | Some _ => false end in
      (r, q, bad, len <? r_head r - r_tail r).

  (* the loop of cmdlogbuf.c 243-255 *)
  Fixpoint enqueue (fuel : nat) (q : queue) (len : N) (d : bool) : queue :=
    match fuel with
    | O => q
    | S f =>
        if len =? 0 then q
        else
          let spare := AUTO - open_n q in
          let spare := if len <=? spare then len else spare in
          let n := open_n q + spare in
          let q1 := {| q_at := upd (q_at q) (q_end q) (n, d); q_bgn := q_bgn q; q_end := q_end q; q_dw := q_dw q; q_dwsize := q_dwsize q |} in
          let q2 := if n =? AUTO then bump q1 else q1 in
          enqueue f q2 (len - spare) d
    end.

  (* cmdlogbuf.c 179-259 do_log_buff_write, one attempt under log_write_lock: true when the record
     is in the buffer; when false the caller flushes and tries again *)
  Definition try_write (rec : bytes) (d : bool) (s : lb) : lb * bool :=
    let len := N.of_nat (length rec) in
    let '(r, q, bad, ok) := find_pos (b_ring s) (b_que s) len in
    let bad := b_bad s || bad || negb (len <? SZ) in
    if ok then
      let r1 := {| r_mem := blit (r_mem r) (r_tail r) rec; r_head := r_head r; r_tail := r_tail r + len; r_last := r_last r |} in
      let q1 := {| q_at := q_at q; q_bgn := q_bgn q; q_end := q_end q; q_dw := q_dw q;
                   q_dwsize := if d then q_dwsize q + len else q_dwsize q |} in
      let l1 := {| l_write := (fst (l_write (b_lsn s)), snd (l_write (b_lsn s)) + len); l_flush := l_flush (b_lsn s); l_upto := l_upto (b_lsn s) |} in
      let q2 := if (0 <? open_n q1) && negb (Bool.eqb (snd (q_at q1 (q_end q1))) d) then bump q1 else q1 in
      let q3 := enqueue (S (S (N.to_nat (len / AUTO)))) q2 len d in
      ({| b_ring := r1; b_que := q3; b_lsn := l1; b_file := b_file s; b_ph := b_ph s; b_bad := bad |}, true)
    else ({| b_ring := r; b_que := q; b_lsn := b_lsn s; b_file := b_file s; b_ph := b_ph s; b_bad := bad |}, false).

  (* cmdlogbuf.c 100-110 do_log_buff_flush_requested *)
  Definition requested (s : lb) : bool := lsn_le (l_flush (b_lsn s)) (l_upto (b_lsn s)).

  (* cmdlogbuf.c 120-147: the first critical section of do_log_buff_flush *)
  Definition flush1 (all : bool) (s : lb) : lb :=
    match b_ph s with
    | Idle =>
        let q := b_que s in
        let '(q1, c) :=
          match q_dw q with
          | Some e => if q_bgn q =? e
                      then ({| q_at := q_at q; q_bgn := q_bgn q; q_end := q_end q; q_dw := None; q_dwsize := 0 |}, Some (q_dwsize q))
                      else (q, None)
          | None => (q, None)
          end in
        let '(q2, n, d, bad) :=
          if negb (q_bgn q1 =? q_end q1) then
            (q1, fst (q_at q1 (q_bgn q1)), snd (q_at q1 (q_bgn q1)), fst (q_at q1 (q_bgn q1)) =? 0)
          else if (0 <? open_n q1) && (all || requested s) then
            (bump q1, open_n q1, snd (q_at q1 (q_end q1)), false)
          else (q1, 0, false, false) in
        let r := b_ring s in
        let r1 :=
          if (0 <? n) && match r_last r with Some l => r_head r =? l | None => false end
          then {| r_mem := r_mem r; r_head := 0; r_tail := r_tail r; r_last := None |} else r in
        {| b_ring := r1; b_que := q2; b_lsn := b_lsn s; b_file := b_file s; b_ph := Picked n d c; b_bad := b_bad s || bad |}
    | _ => s
    end.

  (* cmdlogfile.c 169-189 cmdlog_file_complete_dual_write (asynchronous mode closes the previous file at once) *)
  Definition switch (async : bool) (f : files) : files :=
    match f_next f with
    | Some n => {| f_data := f_data f; f_fd := n; f_next := None; f_prev := if async then None else Some (f_fd f);
                   f_size := f_nsize f; f_nsize := 0; f_new := f_new f |}
    | None => f
    end.
  (* cmdlogbuf.c 149-157 *)
  Definition flush2 (async : bool) (s : lb) : lb :=
    match b_ph s with
    | Picked n d c =>
        match c with
        | Some w =>
            let f := switch async (b_file s) in
            {| b_ring := b_ring s; b_que := b_que s;
               b_lsn := {| l_write := l_write (b_lsn s); l_flush := (fst (l_flush (b_lsn s)) + 1, w); l_upto := l_upto (b_lsn s) |};
               b_file := f; b_ph := Ready n d; b_bad := b_bad s || negb (w =? f_size f) |}
        | None => {| b_ring := b_ring s; b_que := b_que s; b_lsn := b_lsn s; b_file := b_file s; b_ph := Ready n d; b_bad := b_bad s |}
        end
    | _ => s
    end.

  (* cmdlogfile.c 134-166 cmdlog_file_write *)
  Definition fwrite (f : files) (b : bytes) (d : bool) : files :=
    let len := N.of_nat (length b) in
    let f1 := {| f_data := upd (f_data f) (f_fd f) (f_data f (f_fd f) ++ b); f_fd := f_fd f; f_next := f_next f; f_prev := f_prev f;
                 f_size := f_size f + len; f_nsize := f_nsize f; f_new := f_new f |} in
    match f_next f with
    | Some n =>
        if d then {| f_data := upd (f_data f1) n (f_data f1 n ++ b); f_fd := f_fd f1; f_next := f_next f1; f_prev := f_prev f1;
                     f_size := f_size f1; f_nsize := f_nsize f1 + len; f_new := f_new f1 |}
        else f1
    | None => f1
    end.
  (* cmdlogbuf.c 159-165; nothing to do when nflush = 0 *)
  Definition flush3 (s : lb) : lb :=
    match b_ph s with
    | Ready n d =>
        if 0 <? n then
          {| b_ring := b_ring s; b_que := b_que s;
             b_lsn := {| l_write := l_write (b_lsn s); l_flush := (fst (l_flush (b_lsn s)), snd (l_flush (b_lsn s)) + n); l_upto := l_upto (b_lsn s) |};
             b_file := fwrite (b_file s) (slice (r_mem (b_ring s)) (r_head (b_ring s)) n) d; b_ph := Written n; b_bad := b_bad s |}
        else {| b_ring := b_ring s; b_que := b_que s; b_lsn := b_lsn s; b_file := b_file s; b_ph := Idle; b_bad := b_bad s |}
    | _ => s
    end.

  (* cmdlogbuf.c 167-178: the second critical section *)
  Definition flush4 (s : lb) : lb :=
    match b_ph s with
    | Written n =>
        let r := b_ring s in
        let h := r_head r + n in
        let r1 :=
          match r_last r with
          | Some l => if h =? l then {| r_mem := r_mem r; r_head := 0; r_tail := r_tail r; r_last := None |}
                      else {| r_mem := r_mem r; r_head := h; r_tail := r_tail r; r_last := Some l |}
          | None => {| r_mem := r_mem r; r_head := h; r_tail := r_tail r; r_last := None |}
          end in
        let q := b_que s in
        let q1 := {| q_at := upd (q_at q) (q_bgn q) (0, false); q_bgn := nxt (q_bgn q); q_end := q_end q; q_dw := q_dw q; q_dwsize := q_dwsize q |} in
        {| b_ring := r1; b_que := q1; b_lsn := b_lsn s; b_file := b_file s; b_ph := Idle; b_bad := b_bad s |}
    | _ => s
    end.

  (* cmdlogbuf.c 276-287: reset the dual write flags; the loop stops at an empty entry or after one turn *)
  Fixpoint undual (fuel : nat) (f : N -> N * bool) (i bgn : N) : N -> N * bool :=
    match fuel with
    | O => f
    | S k =>
        if 0 <? fst (f i) then
          let f1 := if snd (f i) then upd f i (fst (f i), false) else f in
          if nxt i =? bgn then f1 else undual k f1 (nxt i) bgn
        else f
    end.
  (* cmdlogbuf.c 261-290 do_log_buff_complete_dual_write *)
  Definition complete (ok : bool) (s : lb) : lb :=
    let q := b_que s in
    if ok then
      let q1 := close_open q in
      let bad := match q_dw q with None => false | Some _ => true end in
      {| b_ring := b_ring s;
         b_que := {| q_at := q_at q1; q_bgn := q_bgn q1; q_end := q_end q1; q_dw := Some (q_end q1); q_dwsize := q_dwsize q1 |};
         b_lsn := {| l_write := (fst (l_write (b_lsn s)) + 1, q_dwsize q1); l_flush := l_flush (b_lsn s); l_upto := l_upto (b_lsn s) |};
         b_file := b_file s; b_ph := b_ph s; b_bad := b_bad s || bad |}
    else
      {| b_ring := b_ring s;
         b_que := {| q_at := undual (N.to_nat FQ) (q_at q) (q_bgn q) (q_bgn q); q_bgn := q_bgn q; q_end := q_end q; q_dw := q_dw q; q_dwsize := 0 |};
         b_lsn := b_lsn s; b_file := b_file s; b_ph := b_ph s; b_bad := b_bad s |}.

  (* cmdlogfile.c 270-297 cmdlog_file_open of a new, empty file while another one is in use *)
  Definition fopen (s : lb) : lb :=
    let f := b_file s in
    {| b_ring := b_ring s; b_que := b_que s; b_lsn := b_lsn s;
       b_file := {| f_data := upd (f_data f) (f_new f) []; f_fd := f_fd f; f_next := Some (f_new f); f_prev := f_prev f;
                    f_size := f_size f; f_nsize := f_nsize f; f_new := f_new f + 1 |};
       b_ph := b_ph s; b_bad := b_bad s |}.
  (* cmdlogfile.c 299-321 cmdlog_file_close: next_size is not reset *)
  Definition fclose (s : lb) : lb :=
    let f := b_file s in
    {| b_ring := b_ring s; b_que := b_que s; b_lsn := b_lsn s;
       b_file := {| f_data := f_data f; f_fd := f_fd f; f_next := None; f_prev := f_prev f;
                    f_size := f_size f; f_nsize := f_nsize f; f_new := f_new f |};
       b_ph := b_ph s; b_bad := b_bad s |}.

  (* cmdlogbuf.c 375-389 cmdlog_buff_flush_request *)
  Definition request (u : lsn) (s : lb) : lb :=
    if lsn_le (l_flush (b_lsn s)) u && lsn_le (l_upto (b_lsn s)) u then
      {| b_ring := b_ring s; b_que := b_que s;
         b_lsn := {| l_write := l_write (b_lsn s); l_flush := l_flush (b_lsn s); l_upto := u |};
         b_file := b_file s; b_ph := b_ph s; b_bad := b_bad s |}
    else s.

  (* cmdlogfile.c 216-221: the fsync thread takes over the previous file *)
  Definition take_prev (s : lb) : lb :=
    let f := b_file s in
    {| b_ring := b_ring s; b_que := b_que s; b_lsn := b_lsn s;
       b_file := {| f_data := f_data f; f_fd := f_fd f; f_next := f_next f; f_prev := None;
                    f_size := f_size f; f_nsize := f_nsize f; f_new := f_new f |};
       b_ph := b_ph s; b_bad := b_bad s |}.

  Inductive lop :=
  | Write (rec : bytes) (d : bool)
  | Flush1 (all : bool) | Flush2 (async : bool) | Flush3 | Flush4
  | Open | Complete (ok : bool) | Close
  | Request (u : lsn) | TakePrev.

  Definition lstep (o : lop) (s : lb) : lb :=
    match o with
    | Write r d => fst (try_write r d s)
    | Flush1 a => flush1 a s
    | Flush2 a => flush2 a s
    | Flush3 => flush3 s
    | Flush4 => flush4 s
    | Open => fopen s
    | Complete ok => complete ok s
    | Close => fclose s
    | Request u => request u s
    | TakePrev => take_prev s
    end.
  Fixpoint lrun (l : list lop) (s : lb) : lb :=
    match l with [] => s | o :: l' => lrun l' (lstep o s) end.
End Sizes.

(* cmdlogbuf.c 412-466 cmdlog_buf_init and a log file opened before (checkpoint.c 429, 249);
   [size] is its size (cmdlogfile.c 429) *)
Definition linit (m : N -> N) (old : bytes) : lb :=
  {| b_ring := {| r_mem := m; r_head := 0; r_tail := 0; r_last := None |};
     b_que := {| q_at := fun _ => (0, false); q_bgn := 0; q_end := 0; q_dw := None; q_dwsize := 0 |};
     b_lsn := {| l_write := (1, 0); l_flush := (1, 0); l_upto := (0, 0) |};
     b_file := {| f_data := fun _ => old; f_fd := 0; f_next := None; f_prev := None;
                  f_size := N.of_nat (length old); f_nsize := 0; f_new := 1 |};
     b_ph := Idle; b_bad := false |}.
