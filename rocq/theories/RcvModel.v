(* Model of the replay of a command log file: engines/default/cmdlogfile.c 380-545
   (do_redo_pending_lrec, cmdlog_file_apply) and of what a later write does to the file (140-172,
   cmdlog_file_write: no O_APPEND, the bytes go where the descriptor stands).
   Offsets are ints in the code; here they are natural numbers: files of 2 GB and more are not modelled.
   Reads and seeks do not fail (the size is that of the file), and the server is not being stopped. *)
From Verif Require Import Base RecModel.
Local Open Scope N_scope.

(* MAX_LOG_RECORD_SIZE: cmdlogrec.h 71 *)
Definition MAX_RECORD : N := 2097152.

Section Replay.
Variable St : Type.
(* what the apply functions do with a call; true: ENGINE_ENOMEM.  None is a failing redo function *)
Variable exec : St -> option call -> St * bool.
Variable clk : clock.

(* do_redo_pending_lrec: 380-421: redo the records between start and end (the bytes of the BEGIN record
   excluded, those of the END record included).  buf is the content of the local buffer *)
Fixpoint redo_pending (fuel : nat) (file buf : bytes) (off stop : N) (st : St) : St * bool :=
  match fuel with
  | O => (st, false)
  | S fuel =>
      if negb (off <? stop) then (st, true)
      else if blen file - off <? 8 then (st, false)
      else
        let buf1 := sub_at file off 8 ++ skipn 8 buf in
        let bl := u32_at buf1 4 in
        let off1 := off + 8 in
        if 0 <? bl then
          if blen file - off1 <? bl then (st, false)
          else
            let buf2 := firstn 8 buf1 ++ sub_at file off1 bl ++ skipn (N.to_nat (8 + bl)) buf1 in
            let (st', oom) := exec st (redo clk buf2) in
            if oom then (st', false) else redo_pending fuel file buf2 (off1 + bl) stop st'
        else redo_pending fuel file buf1 off1 stop st
  end.

(* cmdlog_file_apply: 423-545.  None: recovery failed (the server does not start).
   Some pos: where the descriptor stands afterwards, and the size from then on.
   pend: pending_start_offset when a BEGIN record has been read *)
Fixpoint file_apply (fuel : nat) (file buf pbuf : bytes) (seek : N) (pend : option N) (st : St) : St * option N :=
  match fuel with
  | O => (st, None)
  | S fuel =>
      let size := blen file in
      if negb (seek <? size) then (st, Some seek)
      else if size - seek <? 8 then (st, Some seek)
      else
        let buf1 := sub_at file seek 8 ++ skipn 8 buf in
        let seek1 := seek + 8 in
        let ty := u8_at buf1 0 in
        let bl := u32_at buf1 4 in
        if ty =? 13 then                                   (* LOG_OPERATION_BEGIN *)
          match pend with
          | Some _ => (st, None)
          | None => file_apply fuel file buf1 pbuf seek1 (Some seek1) st
          end
        else if ty =? 14 then                              (* LOG_OPERATION_END *)
          match pend with
          | None => (st, None)
          | Some start =>
              let (st', ok) := redo_pending fuel file pbuf start seek1 st in
              if ok then file_apply fuel file buf1 pbuf seek1 None st' else (st', None)
          end
        else if (0 <? bl) && (size - seek1 <? bl) then (st, Some seek)
        else if (0 <? bl) && (MAX_RECORD - 8 <? bl) then (st, None)
        else
          let buf2 := if 0 <? bl
                      then firstn 8 buf1 ++ sub_at file seek1 bl ++ skipn (N.to_nat (8 + bl)) buf1
                      else buf1 in
          let seek2 := if 0 <? bl then seek1 + bl else seek1 in
          match pend with
          | Some _ => file_apply fuel file buf2 pbuf seek2 pend st
          | None =>
              let (st', oom) := exec st (redo clk buf2) in
              if oom then (st', None) else file_apply fuel file buf2 pbuf seek2 None st'
          end
  end.

(* the whole file, from the beginning; junk: the uninitialised buffers *)
Definition recover (junk pjunk file : bytes) (st : St) : St * option N :=
  if blen file =? 0 then (st, Some 0)
  else file_apply (S (length file)) file junk pjunk 0 None st.
End Replay.

(* write(2) of new at offset pos of a file *)
Definition overwrite (file : bytes) (pos : N) (new : bytes) : bytes :=
  firstn (N.to_nat pos) file ++ new ++ skipn (N.to_nat pos + length new) file.
