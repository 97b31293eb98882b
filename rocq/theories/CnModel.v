(* A client connection (memcached.c, ASCII protocol over TCP): the read buffer, the state machine that frames the
   input into command lines and data blocks, the list of pending output, noreply and command pipelining.
   The commands themselves are parameters: what a line asks for (parse), and what the engine does and answers.
   Left out: the binary protocol, UDP, failing memory allocation of buffers, ENGINE_EWOULDBLOCK (a connection that
   waits for the command log; it resumes in the same state), errors of read and sendmsg other than EAGAIN and end of
   file, extension commands, ENGINE_DISCONNECT, statistics. *)
From Coq Require Import String Ascii.
From Verif Require Import Base UtilModel.
From Coq Require Import List.
Local Open Scope nat_scope.
Local Open Scope list_scope.

Definition text (s : string) : bytes := map N_of_ascii (list_ascii_of_string s).
Definition crlf : bytes := [13; 10]%N.
Definition is_nil {A} (l : list A) : bool := match l with [] => true | _ => false end.

(* memcached.h 56, 78; config_static.h 120; memcached.h 105-109 *)
Definition DATA_BUFFER_SIZE : nat := 2048.
Definition READ_BUFFER_HIGHWAT : nat := 4 * 2048.
Definition IOV_MAX : nat := 1024.
Definition IOV_LIST_INITIAL : nat := 400.
Definition IOV_LIST_HIGHWAT : nat := 600.
Definition PIPE_CMD_MAX_COUNT : nat := 500.
Definition PIPE_RES_HEAD_SIZE : nat := 20.
Definition PIPE_RES_TAIL_SIZE : nat := 40.
Definition PIPE_RES_MAX_SIZE : nat := PIPE_CMD_MAX_COUNT * 40 + PIPE_RES_HEAD_SIZE + PIPE_RES_TAIL_SIZE.

(* ---------- noreply and pipelining ---------- *)

(* memcached.h 112-116 *)
Inductive pstate := POff | POn | PCFull | PMFull | PBad.
(* pipe_state, pipe_count, the responses in pipe_resbuf after its head (pipe_reslen = head + their length), noreply *)
Record pipe := mkP { p_st : pstate; p_cnt : nat; p_res : bytes; p_nr : bool }.
Definition p_start : pipe := mkP POff 0 [] false.
Definition with_nr (p : pipe) (b : bool) : pipe := mkP (p_st p) (p_cnt p) (p_res p) b.
(* 1431-1435 pipe_state_clear *)
Definition p_clear (p : pipe) : pipe := mkP POff 0 (p_res p) (p_nr p).

Fixpoint starts (p s : bytes) : bool :=
  match p, s with
  | [], _ => true
  | a :: p', b :: s' => (a =? b)%N && starts p' s'
  | _, [] => false
  end.
Definition severe (s : bytes) : bool :=
  starts (text "CLIENT_ERROR") s || starts (text "SERVER_ERROR") s || starts (text "ERROR") s.

(* 1437-1481 pipe_response_save; the boolean: the result is negative *)
Definition p_save (p : pipe) (s : bytes) : pipe * bool :=
  match p_st p with
  | POff => (p, false)                              (* not called *)
  | POn =>
      let res := if Nat.eqb (p_cnt p) 0 then [] else p_res p in
      if Nat.ltb (PIPE_RES_HEAD_SIZE + length res + (length s + 2)) (PIPE_RES_MAX_SIZE - PIPE_RES_TAIL_SIZE) then
        let res' := res ++ s ++ crlf in
        let n := p_cnt p + 1 in
        if severe s then (mkP PBad n res' (p_nr p), true)
        else if Nat.leb PIPE_CMD_MAX_COUNT n && p_nr p then (mkP PCFull n res' (p_nr p), true)
        else (mkP POn n res' (p_nr p), false)
      else (mkP PMFull (p_cnt p) res (p_nr p), true)
  | _ => (p_clear p, false)
  end.

Definition p_tail (st : pstate) : bytes :=
  match st with
  | POn | POff => text "END" ++ crlf
  | PCFull => text "PIPE_ERROR command overflow" ++ crlf
  | PMFull => text "PIPE_ERROR memory overflow" ++ crlf
  | PBad => text "PIPE_ERROR bad error" ++ crlf
  end.
(* 1483-1530 pipe_response_done *)
Definition p_done (p : pipe) (last : bool) : pipe * bytes :=
  let out := text "RESPONSE " ++ dec_text (N.of_nat (p_cnt p)) ++ crlf ++ p_res p ++ p_tail (p_st p) in
  let p' := mkP (p_st p) (p_cnt p) (p_res p ++ p_tail (p_st p)) (p_nr p) in
  (match p_st p with
   | POn => p_clear p'
   | _ => if last then p_clear p' else p'
   end, out).

(* 1532-1592 out_string: what is sent, if anything *)
Definition out_string (p : pipe) (s : bytes) : pipe * option bytes :=
  let orig := p_nr p in
  let '(p1, neg) := match p_st p with POff => (p, false) | _ => p_save p s end in
  let nr := if neg then false else p_nr p1 in
  let p2 := with_nr p1 false in
  if nr then (p2, None)
  else match p_st p2 with
       | POff => (p2, Some ((if Nat.ltb DATA_BUFFER_SIZE (length s + 2) then text "SERVER_ERROR output line too long" else s) ++ crlf))
       | _ => let '(p3, o) := p_done p2 (negb orig) in (p3, Some o)
       end.

(* ---------- commands ---------- *)

Inductive word := WNone | WNoreply | WPipe.                 (* the last token *)
Inductive shape :=
| Quit
| Reject (msg : bytes)                                       (* refused before the last token is looked at *)
| Command (w : word) (pipable : bool) (bad : option bytes) (data : option nat)
    (* a command that looks for noreply, or for noreply and pipe; bad: refused with a message; data: the length of
       its data block with \r\n *)
| Query (data : option nat).                                 (* a command that does not look for noreply *)
Inductive reply := Str (s : bytes) | Pieces (l : list bytes).

Section Server.
Variable E : Type.
Variable parse : bytes -> shape.
(* memory for the data block: the sizes of its parts, or an error message *)
Variable prepare : E -> bytes -> E * (list nat + bytes).
(* execution of a command without and with a data block *)
Variable exec_c : E -> bytes -> E * bytes.
Variable comp_c : E -> bytes -> bytes -> E * bytes.
Variable exec_q : E -> bytes -> E * reply.
Variable comp_q : E -> bytes -> bytes -> E * reply.

Record cst := mkX { x_e : E; x_p : pipe }.

(* what the connection does next: send, and go on with the next command, or after skipping so many bytes; or read a
   data block; or close *)
Inductive todo :=
| TSend (o : option bytes) (skip : nat)
| TPieces (l : list bytes)
| TData (n : nat) (parts : list nat)
| TClose.

Definition say (e : E) (p : pipe) (s : bytes) (skip : nat) : cst * todo :=
  let '(p', o) := out_string p s in (mkX e p', TSend o skip).

(* 7945-8013 set_noreply_maybe, set_pipe_noreply_maybe, set_pipe_maybe *)
Definition set_maybe (p : pipe) (w : word) (pipable : bool) : pipe :=
  match w with
  | WNone => with_nr p false
  | WNoreply => with_nr p true
  | WPipe => if pipable then mkP (match p_st p with POff => POn | st => st end) (p_cnt p) (p_res p) true
             else with_nr p false
  end.
Definition p_err (p : pipe) : bool := match p_st p with POff | POn => false | _ => true end.

(* 13561-13771 process_command_ascii, 8733-8830 process_update_command, 10799-10908 process_lop_command and its
   likes with check_and_handle_pipe_state 8015-8031, 10671-10709 process_lop_prepare_nread and its likes *)
Definition on_line (x : cst) (line : bytes) : cst * todo :=
  let p := x_p x in
  let read e p n :=
    match prepare e line with
    | (e', inl parts) => (mkX e' p, TData n parts)
    | (e', inr msg) => say e' p msg n
    end in
  match parse line with
  | Quit => (x, TClose)
  | Reject msg => say (x_e x) p msg 0
  | Command w pipable bad data =>
      let p1 := set_maybe p w pipable in
      match bad with
      | Some msg => say (x_e x) p1 msg 0
      | None =>
          if pipable && p_err p1 then
            let p2 := if p_nr p1 then with_nr p1 false else p_clear p1 in
            (mkX (x_e x) p2, TSend None (match data with Some n => n | None => 0 end))
          else match data with
               | Some n => read (x_e x) p1 n
               | None => let '(e, s) := exec_c (x_e x) line in say e p1 s 0
               end
      end
  | Query data =>
      match data with
      | Some n => read (x_e x) p n
      | None => match exec_q (x_e x) line with
                | (e, Str s) => say e p s 0
                | (e, Pieces l) => (mkX e p, TPieces l)
                end
      end
  end.
(* 3311-3470 complete_update_ascii, 1646-1697 process_lop_insert_complete and its likes *)
Definition on_data (x : cst) (line data : bytes) : cst * todo :=
  match parse line with
  | Query _ => match comp_q (x_e x) line data with
               | (e, Str s) => say e (x_p x) s 0
               | (e, Pieces l) => (mkX e (x_p x), TPieces l)
               end
  | _ => let '(e, s) := comp_c (x_e x) line data in say e (x_p x) s 0
  end.

(* ---------- output ---------- *)

(* struct msghdr: msg_iov as index into the iov array of generation m_gen, msg_iovlen *)
Record msg := mkM { m_gen : nat; m_at : nat; m_len : nat }.
Record outq := mkO { o_iov : nat -> bytes; o_used : nat; o_size : nat; o_gen : nat; o_msgs : list msg; o_cur : nat }.
Definition o_start : outq := mkO (fun _ => []) 0 IOV_LIST_INITIAL 0 [] 0.
Definition put {A} (f : nat -> A) (i : nat) (v : A) : nat -> A := fun j => if Nat.eqb j i then v else f j.

(* 376-410 add_msghdr *)
Definition add_msghdr (o : outq) : outq :=
  mkO (o_iov o) (o_used o) (o_size o) (o_gen o) (o_msgs o ++ [mkM (o_gen o) (o_used o) 0]) (o_cur o).
(* msgcurr = msgused = iovused = 0; add_msghdr *)
Definition o_reset (o : outq) : outq := add_msghdr (mkO (o_iov o) 0 (o_size o) (o_gen o) [] 0).
(* 1160-1164: point all the msghdr at the new array *)
Fixpoint repoint (g n : nat) (l : list msg) : list msg :=
  match l with [] => [] | m :: r => mkM g n (m_len m) :: repoint g (n + m_len m) r end.
(* 1146-1169 ensure_iov_space *)
Definition ensure_iov (o : outq) : outq :=
  if Nat.leb (o_size o) (o_used o) then
    mkO (o_iov o) (o_used o) (o_size o * 2) (o_gen o + 1) (repoint (o_gen o + 1) 0 (o_msgs o)) (o_cur o)
  else o.
Fixpoint set_last {A} (l : list A) (v : A) : list A :=
  match l with [] => [] | [_] => [v] | a :: r => a :: set_last r v end.
(* 1180-1240 add_iov; None: through a pointer into an array that was moved, or beyond its end *)
Definition add_iov (o : outq) (b : bytes) : option outq :=
  let full := match rev (o_msgs o) with m :: _ => Nat.eqb (m_len m) IOV_MAX | [] => false end in
  let o := ensure_iov (if full then add_msghdr o else o) in
  match rev (o_msgs o) with
  | [] => None
  | m :: _ =>
      if Nat.eqb (m_gen m) (o_gen o) && Nat.ltb (m_at m + m_len m) (o_size o) then
        Some (mkO (put (o_iov o) (m_at m + m_len m) b) (o_used o + 1) (o_size o) (o_gen o)
                  (set_last (o_msgs o) (mkM (m_gen m) (m_at m) (m_len m + 1))) (o_cur o))
      else None
  end.
Fixpoint add_iovs (o : outq) (l : list bytes) : option outq :=
  match l with [] => Some o | b :: r => match add_iov o b with Some o' => add_iovs o' r | None => None end end.

Definition total (f : nat -> bytes) (at_ len : nat) : bytes := concat (map f (seq at_ len)).
(* 14046-14060: n bytes of the message were written *)
Fixpoint consume (f : nat -> bytes) (at_ len n : nat) : (nat -> bytes) * nat * nat :=
  match len with
  | O => (f, at_, 0)
  | S k => if Nat.leb (length (f at_)) n then consume f (at_ + 1) k (n - length (f at_))
           else (if Nat.eqb n 0 then f else put f at_ (skipn n (f at_)), at_, len)
  end.
Definition set_nth_msg (l : list msg) (i : nat) (m : msg) : list msg := firstn i l ++ m :: skipn (S i) l.

(* ---------- the state machine ---------- *)

Inductive phase := NewCmd | Waiting | Read | Reading (allocs : nat) (got : bool) | Parse | Nread | Swallow | Write | MWrite | Closing | Closed | Broken.

(* c_buf, c_cur, c_cnt, c_size: rbuf, rcurr - rbuf, rbytes, rsize; c_go: write_and_go; c_job: where the line of the
   command lies in rbuf (coll_key and others point into it); c_rl, c_rt, c_blks: rlbytes, rltotal, the sizes of the
   parts to come; c_data: what the parts so far hold; c_sb: sbytes; c_wb: wcurr; c_evw: waits for writability *)
Record conn := mkC { c_buf : nat -> N; c_cur : nat; c_cnt : nat; c_size : nat; c_ph : phase; c_go : phase; c_job : nat * nat;
  c_rl : nat; c_rt : nat; c_blks : list nat; c_data : bytes; c_sb : nat; c_x : cst; c_wb : bytes; c_o : outq;
  c_nev : nat; c_evw : bool }.
(* inp: what the client sends and was not read; sent: what was written; asleep: back in the event loop *)
Record sys := mkS { s_c : conn; s_inp : bytes; s_sent : bytes; s_asleep : bool }.

Definition slice (f : nat -> N) (o n : nat) : bytes := map f (seq o n).
Definition blit (f : nat -> N) (o : nat) (l : bytes) : nat -> N :=
  fun i => if Nat.leb o i && Nat.ltb i (o + length l) then nth (i - o) l 0%N else f i.
Definition content (c : conn) : bytes := slice (c_buf c) (c_cur c) (c_cnt c).

Definition with_ph (c : conn) (p : phase) : conn :=
  mkC (c_buf c) (c_cur c) (c_cnt c) (c_size c) p (c_go c) (c_job c) (c_rl c) (c_rt c) (c_blks c) (c_data c) (c_sb c) (c_x c) (c_wb c) (c_o c) (c_nev c) (c_evw c).
Definition with_buf (c : conn) (b : nat -> N) (cur cnt size : nat) (p : phase) : conn :=
  mkC b cur cnt size p (c_go c) (c_job c) (c_rl c) (c_rt c) (c_blks c) (c_data c) (c_sb c) (c_x c) (c_wb c) (c_o c) (c_nev c) (c_evw c).
Definition with_evw (c : conn) (b : bool) : conn :=
  mkC (c_buf c) (c_cur c) (c_cnt c) (c_size c) (c_ph c) (c_go c) (c_job c) (c_rl c) (c_rt c) (c_blks c) (c_data c) (c_sb c) (c_x c) (c_wb c) (c_o c) (c_nev c) b.
Definition with_nev (c : conn) (n : nat) : conn :=
  mkC (c_buf c) (c_cur c) (c_cnt c) (c_size c) (c_ph c) (c_go c) (c_job c) (c_rl c) (c_rt c) (c_blks c) (c_data c) (c_sb c) (c_x c) (c_wb c) (c_o c) n (c_evw c).
Definition with_o (c : conn) (o : outq) (p : phase) : conn :=
  mkC (c_buf c) (c_cur c) (c_cnt c) (c_size c) p (c_go c) (c_job c) (c_rl c) (c_rt c) (c_blks c) (c_data c) (c_sb c) (c_x c) (c_wb c) o (c_nev c) (c_evw c).
Definition with_sb (c : conn) (cur cnt sb : nat) : conn :=
  mkC (c_buf c) cur cnt (c_size c) (c_ph c) (c_go c) (c_job c) (c_rl c) (c_rt c) (c_blks c) (c_data c) sb (c_x c) (c_wb c) (c_o c) (c_nev c) (c_evw c).
Definition with_rd (c : conn) (cur cnt rl rt : nat) (blks : list nat) (data : bytes) : conn :=
  mkC (c_buf c) cur cnt (c_size c) (c_ph c) (c_go c) (c_job c) rl rt blks data (c_sb c) (c_x c) (c_wb c) (c_o c) (c_nev c) (c_evw c).

(* 1010-1060 ritem_set_first: one part, or several (for the blocks of a key list rltotal is set also when there is one
   block, which makes no difference) *)
Definition set_first (n : nat) (parts : list nat) : nat * nat * list nat :=
  match parts with
  | b :: (_ :: _) as r => (Nat.min n b, n, tl parts)
  | _ => (n, 0, [])
  end.
(* what process_command_ascii and complete_nread leave: state, write_and_go, sbytes, pending output *)
Definition follow (c : conn) (x : cst) (t : todo) : conn :=
  match t with
  | TSend None 0 => mkC (c_buf c) (c_cur c) (c_cnt c) (c_size c) NewCmd (c_go c) (c_job c) (c_rl c) (c_rt c) (c_blks c) (c_data c) (c_sb c) x (c_wb c) (c_o c) (c_nev c) (c_evw c)
  | TSend None n => mkC (c_buf c) (c_cur c) (c_cnt c) (c_size c) Swallow (c_go c) (c_job c) (c_rl c) (c_rt c) (c_blks c) (c_data c) n x (c_wb c) (c_o c) (c_nev c) (c_evw c)
  | TSend (Some s) n => mkC (c_buf c) (c_cur c) (c_cnt c) (c_size c) Write (if Nat.eqb n 0 then NewCmd else Swallow) (c_job c) (c_rl c) (c_rt c) (c_blks c) (c_data c) (if Nat.eqb n 0 then c_sb c else n) x s (o_reset (c_o c)) (c_nev c) (c_evw c)
  | TPieces l =>
      match add_iovs (c_o c) l with
      | Some o => mkC (c_buf c) (c_cur c) (c_cnt c) (c_size c) MWrite (c_go c) (c_job c) (c_rl c) (c_rt c) (c_blks c) (c_data c) (c_sb c) x (c_wb c) o (c_nev c) (c_evw c)
      | None => with_ph c Broken
      end
  | TData n parts =>
      let '(rl, rt, bs) := set_first n parts in
      mkC (c_buf c) (c_cur c) (c_cnt c) (c_size c) Nread (c_go c) (c_job c) rl rt bs [] (c_sb c) x (c_wb c) (c_o c) (c_nev c) (c_evw c)
  | TClose => mkC (c_buf c) (c_cur c) (c_cnt c) (c_size c) Closing (c_go c) (c_job c) (c_rl c) (c_rt c) (c_blks c) (c_data c) (c_sb c) x (c_wb c) (c_o c) (c_nev c) (c_evw c)
  end.

(* memchr(rcurr, '\n', rbytes) *)
Fixpoint find_nl (l : bytes) : option nat :=
  match l with [] => None | b :: r => if (b =? 10)%N then Some 0 else match find_nl r with Some n => Some (S n) | None => None end end.
(* 13786-13788: number of leading blanks (in the code the search does not stop at the end of the data) *)
Fixpoint blanks (l : bytes) : nat := match l with b :: r => if (b =? 32)%N then S (blanks r) else 0 | [] => 0 end.

(* 13773-13833 try_read_command_ascii, 14180-14200 conn_parse_cmd *)
Definition parse_cmd (c : conn) : conn :=
  let l := content c in
  match find_nl l with
  | None =>
      if Nat.ltb 1024 (c_cnt c) && Nat.ltb 100 (blanks l) then with_ph c Closing
      else let s := skipn (blanks l) l in
           if Nat.ltb (24 * 1024) (c_cnt c) && negb (starts (text "get ") s) && negb (starts (text "gets ") s) then with_ph c Closing
           else with_ph c Waiting
  | Some i =>
      let n := if Nat.ltb 1 i && (nth (i - 1) l 0%N =? 13)%N then i - 1 else i in
      let buf := put (c_buf c) (c_cur c + n) 0%N in
      let line := slice buf (c_cur c) n in
      let '(x, t) := on_line (c_x c) line in
      follow (mkC buf (c_cur c + (i + 1)) (c_cnt c - (i + 1)) (c_size c) (c_ph c) (c_go c) (c_cur c, n) (c_rl c) (c_rt c) (c_blks c) (c_data c) (c_sb c) (c_x c) (c_wb c) (o_reset (c_o c)) (c_nev c) (c_evw c)) x t
  end.

(* 959-980, 1000-1007 conn_shrink *)
Definition shrink (c : conn) : conn :=
  let c1 := if Nat.ltb READ_BUFFER_HIGHWAT (c_size c) && Nat.ltb (c_cnt c) DATA_BUFFER_SIZE then
              let b := if Nat.eqb (c_cur c) 0 then c_buf c else blit (c_buf c) 0 (content c) in
              with_buf c (fun i => if Nat.ltb i DATA_BUFFER_SIZE then b i else 0%N) 0 (c_cnt c) DATA_BUFFER_SIZE (c_ph c)
            else c in
  if Nat.ltb IOV_LIST_HIGHWAT (o_size (c_o c1)) then
    with_o c1 (mkO (o_iov (c_o c1)) (o_used (c_o c1)) IOV_LIST_INITIAL (o_gen (c_o c1) + 1) (o_msgs (c_o c1)) (o_cur (c_o c1))) (c_ph c1)
  else c1.
(* 7770-7796 reset_cmd_handler *)
Definition reset_cmd (c : conn) : conn :=
  let c := shrink c in with_ph c (if Nat.ltb 0 (c_cnt c) then Parse else Waiting).

(* result of a read or sendmsg *)
Inductive io := Got (n : nat) | Again | Eof.

(* 14304-14323: copy from the read buffer *)
Definition nread_copy (c : conn) : conn :=
  let k := if Nat.ltb (c_rl c) (c_cnt c) then c_rl c else c_cnt c in
  let data := c_data c ++ slice (c_buf c) (c_cur c) k in
  let rl := c_rl c - k in
  let rt := if Nat.ltb 0 (c_rt c) then c_rt c - k else c_rt c in
  if Nat.ltb 0 (c_rt c) && Nat.eqb rl 0 && Nat.ltb 0 rt then
    match c_blks c with                                   (* 1062-1086 ritem_set_next *)
    | b :: r => with_rd c (c_cur c + k) (c_cnt c - k) (Nat.min rt b) rt r data
    | [] => with_ph c Broken
    end
  else with_rd c (c_cur c + k) (c_cnt c - k) rl rt (c_blks c) data.

(* 14002-14078 transmit, 14387-14490 conn_write, conn_mwrite; the boolean: false, back to the event loop *)
Definition transmit (s : sys) (r : io) : option sys :=
  let c := s_c s in
  let o := c_o c in
  let cur := match nth_error (o_msgs o) (o_cur o) with Some m => if Nat.eqb (m_len m) 0 then o_cur o + 1 else o_cur o | None => o_cur o end in
  match nth_error (o_msgs o) cur with
  | Some m =>
      if negb (Nat.eqb (m_gen m) (o_gen o)) then Some (mkS (with_ph c Broken) (s_inp s) (s_sent s) false)
      else
        let all := total (o_iov o) (m_at m) (m_len m) in
        match r with
        | Got n =>
            if Nat.leb 1 n && Nat.leb n (length all) then
              let '(f, at_, len) := consume (o_iov o) (m_at m) (m_len m) n in
              Some (mkS (with_o c (mkO f (o_used o) (o_size o) (o_gen o) (set_nth_msg (o_msgs o) cur (mkM (m_gen m) at_ len)) cur) (c_ph c))
                        (s_inp s) (s_sent s ++ firstn n all) false)
            else None
        | Again => if is_nil all then Some (mkS (with_ph c Closing) (s_inp s) (s_sent s) false)      (* sendmsg gives 0 *)
                   else Some (mkS (with_evw (with_o c (mkO (o_iov o) (o_used o) (o_size o) (o_gen o) (o_msgs o) cur) (c_ph c)) true) (s_inp s) (s_sent s) true)
        | Eof => None
        end
  | None => Some (mkS (with_ph c (match c_ph c with MWrite => NewCmd | _ => c_go c end)) (s_inp s) (s_sent s) false)
  end.

Variable reqs : nat.          (* settings.reqs_per_event *)

(* one call of the state function, or one round of a loop in it, with the result of its system call.  None: this result
   is not possible *)
Definition run1 (s : sys) (r : io) : option sys :=
  let c := s_c s in
  let to c' := Some (mkS c' (s_inp s) (s_sent s) false) in
  match c_ph c with
  | NewCmd =>                                                (* 14202-14227 *)
      match c_nev c with
      | S n => to (reset_cmd (with_nev c n))
      | O => Some (mkS (if Nat.ltb 0 (c_cnt c) then with_evw c true else c) (s_inp s) (s_sent s) true)
      end
  | Waiting => Some (mkS (with_ph (with_evw c false) Read) (s_inp s) (s_sent s) true)     (* 14148-14158 *)
  | Read =>                                                  (* 13919-13923 *)
      if Nat.eqb (c_cur c) 0 then to (with_ph c (Reading 0 false))
      else to (with_buf c (if Nat.eqb (c_cnt c) 0 then c_buf c else blit (c_buf c) 0 (content c)) 0 (c_cnt c) (c_size c) (Reading 0 false))
  | Reading na got =>                                        (* 13925-13980, 14160-14178 *)
      if Nat.leb (c_size c) (c_cnt c) && Nat.eqb na 5 then to (with_ph c (if got then Parse else Waiting))
      else
        let '(na, size) := if Nat.leb (c_size c) (c_cnt c) then (na + 1, c_size c * 2) else (na, c_size c) in
        let avail := size - c_cnt c in
        match r with
        | Got n =>
            if Nat.leb 1 n && Nat.leb n avail && Nat.leb n (length (s_inp s)) then
              Some (mkS (with_buf c (blit (c_buf c) (c_cnt c) (firstn n (s_inp s))) (c_cur c) (c_cnt c + n) size
                                  (if Nat.eqb n avail then Reading na true else Parse))
                        (skipn n (s_inp s)) (s_sent s) false)
            else None
        | Again => to (with_buf c (c_buf c) (c_cur c) (c_cnt c) size (if got then Parse else Waiting))
        | Eof => if is_nil (s_inp s) then to (with_ph c Closing) else None
        end
  | Parse => to (parse_cmd c)
  | Swallow =>                                               (* 14229-14286 *)
      if Nat.eqb (c_sb c) 0 then to (with_ph c NewCmd)
      else if Nat.ltb 0 (c_cnt c) then
        let k := if Nat.ltb (c_sb c) (c_cnt c) then c_sb c else c_cnt c in
        to (with_sb c (c_cur c + k) (c_cnt c - k) (c_sb c - k))
      else
        let want := if Nat.ltb (c_sb c) (c_size c) then c_sb c else c_size c in
        match r with
        | Got n =>
            if Nat.leb 1 n && Nat.leb n want && Nat.leb n (length (s_inp s)) then
              Some (mkS (with_sb (with_buf c (blit (c_buf c) 0 (firstn n (s_inp s))) (c_cur c) (c_cnt c) (c_size c) (c_ph c)) (c_cur c) (c_cnt c) (c_sb c - n))
                        (skipn n (s_inp s)) (s_sent s) false)
            else None
        | Again => Some (mkS (with_evw c false) (s_inp s) (s_sent s) true)
        | Eof => if is_nil (s_inp s) then to (with_ph c Closing) else None
        end
  | Nread =>                                                 (* 14288-14385 *)
      if Nat.eqb (c_rl c) 0 then
        let '(x, t) := on_data (c_x c) (slice (c_buf c) (fst (c_job c)) (snd (c_job c))) (c_data c) in to (follow c x t)
      else if Nat.ltb 0 (c_cnt c) then to (nread_copy c)
      else
        match r with
        | Got n =>
            if Nat.leb 1 n && Nat.leb n (c_rl c) && Nat.leb n (length (s_inp s)) then
              let data := c_data c ++ firstn n (s_inp s) in
              let rl := c_rl c - n in
              let rt := if Nat.ltb 0 (c_rt c) then c_rt c - n else c_rt c in
              let c' := if Nat.ltb 0 (c_rt c) && Nat.eqb rl 0 && Nat.ltb 0 rt then
                          match c_blks c with
                          | b :: rest => with_rd c (c_cur c) (c_cnt c) (Nat.min rt b) rt rest data
                          | [] => with_ph c Broken
                          end
                        else with_rd c (c_cur c) (c_cnt c) rl rt (c_blks c) data in
              Some (mkS c' (skipn n (s_inp s)) (s_sent s) false)
            else None
        | Again => Some (mkS (with_evw c false) (s_inp s) (s_sent s) true)
        | Eof => if is_nil (s_inp s) then to (with_ph c Closing) else None
        end
  | Write =>                                                 (* 14387-14406 *)
      if Nat.eqb (o_used (c_o c)) 0 then
        match add_iov (c_o c) (c_wb c) with Some o => transmit (mkS (with_o c o Write) (s_inp s) (s_sent s) false) r | None => to (with_ph c Broken) end
      else transmit s r
  | MWrite => transmit s r
  | Closing => to (with_ph c Closed)
  | Closed | Broken => None
  end.

(* the event loop calls event_handler (14501-14545) again when there is something to read, or, if the connection waits
   for that, to write *)
Definition wake (s : sys) : sys := mkS (with_nev (s_c s) reqs) (s_inp s) (s_sent s) false.
Inductive step : sys -> sys -> Prop :=
| st_run s r s' : s_asleep s = false -> run1 s r = Some s' -> step s s'
| st_read s : s_asleep s = true -> c_evw (s_c s) = false -> step s (wake s)
| st_write s : s_asleep s = true -> c_evw (s_c s) = true -> step s (wake s).

(* 640-700 conn_new *)
Definition c_new (e : E) (buf : nat -> N) (o : outq) : conn :=
  mkC buf 0 0 DATA_BUFFER_SIZE NewCmd NewCmd (0, 0) 0 0 [] [] 0 (mkX e p_start) [] o 0 false.
Definition s_new (e : E) (buf : nat -> N) (inp : bytes) : sys := mkS (c_new e buf o_start) inp [] true.
Inductive reach (e : E) (buf : nat -> N) (inp : bytes) : sys -> Prop :=
| r_new : reach e buf inp (s_new e buf inp)
| r_step s s' : reach e buf inp s -> step s s' -> reach e buf inp s'.

End Server.
