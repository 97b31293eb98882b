(* What a client may expect of a connection: the bytes it sends are cut into requests, and the answers come in the order
   of the requests. *)
From Coq Require Import String Ascii.
From Verif Require Import Base UtilModel CnModel.
From Coq Require Import List.
Local Open Scope nat_scope.
Local Open Scope string_scope.
Local Open Scope list_scope.

(* the first line of a stream (up to the newline) and what follows it *)
Fixpoint cut (l : bytes) : option (bytes * bytes) :=
  match l with
  | [] => None
  | b :: r => if (b =? 10)%N then Some ([], r) else match cut r with Some (x, y) => Some (b :: x, y) | None => None end
  end.
(* a carriage return at the end of a line of at least two bytes does not belong to it *)
Definition chop (l : bytes) : bytes :=
  match rev l with
  | a :: b :: r => if (a =? 13)%N then rev (b :: r) else l
  | _ => l
  end.
(* lines of acceptable length: short ones, lines of up to 24 KB that do not begin with many blanks, and keys of get *)
Definition line_ok (l : bytes) : Prop :=
  length l <= 1024 \/
  (blanks l <= 100 /\ (length l <= 24 * 1024 \/ starts (text "get ") (skipn (blanks l) l) = true \/ starts (text "gets ") (skipn (blanks l) l) = true)).

Section Spec.
Variable E : Type.
Variable parse : bytes -> shape.
Variable prepare : E -> bytes -> E * (list nat + bytes).
Variable exec_c : E -> bytes -> E * bytes.
Variable comp_c : E -> bytes -> bytes -> E * bytes.
Variable exec_q : E -> bytes -> E * reply.
Variable comp_q : E -> bytes -> bytes -> E * reply.
Notation cst := (cst E).
Notation on_line := (on_line E parse prepare exec_c exec_q).
Notation on_data := (on_data E parse comp_c comp_q).

Definition sent_of (o : option bytes) : bytes := match o with Some s => s | None => [] end.

(* the answer to a request whose outcome is t, and the state and the stream afterwards (None: the connection is closed,
   or the rest of the stream is too short) *)
Definition finish (xt : cst * todo) (r : bytes) : bytes * option (cst * bytes) :=
  match xt with
  | (x, TSend o n) => (sent_of o, if Nat.leb n (length r) then Some (x, skipn n r) else None)
  | (x, TPieces ps) => (concat ps, Some (x, r))
  | (x, _) => ([], None)
  end.
(* the first request of a stream: its line, the answer, the rest *)
Definition one (x : cst) (l : bytes) : option (bytes * bytes * option (cst * bytes)) :=
  match cut l with
  | None => None
  | Some (line, r) =>
      Some (match on_line x (chop line) with
            | (x1, TData n _) =>
                if Nat.leb n (length r) then
                  let '(o, nx) := finish (on_data x1 (chop line) (firstn n r)) (skipn n r) in (line, o, nx)
                else (line, [], None)
            | xt => let '(o, nx) := finish xt r in (line, o, nx)
            end)
  end.
(* the answers to a stream of bytes, and the lines in it; at the end of the stream an incomplete request is not
   answered *)
Fixpoint serve (fuel : nat) (x : cst) (l : bytes) : bytes * list bytes :=
  match fuel with
  | O => ([], [])
  | S f =>
      match one x l with
      | None => ([], [l])
      | Some (line, o, nx) =>
          let '(o', ls) := match nx with Some (x', r) => serve f x' r | None => ([], []) end in (o ++ o', line :: ls)
      end
  end.
Definition answers (x : cst) (l : bytes) : bytes * list bytes := serve (S (length l)) x l.
Definition answer (e : E) (l : bytes) : bytes := fst (answers (mkX E e p_start) l).
Definition lines_ok (e : E) (l : bytes) : Prop := Forall line_ok (snd (answers (mkX E e p_start) l)).

(* what is assumed of the engine: it provides enough memory for a data block, and answers are made of non-empty parts *)
Definition data_of (s : shape) : option nat := match s with Command _ _ _ d => d | Query d => d | _ => None end.
Definition engine_ok : Prop :=
  (forall e line e' parts n, data_of (parse line) = Some n -> prepare e line = (e', inl parts) ->
     n <= list_sum parts /\ Forall (fun b => 0 < b) parts) /\
  (forall e line e' ps, exec_q e line = (e', Pieces ps) -> Forall (fun p => p <> []) ps) /\
  (forall e line d e' ps, comp_q e line d = (e', Pieces ps) -> Forall (fun p => p <> []) ps).

(* ---------- requests ---------- *)

(* how many bytes of data follow the line *)
Definition announced (s : shape) : nat :=
  match s with
  | Command _ _ None (Some n) => n
  | Query (Some n) => n
  | _ => 0
  end.
Definition req := (bytes * bytes)%type.                           (* line, data *)
Definition req_ok (r : req) : Prop :=
  fst r <> [] /\ ~ In 10%N (fst r) /\ length (snd r) = announced (parse (fst r)).
Definition encode (rs : list req) : bytes := concat (map (fun r => fst r ++ [13; 10]%N ++ snd r) rs).

(* the outcome of one request *)
Definition reply1 (x : cst) (r : req) : cst * todo :=
  match on_line x (fst r) with
  | (x1, TData _ _) => on_data x1 (fst r) (snd r)
  | xt => xt
  end.
Definition said (t : todo) : bytes := match t with TSend o _ => sent_of o | TPieces ps => concat ps | _ => [] end.
(* the replies to requests, one after the other, up to a request to close *)
Fixpoint replies (x : cst) (rs : list req) : cst * bytes :=
  match rs with
  | [] => (x, [])
  | r :: rs' => match reply1 x r with
                | (x', TClose) => (x', [])
                | (x', t) => let '(x2, o) := replies x' rs' in (x2, said t ++ o)
                end
  end.

(* the execution of a command, and the status it would be answered with *)
Definition execute (e : E) (r : req) : E * bytes :=
  match data_of (parse (fst r)) with
  | None => exec_c e (fst r)
  | Some _ => match prepare e (fst r) with
              | (e', inl _) => comp_c e' (fst r) (snd r)
              | (e', inr msg) => (e', msg)
              end
  end.
(* requests outside of a pipeline: a status line for each command, unless it carries noreply; the parts of the answer to a
   query.  None: the connection is to be closed *)
Definition status_line (s : bytes) : bytes :=
  (if Nat.leb (length s) 2046 then s else text "SERVER_ERROR output line too long") ++ crlf.
Definition reply_text (r : reply) : bytes := match r with Str s => status_line s | Pieces ps => concat ps end.
Definition single (e : E) (r : req) : option (E * bytes) :=
  match parse (fst r) with
  | Quit => None
  | Reject msg => Some (e, status_line msg)
  | Command w _ bad _ =>
      let '(e', s) := match bad with Some msg => (e, msg) | None => execute e r end in
      Some (e', match w with WNoreply => [] | _ => status_line s end)
  | Query None => let '(e', a) := exec_q e (fst r) in Some (e', reply_text a)
  | Query (Some _) =>
      match prepare e (fst r) with
      | (e', inl _) => let '(e2, a) := comp_q e' (fst r) (snd r) in Some (e2, reply_text a)
      | (e', inr msg) => Some (e', status_line msg)
      end
  end.
Fixpoint singles (e : E) (rs : list req) : E * bytes :=
  match rs with
  | [] => (e, [])
  | r :: rs' => match single e r with
                | None => (e, [])
                | Some (e', o) => let '(e2, o') := singles e' rs' in (e2, o ++ o')
                end
  end.
Definition unpiped (r : req) : Prop := forall b d, parse (fst r) <> Command WPipe true b d.

(* ---------- command pipelining, as documented in docs/ascii-protocol/ch09-command-pipelining.md ---------- *)

Definition res_head (n : nat) : bytes := text "RESPONSE " ++ dec_text (N.of_nat n) ++ crlf.
Definition bad_status (s : bytes) : bool := existsb (fun w => beqb w (firstn (length w) s)) [text "CLIENT_ERROR"; text "SERVER_ERROR"; text "ERROR"].
(* the commands are executed until one fails badly, 500 were executed and there are more, or the statuses take 20000
   bytes; n: number of statuses, acc: the statuses so far.  The result: the engine, the response *)
Fixpoint pipeline (e : E) (n : nat) (acc : bytes) (rs : list req) : E * bytes :=
  match rs with
  | [] => (e, res_head n ++ acc ++ text "END" ++ crlf)
  | r :: rs' =>
      let '(e', s) := execute e r in
      if Nat.ltb (length acc + (length s + 2)) (500 * 40) then
        let acc' := acc ++ s ++ crlf in
        if bad_status s then (e', res_head (n + 1) ++ acc' ++ text "PIPE_ERROR bad error" ++ crlf)
        else if Nat.eqb (n + 1) 500 && negb (is_nil rs') then (e', res_head (n + 1) ++ acc' ++ text "PIPE_ERROR command overflow" ++ crlf)
        else pipeline e' (n + 1) acc' rs'
      else (e', res_head n ++ acc ++ text "PIPE_ERROR memory overflow" ++ crlf)
  end.
Definition piped (r : req) : Prop := exists d, parse (fst r) = Command WPipe true None d.
Definition plain (r : req) : Prop := exists d, parse (fst r) = Command WNone true None d.
End Spec.
