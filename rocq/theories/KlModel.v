(* Model of the key-value command lines of the text protocol: from the words of a line to the
   request (memcached.c 8595-8676 process_get_command, 8733-8830 process_update_command, 8832-8928
   process_arithmetic_command, 8930-8983 process_delete_command, 8985-9059 process_flush_command,
   13507-13559 process_touch_command, dispatch 13600-13712), and from there through the engine
   (KvModel.v) to the text of the reply (2986-3080 process_get_single, 3311-3441 complete_update_ascii).

   Words are what tokenize_command makes of a line (TokModel.v); more than 23 words, which only get
   can have, are fetched in rounds there.  The data block has been read (CnModel.v): exactly as
   many bytes as the request says.  Rights (SASL) and the statistics are left out; allocate fails
   with out of memory only (an object that is too large is answered with another text). *)
From Coq Require Import String Ascii.
From Verif Require Import Base UtilModel ArgTypes ArgModel.
From Verif Require KvModel AtModel.
From Coq Require Import List ZArith NArith Bool.
Local Open Scope nat_scope.
Local Open Scope list_scope.

Inductive kreq :=
| RGet (cas : bool) (keys : list bytes)
| RStore (kind : KvModel.store_kind) (key : bytes) (flags : N) (exp : Z) (vlen : Z) (cas : N)
| RArith (incr : bool) (key : bytes) (delta : N) (ini : option (N * Z * N))
| RDelete (key : bytes)
| RTouch (key : bytes) (exp : Z)
| RFlushAll (delay : Z)
| RFlushPrefix (prefix : option bytes) (delay : Z).

(* a request with its noreply; a text with noreply; or the line belongs to another command *)
Inductive answer := Ask (r : kreq) (quiet : bool) | Refused (t : bytes) (quiet : bool) | Other.

Definition bad_line : bytes := txt "CLIENT_ERROR bad command line format".
Definition PREFIX_MAX : N := 250.
(* 7951-7967 set_noreply_maybe: tokens[ntokens-2] *)
Definition noreply (toks : list bytes) : bool := beqb (last toks []) (txt "noreply").
Definition word (toks : list bytes) (i : nat) : bytes := nth i toks [].
Definition too_long (k : bytes) : bool := N.ltb KEY_MAX_LENGTH (N.of_nat (List.length k)).

(* 8733-8779 *)
Definition update_cmd (toks : list bytes) (kind : KvModel.store_kind) (handle_cas : bool) : answer :=
  let key := word toks 1 in
  let q := noreply toks in
  if too_long key then Refused bad_line q
  else
    match safe_strtoul (word toks 2), safe_strtoll (word toks 3), safe_strtol (word toks 4) with
    | Some f, Some e, Some n =>
        if (Z.ltb n 0 || Z.ltb 2147483645 n)%bool then Refused bad_line q
        else if handle_cas then
          match safe_strtoull (word toks 5) with
          | Some c => Ask (RStore kind key f e n c) q
          | None => Refused bad_line q
          end
        else Ask (RStore kind key f e n 0) q
    | _, _, _ => Refused bad_line q
    end.
(* 8832-8875 *)
Definition arith_cmd (toks : list bytes) (incr : bool) : answer :=
  let key := word toks 1 in
  let q := noreply toks in
  if too_long key then Refused bad_line q
  else
    match safe_strtoull (word toks 2) with
    | None => Refused (txt "CLIENT_ERROR invalid numeric delta argument") q
    | Some d =>
        if Nat.leb 7 (S (List.length toks)) then
          match safe_strtoul (word toks 3), safe_strtoll (word toks 4), safe_strtoull (word toks 5) with
          | Some f, Some e, Some i => Ask (RArith incr key d (Some (f, e, i))) q
          | _, _, _ => Refused bad_line q
          end
        else Ask (RArith incr key d None) q
    end.
(* 8930-8963 *)
Definition delete_cmd (toks : list bytes) : answer :=
  let key := word toks 1 in
  let nt := S (List.length toks) in
  let zero := beqb (word toks 2) (txt "0") in
  let q := (Nat.ltb 3 nt && noreply toks)%bool in
  if (Nat.ltb 3 nt && (Nat.leb 6 nt || (Nat.eqb nt 5 && (negb zero || negb q)) || (Nat.eqb nt 4 && (negb zero && negb q))))%bool
  then Refused (txt "CLIENT_ERROR bad command line format.  Usage: delete <key> [noreply]") q
  else if too_long key then Refused bad_line q
  else Ask (RDelete key) q.
(* 13507-13537; a wrong time is answered with CLIENT_ERROR bad value *)
Definition touch_cmd (toks : list bytes) : answer :=
  let key := word toks 1 in
  if too_long key then Refused bad_line false
  else
    let q := noreply toks in
    match safe_strtoll (word toks 2) with
    | None => Refused (txt "CLIENT_ERROR bad value") q
    | Some e => Ask (RTouch key e) q
    end.
(* 8985-9018 and 9030-9037 *)
Definition flush_cmd (toks : list bytes) (all : bool) : answer :=
  let nt := S (List.length toks) in
  let q := noreply toks in
  let p := word toks 1 in
  if (negb all && N.ltb PREFIX_MAX (N.of_nat (List.length p)))%bool then Refused (txt "CLIENT_ERROR too long prefix name") q
  else
    let delay := Nat.eqb nt (if all then if q then 4 else 3 else if q then 5 else 4) in
    let make (d : Z) := if all then RFlushAll d else RFlushPrefix (if beqb p (txt "<null>") then None else Some p) d in
    if delay then
      match safe_strtoll (word toks (if all then 1 else 2)) with
      | Some d => if Z.ltb d 0 then Refused bad_line q else Ask (make d) q
      | None => Refused bad_line q
      end
    else Ask (make 0%Z) q.
(* 8595-8640: a key that is too long ends the command; the keys in front of it have been looked up, which
   changes nothing but the order of the LRU list and is left out *)
Definition get_cmd (toks : list bytes) (cas : bool) : answer :=
  if existsb too_long (tl toks) then Refused bad_line false else Ask (RGet cas (tl toks)) false.

(* 13600-13712 *)
Definition store_kind_of (w : bytes) : option KvModel.store_kind :=
  if beqb w (txt "add") then Some KvModel.KAdd
  else if beqb w (txt "set") then Some KvModel.KSet
  else if beqb w (txt "replace") then Some KvModel.KReplace
  else if beqb w (txt "prepend") then Some KvModel.KPrepend
  else if beqb w (txt "append") then Some KvModel.KAppend
  else None.
Definition parse (toks : list bytes) : answer :=
  let nt := S (List.length toks) in
  let w := word toks 0 in
  if (Nat.leb 3 nt && beqb w (txt "get"))%bool then get_cmd toks false
  else if (Nat.leb 3 nt && beqb w (txt "gets"))%bool then get_cmd toks true
  else
    match (if (Nat.eqb nt 6 || Nat.eqb nt 7)%bool then store_kind_of w else None) with
    | Some k => update_cmd toks k false
    | None =>
        if ((Nat.eqb nt 7 || Nat.eqb nt 8) && beqb w (txt "cas"))%bool then update_cmd toks KvModel.KCas true
        else if ((Nat.eqb nt 4 || Nat.eqb nt 5 || Nat.eqb nt 7 || Nat.eqb nt 8) && beqb w (txt "incr"))%bool then arith_cmd toks true
        else if ((Nat.eqb nt 4 || Nat.eqb nt 5 || Nat.eqb nt 7 || Nat.eqb nt 8) && beqb w (txt "decr"))%bool then arith_cmd toks false
        else if (Nat.leb 3 nt && Nat.leb nt 5 && beqb w (txt "delete"))%bool then delete_cmd toks
        else if (Nat.leb 2 nt && Nat.leb nt 4 && beqb w (txt "flush_all"))%bool then flush_cmd toks true
        else if (Nat.leb 3 nt && Nat.leb nt 5 && beqb w (txt "flush_prefix"))%bool then flush_cmd toks false
        else if (Nat.leb 4 nt && Nat.leb nt 5 && beqb w (txt "touch"))%bool then touch_cmd toks
        else Other
    end.

(* ---- execution ---- *)
Definition crlf : bytes := [13%N; 10%N].
(* 3391-3430 *)
Definition store_text (x : KvModel.out) : bytes :=
  match x with
  | KvModel.OStored _ => txt "STORED"
  | KvModel.ORes KvModel.EEXISTS => txt "EXISTS"
  | KvModel.ORes KvModel.ENOENT => txt "NOT_FOUND"
  | KvModel.ORes KvModel.NOT_STORED => txt "NOT_STORED"
  | KvModel.ORes KvModel.ENAME => txt "CLIENT_ERROR invalid prefix name"
  | KvModel.ORes KvModel.ENOMEM => txt "SERVER_ERROR out of memory"
  | KvModel.ORes KvModel.EINVAL => txt "CLIENT_ERROR invalid arguments"
  | KvModel.ORes KvModel.EBADTYPE => txt "TYPE_MISMATCH"
  | _ => txt "SERVER_ERROR internal"
  end.
(* 8886-8928 *)
Definition arith_text (x : KvModel.out) : bytes :=
  match x with
  | KvModel.ONum n _ => dec_text n
  | KvModel.ORes KvModel.ENOENT => txt "NOT_FOUND"
  | KvModel.ORes KvModel.EINVAL => txt "CLIENT_ERROR cannot increment or decrement non-numeric value"
  | KvModel.ORes KvModel.ENAME => txt "CLIENT_ERROR invalid prefix name"
  | KvModel.ORes KvModel.ENOMEM => txt "SERVER_ERROR out of memory"
  | KvModel.ORes KvModel.NOT_STORED => txt "SERVER_ERROR failed to store item"
  | KvModel.ORes KvModel.EBADTYPE => txt "TYPE_MISMATCH"
  | _ => txt "SERVER_ERROR internal"
  end.
(* 8972-8982 *)
Definition delete_text (x : KvModel.out) : bytes :=
  match x with
  | KvModel.ORes KvModel.SUCCESS => txt "DELETED"
  | KvModel.ORes KvModel.ENOENT => txt "NOT_FOUND"
  | _ => txt "SERVER_ERROR internal"
  end.
(* 13543-13558 *)
Definition touch_text (x : KvModel.out) : bytes :=
  match x with
  | KvModel.ORes KvModel.SUCCESS => txt "TOUCHED"
  | KvModel.ORes KvModel.ENOENT => txt "NOT_FOUND"
  | KvModel.ORes KvModel.EBADVALUE => txt "CLIENT_ERROR bad value"
  | _ => txt "SERVER_ERROR internal"
  end.
(* 9021-9028, 9053-9058 *)
Definition flush_text (x : KvModel.out) : bytes :=
  match x with
  | KvModel.ORes KvModel.SUCCESS => txt "OK"
  | KvModel.ORes KvModel.PENOENT => txt "NOT_FOUND"
  | _ => txt "SERVER_ERROR internal"
  end.
(* 3014-3057: the item's data contains the CR LF *)
Definition value_text (cas : bool) (key v : bytes) (flags c : N) : bytes :=
  let suffix := 32%N :: dec_text flags ++ 32%N :: dec_text (N.of_nat (List.length v)) ++ crlf in
  txt "VALUE " ++ key ++
  (if cas then firstn (List.length suffix - 2) suffix ++ 32%N :: dec_text c ++ crlf else suffix) ++ v ++ crlf.
(* hinfo_check_tail_crlf: the last two bytes *)
Definition tail_crlf (d : bytes) : bool := beqb (skipn (List.length d - 2) d) crlf.

Section Exec.
Variable lru_class : bool -> bytes -> bytes -> nat.
Variable maxcls : nat.
Variable evict_on : bool.
Variable started : Z.                     (* process_started *)
Notation step := (KvModel.step lru_class maxcls evict_on).
Definition when (s : KvModel.state) (e : Z) : Z :=
  Z.of_N (AtModel.realtime {| AtModel.cur := KvModel.now s; AtModel.started := started |} e).

(* 8618-8640 with 2986-3080; the references are held until the reply is sent; [n] counts them *)
Fixpoint get_all (s : KvModel.state) (cas : bool) (keys : list bytes) : KvModel.state * nat * bytes :=
  match keys with
  | [] => (s, 0, [])
  | k :: r =>
      let '(s1, x) := step s (KvModel.Get k) in
      let '(s2, n, t) := get_all s1 cas r in
      match x with
      | KvModel.OVal v f c => (s2, S n, value_text cas k v f c ++ t)
      | _ => (s2, n, t)
      end
  end.
Fixpoint release_all (s : KvModel.state) (n : nat) : KvModel.state :=
  match n with O => s | S m => release_all (fst (step s (KvModel.Release 0))) m end.

(* o1 and o2 are what the memory of the engine does, tail the bytes behind the value in memory *)
Definition exec (s : KvModel.state) (r : kreq) (data : bytes) (o1 o2 : KvModel.oracle) (tail : bytes)
  : KvModel.state * bytes :=
  match r with
  | RGet cas keys =>
      let '(s1, n, t) := get_all s cas keys in
      (release_all s1 n, t ++ txt "END")
  | RStore kind k f e n c =>
      let '(s1, x) := step s (KvModel.Alloc k f (when s e) (firstn (Z.to_nat n) data) c o1) in
      match x with
      | KvModel.ORes KvModel.SUCCESS =>
          if tail_crlf data then
            let '(s2, y) := step s1 (KvModel.Store 0 kind o2) in
            (fst (step s2 (KvModel.Release 0)), store_text y)
          else (fst (step s1 (KvModel.Release 0)), txt "CLIENT_ERROR bad data chunk")
      | _ =>
          ((match kind with KvModel.KSet => fst (step s1 (KvModel.Delete k 0)) | _ => s1 end),
           txt "SERVER_ERROR out of memory storing object")
      end
  | RArith incr k d ini =>
      let '(create, f, e, i) := match ini with Some (f, e, i) => (true, f, e, i) | None => (false, 0%N, 0%Z, 0%N) end in
      let '(s1, x) := step s (KvModel.Arith k incr create d i f (when s e) tail o1) in (s1, arith_text x)
  | RDelete k => let '(s1, x) := step s (KvModel.Delete k 0) in (s1, delete_text x)
  | RTouch k e => let '(s1, x) := step s (KvModel.SetExp k (when s e)) in (s1, touch_text x)
  | RFlushAll d => let '(s1, x) := step s (KvModel.Flush (when s d)) in (s1, flush_text x)
  | RFlushPrefix p d => let '(s1, x) := step s (KvModel.FlushPrefix p (when s d)) in (s1, flush_text x)
  end.

(* what happens at the server: time passes, a line comes with its data *)
Inductive event := Wait (d : nat) | Line (toks : list bytes) (data : bytes) (o1 o2 : KvModel.oracle) (tail : bytes).
(* None: nothing is sent.  A line of another command does nothing here. *)
Definition serve (s : KvModel.state) (e : event) : KvModel.state * option bytes :=
  match e with
  | Wait d => (fst (step s (KvModel.Tick d)), None)
  | Line toks data o1 o2 tail =>
      match parse toks with
      | Ask r q => let '(s1, t) := exec s r data o1 o2 tail in (s1, if q then None else Some (t ++ crlf))
      | Refused t q => (s, if q then None else Some (t ++ crlf))
      | Other => (s, None)
      end
  end.
Fixpoint serve_all (s : KvModel.state) (l : list event) : KvModel.state * list (option bytes) :=
  match l with
  | [] => (s, [])
  | e :: r => let '(s1, x) := serve s e in let '(s2, xs) := serve_all s1 r in (s2, x :: xs)
  end.
End Exec.
