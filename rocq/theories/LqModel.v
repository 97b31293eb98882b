(* Model of the detection of long queries (lqdetect.c).  Every function runs under one lock.  A request that was found long
   comes with its time text, address, key, query text and the contents [old] of the field of the structure on the stack
   that the code does not set.  Left out: dates of the statistics, failed malloc. *)
From Coq Require Import String.
From Coq Require Import List NArith Bool Arith.
From Verif Require Import Base UtilModel ArgTypes.
Import ListNotations.
Local Open Scope list_scope.
Local Open Scope nat_scope.

Definition LQ_THRESHOLD_DEFAULT : N := 4000.        (* 12 *)
Definition LQ_SAVE_CNT : nat := 20.                 (* 15 *)
Definition LQ_INPUT_SIZE : nat := 500.              (* 16 *)
Definition LQ_CMD_NUM : nat := 10.                  (* 37 *)
(* 42-46 *)
Definition command_str (c : nat) : bytes :=
  nth c [txt "sop get"; txt "mop delete"; txt "mop get"; txt "lop insert"; txt "lop delete"; txt "lop get"; txt "bop delete"; txt "bop get"; txt "bop count"; txt "bop gbp"] [].
Definition by_key (c : nat) : bool := Nat.ltb c 3.  (* 101-103 *)

(* 383-420: "%u%s" for sets and maps; 346-381, 422-471: other texts, taken as given (made by snprintf into LQ_QUERY_SIZE bytes) *)
Inductive ask := Counted (n : N) (rest : bytes) | Plain (t : bytes).
Definition query_text (a : ask) : bytes := match a with Counted n r => dec_text n ++ r | Plain t => t end.
Definition count_of (a : ask) : N := match a with Counted n _ => n | Plain _ => 0 end.

(* 57-71; [data] is the text up to the first zero byte *)
Record buf := mkB { data : bytes; offset : nat; ntotal : N; saved : list (bytes * bytes) }.
Definition nsaved (b : buf) : nat := List.length (saved b).
Record state := mkS { bufs : nat -> buf; overflow_cnt : nat; in_use : bool; threshold : N }.
Definition init : state := mkS (fun _ => mkB [] 0 0 []) 0 false 0.        (* 214-233 *)

(* 83-118 *)
Definition is_command_duplicated (key : bytes) (c : nat) (a : ask) (b : buf) : bool :=
  existsb (fun e => (beqb (fst e) (query_text a) && (negb (by_key c) || N.ltb 0 (count_of a) || beqb (snd e) key))%bool) (saved b).
(* 112-114, 150: the field key of the stored argument *)
Definition stored_key (key : bytes) (c : nat) (a : ask) (old : bytes) : bytes :=
  if (by_key c && N.eqb (count_of a) 0)%bool then firstn 250 key else old.
(* 128-136 *)
Definition key_shown (key : bytes) : bytes :=
  if Nat.ltb 250 (List.length key) then firstn 124 key ++ txt "..." ++ skipn (List.length key - 123) key else key.
(* 145-148 *)
Definition line (c : nat) (time ip key : bytes) (a : ask) (overhead : N) : bytes :=
  time ++ txt " " ++ ip ++ txt " <" ++ dec_text overhead ++ txt "> " ++ command_str c ++ txt " " ++ key ++ txt " " ++ query_text a ++ [10%N].
(* 120-152 *)
Definition do_lqdetect_write (c : nat) (time ip key : bytes) (a : ask) (overhead : N) (old : bytes) (b : buf) : buf :=
  let k := key_shown key in
  if is_command_duplicated k c a b then b else
  let room := (nsaved b + 1) * LQ_INPUT_SIZE - offset b in
  let t := firstn (room - 1) (line c time ip k a overhead) in
  mkB (firstn (offset b) (data b) ++ t) (offset b + List.length t) (ntotal b) (saved b ++ [(query_text a, stored_key k c a old)]).
(* lqdetect.buffer[cmd] = b *)
Definition put (f : nat -> buf) (c : nat) (b : buf) : nat -> buf := fun x => if Nat.eqb x c then b else f x.
(* 163-183 *)
Definition do_lqdetect_save_cmd (s : state) (c : nat) (time ip key : bytes) (a : ask) (overhead : N) (old : bytes) : state :=
  if in_use s then
    let b0 := bufs s c in
    let b := mkB (data b0) (offset b0) ((ntotal b0 + 1) mod 2 ^ 32) (saved b0) in
    if Nat.ltb (nsaved b) LQ_SAVE_CNT then
      let b' := do_lqdetect_write c time ip key a overhead old b in
      if Nat.leb LQ_SAVE_CNT (nsaved b') then
        let o := S (overflow_cnt s) in
        mkS (put (bufs s) c b') o (if Nat.leb LQ_CMD_NUM o then false else true) (threshold s)
      else mkS (put (bufs s) c b') (overflow_cnt s) true (threshold s)
    else mkS (put (bufs s) c b) (overflow_cnt s) true (threshold s)
  else s.
(* calls: start, stop, a finished request of command c, show *)
Inductive event := Start (t : N) | Stop | Long (c : nat) (time ip key : bytes) (a : ask) (overhead : N) (old : bytes) | Show.
Inductive out := Started | Stopped | Already | Nothing | Text (r : bytes) | Beyond.
(* 243-273; buffers keep their bytes *)
Definition lqdetect_start (s : state) (t : N) : state * out :=
  if in_use s then (s, Already)
  else (mkS (fun c => mkB (data (bufs s c)) 0 0 []) 0 true (if N.eqb t 0 then LQ_THRESHOLD_DEFAULT else t), Started).
(* 334-337 *)
Definition piece (s : state) (c : nat) : bytes :=
  let b := bufs s c in command_str c ++ txt " : " ++ dec_text (ntotal b) ++ [10%N] ++ (if N.ltb 0 (ntotal b) then data b else []).
(* 320-344; Beyond: the texts are longer than the buffer *)
Definition lqdetect_result_get (s : state) : out :=
  let len := 32 * LQ_CMD_NUM + list_sum (map (fun c => offset (bufs s c)) (seq 0 LQ_CMD_NUM)) in
  let r := List.concat (map (piece s) (seq 0 LQ_CMD_NUM)) in
  if Nat.ltb (List.length r) len then Text r else Beyond.
(* 275-284 stop; 349, 361, 374, 386, 399, 412, 425, 438, 451, 463 the test of the threshold, and the test of lqdetect_in_use at the
   calls in memcached.c (1667, 1980, 2124, 10637, 10753, 11029, 11409, 11461, 11713, 11966).
   Simplified: both tests and the lock are one step, so a stop and start between them is not seen *)
Definition step (s : state) (e : event) : state * out :=
  match e with
  | Start t => lqdetect_start s t
  | Stop => if in_use s then (mkS (bufs s) (overflow_cnt s) false (threshold s), Stopped) else (s, Already)
  | Long c time ip key a overhead old =>
      (if (in_use s && N.leb (threshold s) overhead)%bool then do_lqdetect_save_cmd s c time ip key a overhead old else s, Nothing)
  | Show => (s, lqdetect_result_get s)
  end.
Fixpoint run (s : state) (l : list event) : state * list out :=
  match l with [] => (s, []) | e :: r => let '(s1, o) := step s e in let '(s2, os) := run s1 r in (s2, o :: os) end.
