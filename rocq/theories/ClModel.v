(* Model of the command log (cmdlog.c): worker threads append the text of commands to a ring buffer
   under a lock (395-442 cmdlog_write), a flush thread copies it to files (136-228
   cmdlog_flush_thread) and reads the buffer without the lock, an administrator starts and stops it
   (265-354).  Offsets are Z; the memory is a function.  One step is what happens under one hold of a lock or
   between two.  Left out: dates, file names, the sleeping and waking of the flush thread (it may
   run at any time), failed malloc and pthread_create. *)
From Verif Require Import Base.
From Coq Require Import List ZArith NArith Bool.
Local Open Scope Z_scope.
Local Open Scope list_scope.

Definition INPUT_SIZE : nat := 400.                 (* 30 *)
Definition SIZE : Z := 10485760.                    (* 31 *)
Definition WRITE_SIZE : Z := 4096.                  (* 32 *)
Definition FILE_MAXSIZE : Z := 10485760.            (* 34 *)
Definition FILE_MAXNUM : Z := 10.                   (* 35 *)

(* 395-415: snprintf into 400 bytes; the return value is the length without truncation *)
Definition input_of (full : bytes) : bytes :=
  let s := firstn (INPUT_SIZE - 1) full in
  if Nat.ltb INPUT_SIZE (List.length full) then firstn (INPUT_SIZE - 4) s ++ [46%N; 46%N; 10%N] else s.

Inductive why := NotStarted | Overflow | FlushErr.  (* 42-45 without RUNNING *)
(* where the flush thread is: before the loop test (147), before the snapshot (161), before the write with its
   snapshot of tail and last (166), before the update of the buffer with the bytes written and whether
   it was the wrapped part (189, 208), behind the loop (221), gone *)
Inductive place := Top | Snap | Got (ct cl : Z) | Wrote (wrapped : bool) (n : Z) | Ending (w : why) | Gone (w : why).
Record state := mkS {
  mem : Z -> N; head : Z; tail : Z; last : Z;
  in_use : bool; reqstop : bool;
  pc : place; fd : bool; files : list bytes;        (* latest first *)
  nwtotal : Z;
  entered : N; skipped : N }.
Definition init : state := mkS (fun _ => 0%N) 0 0 0 false false (Gone NotStarted) false [] 0 0 0.

Definition slice (m : Z -> N) (a : Z) (n : Z) : bytes := map (fun i => m (a + Z.of_nat i)) (seq 0 (Z.to_nat n)).
Definition copy (m : Z -> N) (a : Z) (r : bytes) : Z -> N :=
  fun i => if (Z.leb a i && Z.ltb i (a + Z.of_nat (List.length r)))%bool then nth (Z.to_nat (i - a)) r 0%N else m i.
Definition add_file (l : list bytes) (d : bytes) : list bytes := match l with f :: r => (f ++ d) :: r | [] => [d] end.

Inductive out := OK | Already | Error | NoFile | Taken | Skip.
Definition w_pc (s : state) (p : place) := mkS (mem s) (head s) (tail s) (last s) (in_use s) (reqstop s) p (fd s) (files s) (nwtotal s) (entered s) (skipped s).
Definition w_file (s : state) (p : place) (f : bool) (l : list bytes) (n : Z) :=
  mkS (mem s) (head s) (tail s) (last s) (in_use s) (reqstop s) p f l n (entered s) (skipped s).
Definition w_ends (s : state) (h l : Z) := mkS (mem s) h (tail s) l (in_use s) (reqstop s) (pc s) (fd s) (files s) (nwtotal s) (entered s) (skipped s).
Definition w_in_use (s : state) (b : bool) := mkS (mem s) (head s) (tail s) (last s) b (reqstop s) (pc s) (fd s) (files s) (nwtotal s) (entered s) (skipped s).

(* 417-441; None: an assertion fails *)
Definition cmdlog_write (s : state) (full : bytes) : option (state * out) :=
  let r := input_of full in
  let len := Z.of_nat (List.length r) in
  let wrap := (Z.leb (head s) (tail s) && Z.leb (SIZE - tail s) len)%bool in
  let la := if wrap then tail s else last s in
  let ta := if wrap then 0 else tail s in
  let put (t : Z) (sk : bool) := mkS (if sk then mem s else copy (mem s) ta r) (head s) t la (in_use s) (reqstop s) (pc s) (fd s) (files s) (nwtotal s)
                   ((entered s + 1) mod 2 ^ 32)%N (if sk then ((skipped s + 1) mod 2 ^ 32)%N else skipped s) in
  if Z.leb (head s) ta then
    if (Z.eqb la 0 && Z.ltb len (SIZE - ta))%bool then Some (put (ta + len) false, Taken) else None
  else if Z.ltb 0 la then
    if Z.ltb len (head s - ta) then Some (put (ta + len) false, Taken) else Some (put ta true, Skip)
  else None.

(* one step of the flush thread; [k] is what open (not negative: success) or write returns *)
Definition rotate (s : state) : state :=             (* 213-219 *)
  if Z.leb FILE_MAXSIZE (nwtotal s) then
    if Z.leb FILE_MAXNUM (Z.of_nat (List.length (files s))) then w_file s (Ending Overflow) false (files s) 0
    else w_file s Top false (files s) 0
  else w_pc s Top.
Definition do_write (s : state) (wrapped : bool) (n : Z) (k : Z) : state :=   (* 179-188, 199-207 *)
  if Z.eqb k n then w_file s (Wrote wrapped n) (fd s) (add_file (files s) (slice (mem s) (head s) n)) (nwtotal s + n)
  else w_file s (Ending FlushErr) (fd s) (add_file (files s) (slice (mem s) (head s) (Z.min k n))) (nwtotal s).
Definition flush_step (s : state) (k : Z) : option state :=
  match pc s with
  | Top =>                                            (* 147-159 *)
      Some (if reqstop s then w_pc s (Ending NotStarted)
            else if fd s then w_pc s Snap
            else if Z.leb 0 k then w_file s Snap true ([] :: files s) (nwtotal s)
            else w_pc s (Ending FlushErr))
  | Snap => Some (w_pc s (Got (tail s) (last s)))     (* 161-164 *)
  | Got ct cl =>                                      (* 166-207 *)
      if Z.leb (head s) ct then
        if Z.eqb cl 0 then
          if in_use s then
            if Z.ltb (ct - head s) WRITE_SIZE then Some (w_pc s Top)
            else Some (do_write s false (if Z.ltb (ct - head s) WRITE_SIZE then ct - head s else WRITE_SIZE) k)
          else if Z.eqb (head s) ct then Some (w_pc s (Ending NotStarted))
          else Some (do_write s false (if Z.ltb (ct - head s) WRITE_SIZE then ct - head s else WRITE_SIZE) k)
        else None
      else if Z.ltb 0 cl then
        if Z.ltb 0 (cl - head s) then Some (do_write s true (cl - head s) k) else Some (rotate s)
      else None
  | Wrote false n => Some (rotate (w_ends s (head s + n) (last s)))
  | Wrote true n => Some (rotate (w_ends s 0 0))
  | Ending w => Some (w_pc (w_in_use s false) (Gone w))   (* 221-227 *)
  | Gone w => Some s
  end.

Inductive event := Start (opened : bool) | Stop | Quit | Write (full : bytes) | Flush (k : Z).
Definition running (s : state) : bool := match pc s with Gone _ => false | _ => true end.
(* 265-339 *)
Definition cmdlog_start (s : state) (opened : bool) : state * out :=
  if in_use s then (s, Already)
  else if running s then (s, Error)
  else if opened then (mkS (mem s) 0 0 0 true (reqstop s) Top false [] 0 0 0, OK)
  else (mkS (mem s) 0 0 0 false (reqstop s) (Gone NotStarted) false [] 0 0 0, NoFile).
Definition step (s : state) (e : event) : option (state * out) :=
  match e with
  | Start o => Some (cmdlog_start s o)
  | Stop => Some (if in_use s then (w_in_use s false, OK) else (s, Already))     (* 341-354 *)
  | Quit => Some (mkS (mem s) (head s) (tail s) (last s) (in_use s) true (pc s) (fd s) (files s) (nwtotal s) (entered s) (skipped s), OK)  (* 249 *)
  | Write full => cmdlog_write s full
  | Flush k => match flush_step s k with Some s1 => Some (s1, OK) | None => None end
  end.
Fixpoint run (s : state) (l : list event) : option (state * list out) :=
  match l with
  | [] => Some (s, [])
  | e :: r => match step s e with
              | None => None
              | Some (s1, o) => match run s1 r with Some (s2, os) => Some (s2, o :: os) | None => None end
              end
  end.
