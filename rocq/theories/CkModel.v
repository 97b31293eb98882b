(* Model of /repo/engines/default/checkpoint.c: the checkpoint thread, the files it creates and
   removes, the sweep of stale files and the choice of a checkpoint at start-up.
   The content of a snapshot file is reduced to whether its tail is a valid "snapshot done"
   record (chkpt_snapshot.c 693-713); the content of command log files is the business of
   RecModel.v / RcvModel.v.  Every change of a directory is an event; a crash may happen between
   any two events. *)
From Verif Require Import Base UtilModel.
Open Scope N_scope.

(* checkpoint.c 32-33 *)
Definition SNAP : bytes := [115; 110; 97; 112; 115; 104; 111; 116; 95].       (* "snapshot_" *)
Definition CLOG : bytes := [99; 109; 100; 108; 111; 103; 95].                 (* "cmdlog_" *)
(* checkpoint.c 31 CHKPT_FILE_NAME_FORMAT without the directory part; times are positive *)
Definition snap_name (t : N) : bytes := SNAP ++ dec_text t.
Definition log_name (t : N) : bytes := CLOG ++ dec_text t.

(* strncmp(prefix, name, strlen(prefix)) == 0 *)
Fixpoint starts (p s : bytes) : bool :=
  match p, s with
  | [], _ => true
  | a :: p', b :: s' => (a =? b) && starts p' s'
  | _ :: _, [] => false
  end.

(* strtol(s, NULL, 10) as a 64 bit long (C11 7.22.1.4): clamped on overflow, 0 without digits *)
Definition strtol64 (s : bytes) : Z :=
  match strto s with
  | None => 0%Z
  | Some (neg, m, _) =>
      let v := if neg then Z.opp (Z.of_N m) else Z.of_N m in
      Z.max (- 2 ^ 63) (Z.min (2 ^ 63 - 1) v)
  end.
(* atoi() of glibc: (int)strtol(s, NULL, 10), used at checkpoint.c 102 and 127 *)
Definition atoi (s : bytes) : Z := ((strtol64 s + 2 ^ 31) mod 2 ^ 32 - 2 ^ 31)%Z.
(* atoll(), used at checkpoint.c 396 *)
Definition atoll (s : bytes) : Z := strtol64 s.

(* strchr(name, '_') + 1 : checkpoint.c 396 *)
Fixpoint after_underscore (s : bytes) : bytes :=
  match s with
  | [] => []
  | c :: s' => if c =? 95 then s' else after_underscore s'
  end.

(* the two directories data_path and logs_path: names, and for snapshots whether the file ends
   with a "snapshot done" record *)
Record disk := { d_snaps : list (bytes * bool); d_logs : list bytes }.

Inductive ev :=
| NewSnap (n : bytes)    (* open(O_CREAT) of a snapshot file: checkpoint.c 151 *)
| NewLog (n : bytes)     (* open(O_CREAT) of a command log: checkpoint.c 162, cmdlogfile.c 278 *)
| Trunc (n : bytes)      (* open(O_TRUNC) of the snapshot file: chkpt_snapshot.c 353 *)
| Done (n : bytes)       (* the "snapshot done" record is in the snapshot file: chkpt_snapshot.c 389 *)
| RmSnap (n : bytes)     (* unlink of a snapshot: checkpoint.c 172, 187 *)
| RmLog (n : bytes)      (* unlink of a command log: checkpoint.c 196 *)
| SwSnap (n : bytes)     (* unlink of a snapshot by the sweep: checkpoint.c 106 *)
| SwLog (n : bytes).     (* unlink of a command log by the sweep: checkpoint.c 131 *)

Definition has_snap (d : disk) (n : bytes) : bool := existsb (fun x => beqb (fst x) n) (d_snaps d).
Definition has_log (d : disk) (n : bytes) : bool := existsb (beqb n) (d_logs d).
Definition mark (n : bytes) (b : bool) (l : list (bytes * bool)) : list (bytes * bool) :=
  map (fun x => if beqb (fst x) n then (fst x, b) else x) l.
Definition apply_ev (d : disk) (e : ev) : disk :=
  match e with
  | NewSnap n => if has_snap d n then d else {| d_snaps := d_snaps d ++ [(n, false)]; d_logs := d_logs d |}
  | NewLog n => if has_log d n then d else {| d_snaps := d_snaps d; d_logs := d_logs d ++ [n] |}
  | Trunc n => {| d_snaps := mark n false (d_snaps d); d_logs := d_logs d |}
  | Done n => {| d_snaps := mark n true (d_snaps d); d_logs := d_logs d |}
  | RmSnap n | SwSnap n =>
      {| d_snaps := filter (fun x => negb (beqb (fst x) n)) (d_snaps d); d_logs := d_logs d |}
  | RmLog n | SwLog n =>
      {| d_snaps := d_snaps d; d_logs := filter (fun x => negb (beqb x n)) (d_logs d) |}
  end.
Definition apply_evs (d : disk) (l : list ev) : disk := fold_left apply_ev l d.

(* what the surroundings do during one round of the thread: the results of the successive unlink
   calls (true: removed or ENOENT; true when the list is used up), whether the directories could be
   opened, cmdlog_file_dual_write_finished(), do_checkpoint_needed(), the local date and time
   (util.c 233-244), and whether creating the two files, opening the log and the snapshot worked *)
Record env := { v_unlink : list bool; v_dir1 : bool; v_dir2 : bool; v_dual : bool; v_needed : bool;
                v_clock : N; v_mksnap : bool; v_mklog : bool; v_open : bool; v_trunc : bool; v_scan : bool }.

Definition unlink (u : list bool) : bool * list bool :=
  match u with [] => (true, []) | b :: u' => (b, u') end.

(* the fields of chkpt_st used, and the locals of chkpt_thread_main: checkpoint.c 46-60, 303-308.
   Times are the int64_t values; -1 is "none". *)
Record ck := { c_last : Z; c_prev : Z; c_need : bool; c_sweep : nat; c_elapsed : nat }.

(* checkpoint.c 84-141 do_chkpt_sweep_files, one directory: the names given to unlink successfully *)
Fixpoint sweep_dir (pfx : bytes) (last : Z) (names : list bytes) (u : list bool) : list bytes * list bool * bool :=
  match names with
  | [] => ([], u, true)
  | n :: names' =>
      if negb (starts pfx n) || Z.eqb last (atoi (skipn (length pfx) n)) then sweep_dir pfx last names' u
      else
        let '(ok, u1) := unlink u in
        if ok then
          let '(l, u2, r) := sweep_dir pfx last names' u1 in (n :: l, u2, r)
        else ([], u1, false)
  end.
Definition do_sweep (v : env) (last : Z) (d : disk) (u : list bool) : list ev * list bool * bool :=
  let '(l1, u1, r1) :=
    if v_dir1 v then sweep_dir SNAP last (map fst (d_snaps d)) u else ([], u, false) in
  let '(l2, u2, r2) :=
    if v_dir2 v then sweep_dir CLOG last (d_logs d) u1 else ([], u1, false) in
  (map SwSnap l1 ++ map SwLog l2, u2, r1 && r2).

Inductive result := Success | Error | ErrorRemove.

(* checkpoint.c 145-181 do_chkpt_create_files *)
Definition create_files (v : env) (t : N) (u : list bool) : list ev * list bool * result :=
  if negb (v_mksnap v) then ([], u, Error)
  else if v_mklog v then ([NewSnap (snap_name t); NewLog (log_name t)], u, Success)
  else
    let '(ok, u1) := unlink u in
    if ok then ([NewSnap (snap_name t); RmSnap (snap_name t)], u1, Error)
    else ([NewSnap (snap_name t)], u1, ErrorRemove).

(* checkpoint.c 184-205 do_chkpt_remove_files *)
Definition remove_files (t : N) (u : list bool) : list ev * list bool * bool :=
  let '(ok, u1) := unlink u in
  if negb ok then ([], u1, false)
  else
    let '(ok2, u2) := unlink u1 in
    if negb ok2 then ([RmSnap (snap_name t)], u2, false)
    else ([RmSnap (snap_name t); RmLog (log_name t)], u2, true).

(* checkpoint.c 233-286 do_checkpoint; chkpt_snapshot_direct opens (and truncates) the file
   (chkpt_snapshot.c 353), dumps and writes the final record (380-395) *)
Definition do_checkpoint (v : env) (s : ck) (u : list bool) : ck * list ev * list bool * result :=
  let t := v_clock v in
  let '(e1, u1, r) := create_files v t u in
  match r with
  | Success =>
      let failed (e : list ev) :=
        let '(e2, u2, ok) := remove_files t u1 in
        (s, e1 ++ e ++ e2, u2, if ok then Error else ErrorRemove) in
      if negb (v_open v) then failed []
      else if negb (v_trunc v) then failed []
      else if v_scan v then
        ({| c_last := Z.of_N t; c_prev := c_last s; c_need := c_need s; c_sweep := c_sweep s; c_elapsed := c_elapsed s |},
         e1 ++ [Trunc (snap_name t); Done (snap_name t)], u1, Success)
      else failed [Trunc (snap_name t)]
  | _ => (s, e1, u1, r)
  end.

(* checkpoint.c 34-35 *)
Definition CHECK_INTERVAL : nat := 5.
Definition SWEEP_INTERVAL : nat := 5.

(* checkpoint.c 311-349: one round of the loop of chkpt_thread_main.  The directory contents seen
   by readdir are those at the start of the round (the sweep comes first). *)
Definition tick (v : env) (s : ck) (d : disk) : ck * list ev :=
  let el := S (c_elapsed s) in
  (* 319-326 *)
  let '(need1, sw1, ev1, u1) :=
    if c_need s then
      if Nat.leb SWEEP_INTERVAL (S (c_sweep s)) then
        let '(e, u, ok) := do_sweep v (c_last s) d (v_unlink v) in (negb ok, O, e, u)
      else (c_need s, S (c_sweep s), [], v_unlink v)
    else (c_need s, c_sweep s, [], v_unlink v) in
  let s1 := {| c_last := c_last s; c_prev := c_prev s; c_need := need1; c_sweep := sw1; c_elapsed := el |} in
  if Nat.leb CHECK_INTERVAL el then
    (* 329-338 *)
    let '(s2, ev2, u2) :=
      if negb (Z.eqb (c_prev s1) (-1)) && v_dual v then
        let '(e, u, ok) := remove_files (Z.to_N (c_prev s1)) u1 in
        ({| c_last := c_last s1; c_prev := (-1)%Z; c_need := c_need s1 || negb ok; c_sweep := c_sweep s1; c_elapsed := el |}, e, u)
      else (s1, [], u1) in
    (* 339-346 *)
    let '(s3, ev3) :=
      if Z.eqb (c_prev s2) (-1) && v_needed v then
        let '(s', e, _, r) := do_checkpoint v s2 u2 in
        ({| c_last := c_last s'; c_prev := c_prev s';
            c_need := c_need s' || match r with ErrorRemove => true | _ => false end;
            c_sweep := c_sweep s'; c_elapsed := el |}, e)
      else (s2, []) in
    ({| c_last := c_last s3; c_prev := c_prev s3; c_need := c_need s3; c_sweep := c_sweep s3; c_elapsed := O |},
     ev1 ++ ev2 ++ ev3)
  else (s1, ev1).

(* alphasort in the C locale (the server never calls setlocale): byte order of the names *)
Fixpoint name_le (a b : bytes) : bool :=
  match a, b with
  | [], _ => true
  | _ :: _, [] => false
  | x :: a', y :: b' => if x <? y then true else if y <? x then false else name_le a' b'
  end.
Fixpoint insert (x : bytes * bool) (l : list (bytes * bool)) : list (bytes * bool) :=
  match l with
  | [] => [x]
  | y :: l' => if name_le (fst x) (fst y) then x :: l else y :: insert x l'
  end.
Definition alphasort (l : list (bytes * bool)) : list (bytes * bool) := fold_right insert [] l.

(* checkpoint.c 360-413 chkpt_recovery_analysis: the last name in order whose file is valid gives
   lasttime; -1 when there is none (a file that cannot be opened makes the start fail: not modelled) *)
Definition analysis (d : disk) : Z :=
  match find snd (rev (alphasort (filter (fun x => starts SNAP (fst x)) (d_snaps d)))) with
  | Some (n, _) => atoll (after_underscore n)
  | None => (-1)%Z
  end.

(* checkpoint.c 415-450 chkpt_recovery_redo after chkpt_init (453-473); None: the server does not
   start.  What applying the files does is the business of RcvModel.v. *)
Definition restart (v : env) (d : disk) : option ck * list ev :=
  let t := analysis d in
  let s := {| c_last := t; c_prev := (-1)%Z; c_need := false; c_sweep := O; c_elapsed := O |} in
  if Z.ltb 0 t then (Some s, [NewLog (log_name (Z.to_N t))])
  else
    let '(s', e, _, r) := do_checkpoint v s (v_unlink v) in
    match r with Success => (Some s', e) | _ => (None, e) end.

(* The life of a server: rounds of the thread, crashes and restarts.  [cut = Some k]: the process
   dies after the k-th change of the directories in that round (k = 0: before any). *)
Record op := { o_env : env; o_cut : option nat }.
Record sys := { y_ck : option ck; y_disk : disk }.

Definition round_of (o : op) (y : sys) : option ck * list ev :=
  match y_ck y with
  | Some s => let '(s', e) := tick (o_env o) s (y_disk y) in (Some s', e)
  | None => restart (o_env o) (y_disk y)
  end.
(* the changes of the directories in one step, and the state after it *)
Definition step_evs (o : op) (y : sys) : list ev :=
  match o_cut o with None => snd (round_of o y) | Some k => firstn k (snd (round_of o y)) end.
Definition step (o : op) (y : sys) : sys :=
  {| y_ck := match o_cut o with None => fst (round_of o y) | Some _ => None end;
     y_disk := apply_evs (y_disk y) (step_evs o y) |}.
Fixpoint run (l : list op) (y : sys) : sys :=
  match l with [] => y | o :: l' => run l' (step o y) end.
Fixpoint trace (l : list op) (y : sys) : list ev :=
  match l with [] => [] | o :: l' => step_evs o y ++ trace l' (step o y) end.
