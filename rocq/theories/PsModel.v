(* Model of the operation counts per key prefix: stats_prefix.c (with NESTED_PREFIX, which is
   defined, and PREFIX_MAX_DEPTH 1; NEW_PREFIX_STATS_MANAGEMENT is not defined), the commands "stats
   detail" (memcached.c 8054-8086) and "stats prefixes operation" (8455-8502), and the effect of
   flush_prefix (9033-9052), "stats reset" (302-313) and disable_stats_detail (280-285) on the counts.

   With depth 1 no entry has a parent or children, so these links are left out.  Memory is taken to
   suffice.  Every function runs under the lock of the statistics, so it is one step.  Names of entries
   contain no NUL byte (they are checked), so strncmp is equality. *)
From Coq Require Import String Ascii.
From Verif Require Import Base UtilModel ArgTypes.
From Coq Require Import List ZArith NArith Lia Bool.
Local Open Scope nat_scope.
Local Open Scope list_scope.

(* the functions stats_prefix_record_... *)
Inductive op :=
| OGet | OSet | ODelete | OIncr | ODecr
| LCreate | LInsert | LDelete | LGet
| SCreate | SInsert | SDelete | SGet | SExist
| MCreate | MInsert | MUpdate | MDelete | MGet
| BCreate | BInsert | BUpdate | BDelete | BIncr | BDecr | BGet | BCount | BPosition | BPwg | BGbp
| GetAttr | SetAttr.
Scheme Equality for op.
(* the fields of the structure, stats_prefix.c 40-96: num_gets is [Ops OGet], num_hits [Hits OGet],
   num_lop_creates [Ops LCreate], num_lop_insert_hits [Hits LInsert], ... *)
Inductive ctr := Ops (o : op) | Hits (o : op).
Definition ctr_eqb (a b : ctr) : bool :=
  match a, b with Ops x, Ops y => op_beq x y | Hits x, Hits y => op_beq x y | _, _ => false end.
(* which record functions take is_hit *)
Definition takes_hit (o : op) : bool :=
  match o with
  | OSet | ODelete | OIncr | ODecr | LCreate | SCreate | MCreate | BCreate | GetAttr | SetAttr => false
  | _ => true
  end.
Definition two64 : N := 18446744073709551616.
(* 451-1174: num_...s++ and, with a hit, num_..._hits++ *)
Definition bump (o : op) (hit : bool) (c : ctr -> N) : ctr -> N :=
  fun k => if ctr_eqb k (Ops o) then ((c k + 1) mod two64)%N
           else if (hit && takes_hit o && ctr_eqb k (Hits o))%bool then ((c k + 1) mod two64)%N
           else c k.

Record entry := mkE { e_name : bytes; e_cnt : ctr -> N }.
(* prefix_stats, num_prefixes, total_prefix_size, settings.detail_enabled *)
Record state := mkS { tab : nat -> list entry; num : Z; total : Z; detail : bool }.
Definition HASH_SIZE : nat := 1024.
Definition MAX_COUNT : Z := 10000.
Definition null_str : bytes := txt "<null>".
Definition init (on : bool) : state := mkS (fun _ => []) 0 0 on.
(* 137-151 *)
Definition clear (s : state) : state := mkS (fun _ => []) 0 0 (detail s).
Definition off (s : state) : state := mkS (tab s) (num s) (total s) false.

Section Hash.
Variable delim : N.
Variable hash : bytes -> N.  (* mc_hash; the C function depends on nothing but the bytes *)
Definition slot (p : bytes) : nat := N.to_nat (hash p mod 1024).
Definition set_chain (t : nat -> list entry) (i : nat) (c : list entry) : nat -> list entry :=
  fun j => if Nat.eqb j i then c else t j.

(* 405-424: position of the first delimiter behind the first byte *)
Fixpoint find_delim (s : bytes) (i : nat) : option nat :=
  match s with
  | [] => None
  | x :: r => if N.eqb x delim then Some i else find_delim r (S i)
  end.
Definition prefix_len (key : bytes) : nat :=
  match key with [] => 0 | _ :: r => match find_delim r 1 with Some i => i | None => 0 end end.
Fixpoint lookup (c : list entry) (p : bytes) : option entry :=
  match c with
  | [] => None
  | e :: r => if beqb (e_name e) p then Some e else lookup r p
  end.
(* mc_isvalidname(str, len) of util.c 174-187: the first byte is looked at even when len is 0 *)
Definition valid_at (str : bytes) (len : nat) : bool :=
  if N.eqb (hd 0%N str) 45 then false else forallb mc_isnamechar (firstn len str).
Definition name_size (p : bytes) : Z := match p with [] => Z.of_nat (List.length null_str) | _ => Z.of_nat (List.length p) end.

(* 158-255 do_stats_prefix_insert; true: the entry is returned *)
Definition insert (s : state) (key : bytes) (n : nat) : state * bool :=
  if Z.leb MAX_COUNT (num s) then (off s, false)
  else if negb (valid_at key n) then (s, false)
  else
    let p := firstn n key in
    let s := mkS (set_chain (tab s) (slot p) (mkE p (fun _ => 0%N) :: tab s (slot p)))
                 (num s + 1) (total s + name_size p) (detail s) in
    if Z.leb MAX_COUNT (num s) then (off s, false) else (s, true).
Fixpoint bump_in (c : list entry) (p : bytes) (o : op) (hit : bool) : list entry :=
  match c with
  | [] => []
  | e :: r => if beqb (e_name e) p then mkE (e_name e) (bump o hit (e_cnt e)) :: r else e :: bump_in r p o hit
  end.
Definition count_at (s : state) (p : bytes) (o : op) (hit : bool) : state :=
  mkS (set_chain (tab s) (slot p) (bump_in (tab s (slot p)) p o hit)) (num s) (total s) (detail s).
(* 401-446 stats_prefix_find and 451-1174 *)
Definition record (s : state) (o : op) (hit : bool) (key : bytes) : state :=
  let n := prefix_len key in
  let p := firstn n key in
  match lookup (tab s (slot p)) p with
  | Some _ => count_at s p o hit
  | None => let '(s, found) := insert s key n in if found then count_at s p o hit else s
  end.

(* 330-382 do_stats_prefix_delete *)
Fixpoint unlink (c : list entry) (p : bytes) : list entry :=
  match c with
  | [] => []
  | e :: r => if beqb (e_name e) p then r else e :: unlink r p
  end.
Definition delete (s : state) (p : bytes) : state :=
  match lookup (tab s (slot p)) p with
  | None => s
  | Some _ => mkS (set_chain (tab s) (slot p) (unlink (tab s (slot p)) p)) (num s - 1) (total s - name_size p) (detail s)
  end.

(* what happens to the server *)
Inductive ev :=
| EOp (o : op) (hit : bool) (key : bytes)     (* a command of a client *)
| EFlush (token : bytes)                      (* flush_prefix, done or without items *)
| EDetail (on : bool)                         (* stats detail on, off *)
| EReset.                                     (* stats reset *)
Definition step (s : state) (e : ev) : state :=
  match e with
  | EOp o hit key => if detail s then record s o hit key else s
  | EFlush t => if detail s then delete s (if beqb t null_str then [] else t) else s
  | EDetail b => mkS (tab s) (num s) (total s) b
  | EReset => clear s
  end.
Definition run (s : state) (h : list ev) : state := fold_left step h s.

(* ---- the text ---- *)
(* 1214-1225 *)
Definition format : bytes := txt "PREFIX %s get %llu hit %llu set %llu del %llu inc %llu dec %llu lcs %llu lis %llu lih %llu lds %llu ldh %llu lgs %llu lgh %llu scs %llu sis %llu sih %llu sds %llu sdh %llu sgs %llu sgh %llu ses %llu seh %llu mcs %llu mis %llu mih %llu mus %llu muh %llu mds %llu mdh %llu mgs %llu mgh %llu bcs %llu bis %llu bih %llu bus %llu buh %llu bds %llu bdh %llu bps %llu bph %llu bms %llu bmh %llu bgs %llu bgh %llu bns %llu bnh %llu pfs %llu pfh %llu pgs %llu pgh %llu gps %llu gph %llu gas %llu sas %llu" ++ [13%N; 10%N].
(* 1178-1205: the arguments of snprintf behind the name *)
Definition args : list ctr :=
  [Ops OGet; Hits OGet; Ops OSet; Ops ODelete; Ops OIncr; Ops ODecr;
   Ops LCreate; Ops LInsert; Hits LInsert; Ops LDelete; Hits LDelete; Ops LGet; Hits LGet;
   Ops SCreate; Ops SInsert; Hits SInsert; Ops SDelete; Hits SDelete; Ops SGet; Hits SGet; Ops SExist; Hits SExist;
   Ops MCreate; Ops MInsert; Hits MInsert; Ops MUpdate; Hits MUpdate; Ops MDelete; Hits MDelete; Ops MGet; Hits MGet;
   Ops BCreate; Ops BInsert; Hits BInsert; Ops BUpdate; Hits BUpdate; Ops BDelete; Hits BDelete; Ops BIncr; Hits BIncr;
   Ops BDecr; Hits BDecr; Ops BGet; Hits BGet; Ops BCount; Hits BCount; Ops BPosition; Hits BPosition;
   Ops BPwg; Hits BPwg; Ops BGbp; Hits BGbp; Ops GetAttr; Ops SetAttr].
(* snprintf with %s (once, the name) and %llu; a missing argument is printed as nothing *)
Fixpoint render (fmt : bytes) (name : bytes) (l : list N) : bytes :=
  match fmt with
  | [] => []
  | x :: r =>
      if negb (N.eqb x 37) then x :: render r name l
      else match r with
           | [] => [x]
           | y :: r =>
               if N.eqb y 115 then name ++ render r name l
               else match r with  (* llu *)
                    | _ :: _ :: r => match l with [] => render r name [] | v :: l => dec_text v ++ render r name l end
                    | _ => []
                    end
           end
  end.
Definition write_entry (e : entry) : bytes :=
  render format (match e_name e with [] => null_str | p => p end) (map (e_cnt e) args).
(* the loop of writes; None is a failed assert(pos < size) *)
Fixpoint write_all (size : Z) (pos : Z) (l : list entry) : option bytes :=
  match l with
  | [] => let t := txt "END" ++ [13%N; 10%N] in
          if Z.ltb (pos + Z.of_nat (List.length t)) size then Some t else None
  | e :: r =>
      let t := write_entry e in
      let pos := (pos + Z.of_nat (List.length t))%Z in
      if Z.ltb pos size then match write_all size pos r with Some u => Some (t ++ u) | None => None end else None
  end.
Definition all_entries (s : state) : list entry := flat_map (tab s) (seq 0 HASH_SIZE).
(* the size of the buffer, 1238-1253 *)
Definition buf_size (names nprefixes : Z) : Z :=
  (Z.of_nat (List.length format) + names + nprefixes * (Z.of_nat (List.length format) - 2 + 54 * (20 - 4)) + 6)%Z.
(* 1212-1303 stats_prefix_dump *)
Definition dump_all (s : state) : option bytes := write_all (buf_size (total s) (num s)) 0 (all_entries s).
Definition pick (s : state) (t : bytes) : list entry :=
  let p := if beqb t null_str then [] else t in
  match lookup (tab s (slot p)) p with Some e => [e] | None => [] end.
Definition dump_some (s : state) (tokens : list bytes) : option bytes :=
  write_all (buf_size (fold_right (fun t n => Z.of_nat (List.length t) + n)%Z 0%Z tokens) (Z.of_nat (List.length tokens))) 0
            (flat_map (pick s) tokens).
(* memcached.c 8065-8077 and 8455-8502; None is a crash *)
Definition too_many : bytes := txt "CLIENT_ERROR invalid: too many prefixes".
Definition stats_operation (s : state) (max : Z) (tokens : list bytes) : option bytes :=
  match tokens with
  | [] => if Z.ltb max (num s) then Some too_many else dump_all s
  | _ => if Z.ltb max (Z.of_nat (List.length tokens)) then Some too_many else dump_some s tokens
  end.
End Hash.
