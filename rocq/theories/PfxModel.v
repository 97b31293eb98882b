(* engines/default/prefix.c: the prefix table and its per prefix statistics, the engine wide item
   statistics of item_base.c, and the prefix scan (SCAN PREFIX).

   Each operation runs under the cache lock.  A prefix_t is a heap cell named by a number; cell 0 is
   null_prefix_data.  DEFAULT_PREFIX_MAX_DEPTH is 1 (prefix.c 34), so every parent_prefix is NULL and
   child_prefix_items stays 0: the inclusive counters are never touched and are left out, as are
   oldest_live (KvModel), create_time and log messages.  ENABLE_STICKY_ITEM is on.
   None: an assert fails, or memory that is freed or past an array is used. *)
From Verif Require Import Base UtilModel KvModel.
Local Open Scope N_scope.

(* types.h ENGINE_ITEM_TYPE *)
Inductive ity := TKv | TList | TSet | TMap | TBtree.
Definition ity_eqb (a b : ity) : bool :=
  match a, b with
  | TKv, TKv | TList, TList | TSet, TSet | TMap, TMap | TBtree, TBtree => true
  | _, _ => false
  end.

(* prefix.h 23-60 prefix_t *)
Record pt := mkPt {
  pname : bytes; pint : bool; plinked : bool; pref : N;
  cnts : ity -> N; byts : ity -> N; tcnt : N; tbyt : N }.

(* a linked hash_item: base = slabs_space_size(ITEM_ntotal), extra = info->stotal of a collection
   (uint32, item_base.h 225; 0 for a key-value item), sticky: exptime is -1, ptr = pfxptr *)
Record hitem := mkHi { hkey : bytes; htype : ity; base : N; extra : N; sticky : bool; ptr : N }.

(* default_engine.h 86-96 struct engine_stats *)
Record gstats := mkGs { curr_items : N; curr_bytes : N; sticky_items : N; sticky_bytes : N; total_items : N }.

Record pstate := mkPs {
  heap : N -> option pt;
  fresh : N;                 (* the next heap cell *)
  buck : N -> list N;        (* hashtable *)
  total : N;                 (* total_prefix_items, uint32 *)
  its : list (N * hitem);    (* linked items by address *)
  gs : gstats }.

Definition u64 : N := 2 ^ 64.
Definition u32 : N := 2 ^ 32.
Definition nobody : pt := mkPt [] false false 0 (fun _ => 0) (fun _ => 0) 0 0.

(* 75-97 prefix_init *)
Definition pinit : pstate :=
  mkPs (fun p => if p =? 0 then Some nobody else None) 1 (fun _ => []) 0 [] (mkGs 0 0 0 0 0).

Definition w_heap s h := mkPs h (fresh s) (buck s) (total s) (its s) (gs s).
Definition w_its s l := mkPs (heap s) (fresh s) (buck s) (total s) l (gs s).
Definition w_gs s g := mkPs (heap s) (fresh s) (buck s) (total s) (its s) g.
Definition hset (h : N -> option pt) (p : N) (x : option pt) : N -> option pt :=
  fun q => if q =? p then x else h q.
Definition bset (f : N -> list N) (b : N) (l : list N) : N -> list N :=
  fun c => if c =? b then l else f c.
Definition tset (f : ity -> N) (t : ity) (x : N) : ity -> N := fun u => if ity_eqb u t then x else f u.

Section Prefix.
Variable hash : bytes -> N.

(* 31-34 hashmask(DEFAULT_PREFIX_HASHPOWER) *)
Definition pbucket (n : bytes) : N := N.land (hash n) 1023.

(* 115-124 _prefix_find *)
Fixpoint find_chain (h : N -> option pt) (n : bytes) (l : list N) : option (option N) :=
  match l with
  | [] => Some None
  | p :: r => match h p with
              | None => None
              | Some x => if beqb n (pname x) then Some (Some p) else find_chain h n r
              end
  end.
Definition pfind (s : pstate) (n : bytes) : option (option N) := find_chain (heap s) n (buck s (pbucket n)).

(* 149-174 _prefix_item_count_incr; item_size is a uint32 *)
Definition count_incr (x : pt) (t : ity) (size : N) : pt :=
  let z := size mod u32 in
  mkPt (pname x) (pint x) (plinked x) (pref x)
       (tset (cnts x) t ((cnts x t + 1) mod u64)) (tset (byts x) t ((byts x t + z) mod u64))
       ((tcnt x + 1) mod u64) ((tbyt x + z) mod u64).
(* 176-201 _prefix_item_count_decr; subtraction of uint64 *)
Definition sub64 (a b : N) : N := (a + u64 - b mod u64) mod u64.
Definition count_decr (x : pt) (t : ity) (size : N) : pt :=
  let z := size mod u32 in
  mkPt (pname x) (pint x) (plinked x) (pref x)
       (tset (cnts x) t (sub64 (cnts x t) 1)) (tset (byts x) t (sub64 (byts x t) z))
       (sub64 (tcnt x) 1) (sub64 (tbyt x) z).
(* 203-243 _prefix_item_bytes_incr and _decr *)
Definition bytes_incr (x : pt) (t : ity) (n : N) : pt :=
  let z := n mod u32 in
  mkPt (pname x) (pint x) (plinked x) (pref x) (cnts x)
       (tset (byts x) t ((byts x t + z) mod u64)) (tcnt x) ((tbyt x + z) mod u64).
Definition bytes_decr (x : pt) (t : ity) (n : N) : pt :=
  let z := n mod u32 in
  mkPt (pname x) (pint x) (plinked x) (pref x) (cnts x)
       (tset (byts x) t (sub64 (byts x t) z)) (tcnt x) (sub64 (tbyt x) z).

(* prefix.h 62 PREFIX_IS_RSVD: the name is "arcus" *)
Definition reserved (n : bytes) : bool := beqb n [97; 114; 99; 117; 115].

(* util.c 174-187 mc_isvalidname on the first nprefix bytes of the key; the first byte of the key is
   looked at even if nprefix is 0 *)
Definition name_ok (k n : bytes) : bool :=
  match n with
  | [] => match k with c :: _ => negb (c =? 45) | [] => true end
  | _ => mc_isvalidname n
  end.

Inductive linked := LOk (p : N) (s : pstate) | LBadName | LNoMem.

(* 245-274 _prefix_insert of a fresh cell *)
Definition new_prefix (s : pstate) (n : bytes) : pstate :=
  let x := mkPt n (reserved n) true 0 (fun _ => 0) (fun _ => 0) 0 0 in
  let b := pbucket n in
  mkPs (hset (heap s) (fresh s) (Some x)) (fresh s + 1) (bset (buck s) b (fresh s :: buck s b))
       ((total s + 1) mod u32) (its s) (gs s).

(* 331-431 prefix_link; mem: malloc succeeds *)
Definition prefix_link (s : pstate) (k : bytes) (t : ity) (size : N) (mem : bool) : option linked :=
  let done s p := match heap s p with
                  | None => None
                  | Some x => Some (LOk p (w_heap s (hset (heap s) p (Some (count_incr x t size)))))
                  end in
  match pfx k with
  | None => done s 0
  | Some n =>
      match pfind s n with
      | None => None
      | Some (Some p) => done s p
      | Some None =>
          if negb (name_ok k n) then Some LBadName
          else if negb mem then Some LNoMem
          else done (new_prefix s n) (fresh s)
      end
  end.

(* 276-317 _prefix_delete of the prefix in cell p *)
Definition prefix_delete (s : pstate) (p : N) (x : pt) : pstate :=
  let b := pbucket (pname x) in
  let h := if pref x =? 0 then hset (heap s) p None
           else hset (heap s) p (Some (mkPt (pname x) (pint x) false (pref x) (cnts x) (byts x) (tcnt x) (tbyt x))) in
  mkPs h (fresh s) (bset (buck s) b (remove N.eq_dec p (buck s b))) ((total s + (u32 - 1)) mod u32) (its s) (gs s).

(* 433-453 prefix_unlink; do_item_unlink is never called with ITEM_UNLINK_REPLACE, so the prefix is
   dropped if it is empty *)
Definition prefix_unlink (s : pstate) (p : N) (t : ity) (size : N) : option pstate :=
  match heap s p with
  | None => None
  | Some x =>
      let y := count_decr x t size in
      let s1 := w_heap s (hset (heap s) p (Some y)) in
      if p =? 0 then Some s1
      else if 0 <? tcnt y then Some s1
      else if negb (tbyt y =? 0) then None (* the assert *)
      else
        (* _prefix_delete looks the cell up by its name *)
        match pfind s1 (pname y) with
        | None => None
        | Some None => Some s1
        | Some (Some q) => match heap s1 q with None => None | Some z => Some (prefix_delete s1 q z) end
        end
  end.

(* item_base.c 145-154 ITEM_stotal *)
Definition stotal (h : hitem) : N := base h + extra h.

Fixpoint iget (l : list (N * hitem)) (i : N) : option hitem :=
  match l with
  | [] => None
  | (j, h) :: r => if j =? i then Some h else iget r i
  end.
Definition idel (l : list (N * hitem)) (i : N) : list (N * hitem) := filter (fun e => negb (fst e =? i)) l.
Definition iset (l : list (N * hitem)) (i : N) (h : hitem) : list (N * hitem) :=
  map (fun e => if fst e =? i then (i, h) else e) l.

(* item_base.c 199-212 do_item_stat_link *)
Definition stat_link (g : gstats) (st : bool) (z : N) : gstats :=
  mkGs ((curr_items g + 1) mod u64) ((curr_bytes g + z) mod u64)
       (if st then (sticky_items g + 1) mod u64 else sticky_items g)
       (if st then (sticky_bytes g + z) mod u64 else sticky_bytes g) ((total_items g + 1) mod u64).
(* 214-226 do_item_stat_unlink *)
Definition stat_unlink (g : gstats) (st : bool) (z : N) : gstats :=
  mkGs (sub64 (curr_items g) 1) (sub64 (curr_bytes g) z)
       (if st then sub64 (sticky_items g) 1 else sticky_items g)
       (if st then sub64 (sticky_bytes g) z else sticky_bytes g) (total_items g).
(* 246-252 the engine part of do_item_stat_replace: only the new item decides about sticky_bytes *)
Definition stat_replace (g : gstats) (newst : bool) (old new : N) : gstats :=
  mkGs (curr_items g) (sub64 ((curr_bytes g + new) mod u64) old) (sticky_items g)
       (if newst then sub64 ((sticky_bytes g + new) mod u64) old else sticky_bytes g) ((total_items g + 1) mod u64).
(* 255-277 do_item_stat_bytes_incr and _decr *)
Definition stat_bytes (g : gstats) (st add : bool) (n : N) : gstats :=
  let f v := if add then (v + n) mod u64 else sub64 v n in
  mkGs (curr_items g) (f (curr_bytes g)) (sticky_items g) (if st then f (sticky_bytes g) else sticky_bytes g) (total_items g).

(* a line of "stats prefixlist item": name (None is <null>) and the twelve numbers *)
Record line := mkLine { l_name : option bytes; l_cnt : N; l_cnts : list N; l_byt : N; l_byts : list N }.
(* 545-600 _prefix_stats_write_buffer *)
Definition line_of (p : N) (x : pt) : line :=
  mkLine (if p =? 0 then None else Some (pname x))
         (tcnt x) (map (cnts x) [TKv; TList; TSet; TMap; TBtree])
         (tbyt x) (map (byts x) [TKv; TList; TSet; TMap; TBtree]).

Definition buckets : list N := map N.of_nat (seq 0 1024).
Definition linked_ids (s : pstate) : list N := flat_map (buck s) buckets.

Fixpoint lines (h : N -> option pt) (l : list N) : option (list line) :=
  match l with
  | [] => Some []
  | p :: r => match h p, lines h r with Some x, Some ls => Some (line_of p x :: ls) | _, _ => None end
  end.
(* 652-680 prefix_dump_stats without names *)
Definition dump_all (s : pstate) : option (list line) :=
  match heap s 0 with
  | None => None
  | Some n => match lines (heap s) (linked_ids s) with
              | None => None
              | Some ls => Some (if 0 <? tcnt n then line_of 0 n :: ls else ls)
              end
  end.
(* 681-695 prefix_dump_stats with names: None stands for the token <null> *)
Fixpoint dump_names (s : pstate) (l : list (option bytes)) : option (list line) :=
  match l with
  | [] => Some []
  | n :: r =>
      match dump_names s r with
      | None => None
      | Some ls =>
          match n with
          | None => match heap s 0 with None => None | Some x => Some (if 0 <? tcnt x then line_of 0 x :: ls else ls) end
          | Some q => match pfind s q with
                      | None => None
                      | Some None => Some ls
                      | Some (Some p) => match heap s p with None => None | Some x => Some (line_of p x :: ls) end
                      end
          end
      end
  end.
(* 536-543 prefix_count *)
Definition prefix_count (s : pstate) : option N :=
  match heap s 0 with None => None | Some n => Some (if 0 <? tcnt n then total s + 1 else total s) end.

(* 711-714 _prefix_isempty *)
Definition pempty (x : pt) : bool := tcnt x =? 0.

(* 61-67 PREFIX_REFCOUNT_INCR; the count is a uint16 *)
Definition ref_incr (s : pstate) (p : N) : option pstate :=
  if p =? 0 then Some s
  else match heap s p with
       | None => None
       | Some x => if pref x <? 65535
                   then Some (w_heap s (hset (heap s) p (Some (mkPt (pname x) (pint x) (plinked x) (pref x + 1)
                                                                   (cnts x) (byts x) (tcnt x) (tbyt x)))))
                   else None
       end.

(* 736-743: one chain; asz is the size of the array, which the loop does not check *)
Fixpoint scan_chain (s : pstate) (l : list N) (asz : N) (out : list N) : option (pstate * list N) :=
  match l with
  | [] => Some (s, out)
  | p :: r =>
      match heap s p with
      | None => None
      | Some x =>
          if pint x || pempty x then scan_chain s r asz out
          else if asz <=? N.of_nat (length out) then None
          else match ref_incr s p with None => None | Some s' => scan_chain s' r asz (out ++ [p]) end
      end
  end.

(* 730-749: the loop over the buckets, fuel chains at most *)
Fixpoint scan_loop (fuel : nat) (s : pstate) (b req asz hc : N) (out : list N) : option (pstate * list N * N) :=
  match fuel with
  | O => None
  | S f =>
      if (N.of_nat (length out) <? req) && (hc <? req * 4) then
        match heap s 0 with
        | None => None
        | Some n =>
            let out1 := if (b =? 0) && negb (pempty n) then out ++ [0] else out in
            match scan_chain s (buck s b) asz out1 with
            | None => None
            | Some (s', out2) =>
                if 1024 <=? b + 1 then Some (s', out2, b + 1) else scan_loop f s' (b + 1) req asz (hc + 1) out2
            end
        end
      else Some (s, out, b)
  end.

Inductive pscanned := PBadCursor | PScanned (cur : bytes) (l : list N).
(* 716-756 _prefix_scan_direct, 758-765 prefix_scan_direct *)
Definition prefix_scan (s : pstate) (cur : bytes) (req asz : N) : option (pstate * pscanned) :=
  if (asz =? 0) || (asz <? req) then None (* the assert *)
  else
    match safe_strtoul cur with
    | None => Some (s, PBadCursor)
    | Some b =>
        if 1024 <=? b then Some (s, PScanned (dec_text 0) [])
        else
          match scan_loop 1025 s b req asz 0 [] with
          | None => None
          | Some (s', out, b') => Some (s', PScanned (dec_text (if 1024 <=? b' then 0 else b')) out)
          end
    end.

(* 767-777 prefix_release *)
Definition prefix_release (s : pstate) (p : N) : option pstate :=
  if p =? 0 then Some s
  else match heap s p with
       | None => None
       | Some x =>
           if pref x =? 0 then None (* the assert *)
           else if (pref x =? 1) && negb (plinked x) then Some (w_heap s (hset (heap s) p None))
           else Some (w_heap s (hset (heap s) p (Some (mkPt (pname x) (pint x) (plinked x) (pref x - 1)
                                                           (cnts x) (byts x) (tcnt x) (tbyt x)))))
       end.

(* ---------- operations on items ---------- *)
Inductive pop :=
| PLink (i : N) (k : bytes) (t : ity) (size : N) (st mem : bool)   (* do_item_link *)
| PUnlink (i : N)                                                  (* do_item_unlink *)
| PReplace (i j : N) (size : N) (st : bool)                        (* do_item_replace: same key and type *)
| PGrow (i n : N)                                                  (* do_coll_space_incr *)
| PShrink (i n : N)                                                (* do_coll_space_decr *)
| PScan (cur : bytes) (req asz : N)
| PRelease (p : N).
Inductive pout := PDone | PNoName | PNoMem | PNames (r : pscanned).

(* item_base.c 990-1029, 1031-1072, 1074-1134, 340-363 *)
Definition pstep (s : pstate) (o : pop) : option (pstate * pout) :=
  match o with
  | PLink i k t size st mem =>
      (* asserts: the item is not linked; assoc_insert: the key is not in the table *)
      if match iget (its s) i with Some _ => true | None => false end || existsb (fun e => beqb k (hkey (snd e))) (its s) then None
      else match prefix_link s k t size mem with
           | None => None
           | Some LBadName => Some (s, PNoName)
           | Some LNoMem => Some (s, PNoMem)
           | Some (LOk p s1) =>
               Some (w_gs (w_its s1 ((i, mkHi k t size 0 st p) :: its s1)) (stat_link (gs s1) st size), PDone)
           end
  | PUnlink i =>
      match iget (its s) i with
      | None => Some (s, PDone)
      | Some h =>
          match prefix_unlink s (ptr h) (htype h) (stotal h) with
          | None => None
          | Some s1 => Some (w_gs (w_its s1 (idel (its s1) i)) (stat_unlink (gs s1) (sticky h) (stotal h)), PDone)
          end
      end
  | PReplace i j size st =>
      match iget (its s) i, iget (its s) j with
      | Some h, None =>
          match heap s (ptr h) with
          | None => None
          | Some x =>
              let y := if stotal h <? size then bytes_incr x (htype h) (size - stotal h)
                       else if size <? stotal h then bytes_decr x (htype h) (stotal h - size) else x in
              let s1 := w_heap s (hset (heap s) (ptr h) (Some y)) in
              Some (w_gs (w_its s1 ((j, mkHi (hkey h) (htype h) size 0 st (ptr h)) :: idel (its s1) i))
                         (stat_replace (gs s1) st (stotal h) size), PDone)
          end
      | _, _ => None
      end
  | PGrow i n =>
      match iget (its s) i with
      | None => None
      | Some h =>
          match heap s (ptr h) with
          | None => None
          | Some x =>
              let s1 := w_heap s (hset (heap s) (ptr h) (Some (bytes_incr x (htype h) n))) in
              let h' := mkHi (hkey h) (htype h) (base h) ((extra h + n) mod u32) (sticky h) (ptr h) in
              Some (w_gs (w_its s1 (iset (its s1) i h')) (stat_bytes (gs s1) (sticky h) true n), PDone)
          end
      end
  | PShrink i n =>
      match iget (its s) i with
      | None => None
      | Some h =>
          if extra h <? n then None (* the assert *)
          else
            match heap s (ptr h) with
            | None => None
            | Some x =>
                let s1 := w_heap s (hset (heap s) (ptr h) (Some (bytes_decr x (htype h) n))) in
                let h' := mkHi (hkey h) (htype h) (base h) (extra h - n) (sticky h) (ptr h) in
                Some (w_gs (w_its s1 (iset (its s1) i h')) (stat_bytes (gs s1) (sticky h) false n), PDone)
            end
      end
  | PScan cur req asz =>
      match prefix_scan s cur req asz with None => None | Some (s', r) => Some (s', PNames r) end
  | PRelease p => match prefix_release s p with None => None | Some s' => Some (s', PDone) end
  end.

Fixpoint prun (s : pstate) (l : list pop) : option (pstate * list pout) :=
  match l with
  | [] => Some (s, [])
  | o :: r => match pstep s o with
              | None => None
              | Some (s', x) => match prun s' r with None => None | Some (s'', xs) => Some (s'', x :: xs) end
              end
  end.

End Prefix.
