(* Model of the commands getattr and setattr: memcached.c 13204-13512 (ASCII commands), with realtime and
   lefttime 197-247; items.c 737-884; list_, set_, map_, btree_coll_getattr and _setattr
   (coll_list.c 612-668, coll_set.c 1031-1085, coll_map.c 1006-1060, coll_btree.c 4272-4383).

   The item that belongs to the key has been looked up (KvModel.v); the commands work on an optional
   item.  flags are numbers in host order.  The tree of a b+tree item is represented by its
   number of elements, first and last bkey (BtModel.v has the nodes).  The overflow
   action forced by an environment variable (coll_btree.c 166-173) is left out, and so is the
   position in the LRU list (items.c 842-851). *)
From Coq Require Import String Ascii.
From Verif Require Import Base UtilModel ArgTypes ArgModel.
From Verif Require BtModel.
From Coq Require Import List ZArith NArith Lia.
Local Open Scope nat_scope.
Local Open Scope list_scope.

(* include/memcached/types.h 173-186 *)
Inductive aid := AType | AFlags | AExpire | ACount | AMaxcount | AOvfl | AReadable | ARange | AMin | AMax | ATrimmed.
Definition ATTR_END : nat := 11.
Scheme Equality for aid.

Inductive ityp := KV | LIST | SET | MAP | BTREE.
(* bkey_t; None is the length BKEY_NULL.  A Bin of more than 31 bytes is what a length that was
   never set makes of the memory behind. *)
Definition bkt := option BtModel.bkey.

(* include/memcached/types.h 387-400 item_attr *)
Record adata := mkD {
  d_flags : N; d_exp : N; d_count : Z; d_max : Z; d_range : bkt; d_min : BtModel.bkey; d_top : BtModel.bkey;
  d_type : ityp; d_ovfl : N; d_read : N; d_trim : N }.

(* the meta information of a collection, item_base.h; bkey type: 0 unknown, 1 uint64, 2 binary *)
Record meta := mkM {
  m_mcnt : Z; m_ccnt : Z; m_ovfl : N; m_read : bool; m_trim : bool;
  m_bktype : N; m_range : bkt; m_min : BtModel.bkey; m_top : BtModel.bkey }.
Record item := mkI { i_type : ityp; i_flags : N; i_exp : N; i_meta : meta }.

(* config->max_list_size and so on; the time: current_time, process_started *)
Definition sizes := ityp -> Z.
Record clock := { cur : Z; started : Z }.

(* ---- times ---- *)
Definition STICKY : N := 4294967295.  (* (rel_time_t)-1 *)
(* memcached.c 197-225 realtime, with ENABLE_STICKY_ITEM; rel_time_t is unsigned 32 bits *)
Definition realtime (c : clock) (e : Z) : N :=
  if Z.eqb e 0 then 0%N
  else if Z.ltb e 0 then (if Z.eqb e (-1) then STICKY else 1%N)
  else if Z.ltb 2592000 e then
    if Z.leb e (started c) then 1%N
    else let x := (e - started c)%Z in
         if Z.ltb 2147483647 x then 2147483647%N else Z.to_N x
  else Z.to_N ((e + cur c) mod 4294967296).
(* memcached.c 231-247 lefttime; (int32_t) of the result *)
Definition lefttime (c : clock) (e : N) : Z :=
  if N.eqb e 0 then 0%Z
  else if N.eqb e STICKY then (-1)%Z
  else if Z.leb (Z.of_N e) (cur c) then (-2)%Z
  else let d := (Z.of_N e - cur c)%Z in if Z.ltb d 2147483648 then d else (d - 4294967296)%Z.

(* ---- getattr: engine ---- *)
(* items.c 764-770, coll_list.c 618-622, coll_set.c 1037-1041, coll_map.c 1012-1016: false is
   ENGINE_EBADATTR.  A b+tree has everything. *)
Definition attr_known (t : ityp) (a : aid) : bool :=
  match t with
  | KV => match a with ACount | AMaxcount | AOvfl | AReadable | ARange | ATrimmed => false | _ => true end
  | BTREE => true
  | _ => match a with ARange | ATrimmed => false | _ => true end
  end.
Definition flag (b : bool) : N := if b then 1%N else 0%N.
(* (info->mcnt > 0) ? info->mcnt : config->max_..._size *)
Definition shown_max (z : sizes) (t : ityp) (m : meta) : Z := if Z.ltb 0 (m_mcnt m) then m_mcnt m else z t.

(* items.c 737-773 do_item_getattr; d is what the structure of the caller contains *)
Definition do_item_getattr (z : sizes) (it : item) (ids : list aid) (d : adata) : option adata :=
  let t := i_type it in let m := i_meta it in
  if negb (forallb (attr_known t) ids) then None
  else
    let d := mkD (i_flags it) (i_exp it) (d_count d) (d_max d) (d_range d) (d_min d) (d_top d) t (d_ovfl d) (d_read d) (d_trim d) in
    match t with
    | KV => Some d
    | _ =>
        let d := mkD (d_flags d) (d_exp d) (m_ccnt m) (shown_max z t m) (d_range d) (d_min d) (d_top d) t
                     (m_ovfl m) (flag (m_read m)) (d_trim d) in
        match t with
        | BTREE =>
            let d := mkD (d_flags d) (d_exp d) (d_count d) (d_max d) (m_range m) (d_min d) (d_top d) t
                         (d_ovfl d) (d_read d) (flag (m_trim m)) in
            Some (if Z.ltb 0 (m_ccnt m)
                  then mkD (d_flags d) (d_exp d) (d_count d) (d_max d) (d_range d) (m_min m) (m_top m) t
                           (d_ovfl d) (d_read d) (d_trim d)
                  else d)
        | _ => Some d
        end
    end.

(* ---- getattr: text ---- *)
Definition CRLF : bytes := [13%N; 10%N].
(* %d *)
Definition int_text (v : Z) : bytes := if Z.ltb v 0 then 45%N :: dec_text (Z.to_N (- v)) else dec_text (Z.to_N v).
Definition bkey_text (k : BtModel.bkey) : bytes :=
  match k with BtModel.U64 n => dec_text n | BtModel.Bin b => txt "0x" ++ safe_hexatostr b end.
(* memcached.c 1596-1604 get_item_type_str, 1616-1626 get_ovflaction_str *)
Definition type_text (t : ityp) : bytes :=
  match t with KV => txt "kv" | LIST => txt "list" | SET => txt "set" | MAP => txt "map" | BTREE => txt "b+tree" end.
Definition ovfl_text (o : N) : bytes :=
  if N.eqb o 2 then txt "head_trim" else if N.eqb o 3 then txt "tail_trim"
  else if N.eqb o 4 then txt "smallest_trim" else if N.eqb o 5 then txt "largest_trim"
  else if N.eqb o 6 then txt "smallest_silent_trim" else if N.eqb o 7 then txt "largest_silent_trim"
  else if N.eqb o 1 then txt "error" else txt "unknown".

(* memcached.c 13204-13281 attr_to_printable_buffer *)
Definition attr_line (c : clock) (a : aid) (d : adata) : bytes :=
  txt "ATTR " ++
  match a with
  | AType => txt "type=" ++ type_text (d_type d)
  | AFlags => txt "flags=" ++ dec_text (d_flags d)
  | AExpire => txt "expiretime=" ++ int_text (lefttime c (d_exp d))
  | ACount => txt "count=" ++ int_text (d_count d)
  | AMaxcount => txt "maxcount=" ++ int_text (d_max d)
  | AOvfl => txt "overflowaction=" ++ ovfl_text (d_ovfl d)
  | AReadable => txt "readable=" ++ (if N.eqb (d_read d) 0 then txt "off" else txt "on")
  | ARange => txt "maxbkeyrange=" ++ match d_range d with None => txt "0" | Some k => bkey_text k end
  | AMin => txt "minbkey=" ++ (if Z.ltb 0 (d_count d) then bkey_text (d_min d) else txt "-1")
  | AMax => txt "maxbkey=" ++ (if Z.ltb 0 (d_count d) then bkey_text (d_top d) else txt "-1")
  | ATrimmed => txt "trimmed=" ++ (if N.eqb (d_trim d) 0 then txt "0" else txt "1")
  end ++ CRLF.

(* memcached.c 13309-13324: the name of an attribute *)
Definition name_id (s : bytes) : option aid :=
  if beqb s (txt "flags") then Some AFlags
  else if beqb s (txt "expiretime") then Some AExpire
  else if beqb s (txt "type") then Some AType
  else if beqb s (txt "count") then Some ACount
  else if beqb s (txt "maxcount") then Some AMaxcount
  else if beqb s (txt "overflowaction") then Some AOvfl
  else if beqb s (txt "readable") then Some AReadable
  else if beqb s (txt "maxbkeyrange") then Some ARange
  else if beqb s (txt "minbkey") then Some AMin
  else if beqb s (txt "maxbkey") then Some AMax
  else if beqb s (txt "trimmed") then Some ATrimmed
  else None.
Fixpoint name_ids (l : list bytes) : option (list aid) :=
  match l with
  | [] => Some []
  | s :: r => match name_id s with
              | None => None
              | Some a => match name_ids r with Some q => Some (a :: q) | None => None end
              end
  end.

(* what the client gets: a text, or more was written than the array of the function holds *)
Inductive reply := Text (s : bytes) | Overrun.
Definition BUF : nat := 1024.

(* memcached.c 13345-13366: attributes printed when none is named *)
Definition default_ids (t : ityp) : list aid :=
  [AType; AFlags; AExpire] ++
  match t with KV => [] | _ => [ACount; AMaxcount; AOvfl; AReadable] end ++
  match t with BTREE => [ARange; AMin; AMax; ATrimmed] | _ => [] end.

(* memcached.c 13283-13379 process_getattr_command; [junk] is the structure on the stack, which is
   not initialised *)
Definition getattr_cmd (z : sizes) (c : clock) (junk : adata) (it : option item) (key : bytes) (names : list bytes) : reply :=
  if N.ltb KEY_MAX_LENGTH (N.of_nat (List.length key)) then Text (txt "CLIENT_ERROR bad command line format")
  else if Nat.ltb ATTR_END (List.length names) then Overrun
  else
    match name_ids names with
    | None => Text (txt "ATTR_ERROR not found")
    | Some ids =>
        match it with
        | None => Text (txt "NOT_FOUND")
        | Some it =>
            match do_item_getattr z it ids junk with
            | None => Text (txt "ATTR_ERROR not found")
            | Some d =>
                let ids := match ids with [] => default_ids (d_type d) | _ => ids end in
                let s := List.concat (map (fun a => attr_line c a d) ids) ++ txt "END" in
                if Nat.ltb BUF (S (List.length s)) then Overrun else Text s
            end
        end
    end.

(* ---- setattr: engine ---- *)
(* coll_*.c do_*_real_maxcount; DEFAULT_*_SIZE = 4000, item_base.h 34-37 *)
Definition real_maxcount (z : sizes) (t : ityp) (n : Z) : Z :=
  if Z.ltb n 0 then (-1)%Z
  else if Z.eqb n 0 then 4000%Z
  else if Z.ltb (z t) n then z t else n.

Definition ovfl_allowed (t : ityp) (o : N) : bool :=
  match t with
  | LIST => N.eqb o 1 || N.eqb o 2 || N.eqb o 3
  | BTREE => N.eqb o 1 || N.eqb o 4 || N.eqb o 5 || N.eqb o 6 || N.eqb o 7
  | _ => N.eqb o 1
  end.
(* BKEY_DIFF and BKEY_ISGT, coll_btree.c 4333-4340; None (types differ) cannot happen behind the
   check of the type *)
Definition too_wide (r mn mx : BtModel.bkey) : bool :=
  match BtModel.b_diff r mx mn with Some x => BtModel.b_isgt x r | None => true end.
(* coll_btree.c 4318-4342 *)
Definition range_allowed (m : meta) (r : bkt) : bool :=
  match r with
  | None => true
  | Some k =>
      if Z.ltb 0 (m_ccnt m) then
        if (match k with
            | BtModel.U64 _ => N.eqb (m_bktype m) 2
            | BtModel.Bin _ => N.eqb (m_bktype m) 1
            end)%bool then false
        else if (Z.leb 2 (m_ccnt m) &&
                 match m_range m with None => true | Some q => BtModel.b_isne k q end)%bool
        then negb (too_wide k (m_min m) (m_top m))
        else true
      else true
  end.

(* the first loop: the checks; maxcount is replaced in the structure *)
Fixpoint coll_check (z : sizes) (t : ityp) (m : meta) (ids : list aid) (d : adata) : adata * bool :=
  match ids with
  | [] => (d, true)
  | a :: r =>
      match a with
      | AMaxcount =>
          let n := real_maxcount z t (d_max d) in
          let d := mkD (d_flags d) (d_exp d) (d_count d) n (d_range d) (d_min d) (d_top d) (d_type d) (d_ovfl d) (d_read d) (d_trim d) in
          if (Z.ltb 0 n && Z.ltb n (m_ccnt m))%bool then (d, false) else coll_check z t m r d
      | AOvfl => if ovfl_allowed t (d_ovfl d) then coll_check z t m r d else (d, false)
      | AReadable => if N.eqb (d_read d) 1 then coll_check z t m r d else (d, false)
      | ARange =>
          match t with
          | BTREE => if range_allowed m (d_range d) then coll_check z t m r d else (d, false)
          | _ => coll_check z t m r d
          end
      | _ => coll_check z t m r d
      end
  end.
(* the second loop: one attribute set *)
Definition coll_set1 (t : ityp) (d : adata) (m : meta) (a : aid) : meta :=
  match a with
  | AMaxcount => mkM (d_max d) (m_ccnt m) (m_ovfl m) (m_read m) (m_trim m) (m_bktype m) (m_range m) (m_min m) (m_top m)
  | AOvfl =>
      let tr := match t with BTREE => if N.eqb (m_ovfl m) (d_ovfl d) then m_trim m else false | _ => m_trim m end in
      mkM (m_mcnt m) (m_ccnt m) (d_ovfl d) (m_read m) tr (m_bktype m) (m_range m) (m_min m) (m_top m)
  | AReadable => mkM (m_mcnt m) (m_ccnt m) (m_ovfl m) true (m_trim m) (m_bktype m) (m_range m) (m_min m) (m_top m)
  | ARange =>
      match t with
      | BTREE =>
          let bt :=
            match d_range d with
            | None => match m_range m with Some _ => if Z.eqb (m_ccnt m) 0 then 0%N else m_bktype m | None => m_bktype m end
            | Some (BtModel.U64 _) => if Z.eqb (m_ccnt m) 0 then 1%N else m_bktype m
            | Some (BtModel.Bin _) => if Z.eqb (m_ccnt m) 0 then 2%N else m_bktype m
            end in
          mkM (m_mcnt m) (m_ccnt m) (m_ovfl m) (m_read m) (m_trim m) bt (d_range d) (m_min m) (m_top m)
      | _ => m
      end
  | _ => m
  end.

Definition coll_setattr (z : sizes) (t : ityp) (m : meta) (ids : list aid) (d : adata) : option meta :=
  let '(d, ok) := coll_check z t m ids d in
  if ok then Some (fold_left (coll_set1 t d) ids m) else None.

(* items.c 799-856 do_item_setattr; None is ENGINE_EBADVALUE *)
Definition do_item_setattr (z : sizes) (it : item) (ids : list aid) (d : adata) : option item :=
  let named := existsb (aid_beq AExpire) ids in
  if (named && negb (Bool.eqb (N.eqb (i_exp it) STICKY) (N.eqb (d_exp d) STICKY)))%bool then None
  else
    let e := if named then d_exp d else i_exp it in
    match i_type it with
    | KV => Some (mkI KV (i_flags it) e (i_meta it))
    | t => match coll_setattr z t (i_meta it) ids d with
           | None => None
           | Some m => Some (mkI t (i_flags it) e m)
           end
    end.

(* ---- setattr: the line ---- *)
(* strchr(s, '=') *)
Fixpoint cut_equal (s : bytes) : option (bytes * bytes) :=
  match s with
  | [] => None
  | x :: r => if N.eqb x 61 then Some ([], r)
              else match cut_equal r with Some (a, b) => Some (x :: a, b) | None => None end
  end.
(* memcached.c 13423-13441 *)
Definition ovfl_num (s : bytes) : option N :=
  if beqb s (txt "error") then Some 1%N
  else if beqb s (txt "head_trim") then Some 2%N
  else if beqb s (txt "tail_trim") then Some 3%N
  else if beqb s (txt "smallest_trim") then Some 4%N
  else if beqb s (txt "largest_trim") then Some 5%N
  else if beqb s (txt "smallest_silent_trim") then Some 6%N
  else if beqb s (txt "largest_silent_trim") then Some 7%N
  else None.
(* memcached.c 13450-13470: the value of maxbkeyrange; the number 0 stands for none *)
Definition range_value (s : bytes) : option bkt :=
  match get_bkey_from_str s with
  | None => None
  | Some (BInt n) => Some (if N.eqb n 0 then None else Some (BtModel.U64 n))
  | Some (BHex b) => Some (Some (BtModel.Bin b))
  end.

Inductive serr := BadLine | BadValue | BadAttr.
Definition w_exp d e := mkD (d_flags d) e (d_count d) (d_max d) (d_range d) (d_min d) (d_top d) (d_type d) (d_ovfl d) (d_read d) (d_trim d).
Definition w_max d n := mkD (d_flags d) (d_exp d) (d_count d) n (d_range d) (d_min d) (d_top d) (d_type d) (d_ovfl d) (d_read d) (d_trim d).
Definition w_ovfl d o := mkD (d_flags d) (d_exp d) (d_count d) (d_max d) (d_range d) (d_min d) (d_top d) (d_type d) o (d_read d) (d_trim d).
Definition w_read d r := mkD (d_flags d) (d_exp d) (d_count d) (d_max d) (d_range d) (d_min d) (d_top d) (d_type d) (d_ovfl d) r (d_trim d).
Definition w_range d r := mkD (d_flags d) (d_exp d) (d_count d) (d_max d) r (d_min d) (d_top d) (d_type d) (d_ovfl d) (d_read d) (d_trim d).

(* memcached.c 13401-13476: the loop over the tokens *)
Fixpoint set_loop (c : clock) (d : adata) (l : list bytes) : (adata * list aid) + serr :=
  match l with
  | [] => inl (d, [])
  | s :: r =>
      match cut_equal s with
      | None => inr BadLine
      | Some (name, value) =>
          let next (a : aid) (d : adata) :=
            match set_loop c d r with inl (d, ids) => inl (d, a :: ids) | inr e => inr e end in
          if beqb name (txt "expiretime") then
            match safe_strtoll value with None => inr BadValue | Some e => next AExpire (w_exp d (realtime c e)) end
          else if beqb name (txt "maxcount") then
            match safe_strtol value with None => inr BadValue | Some n => next AMaxcount (w_max d n) end
          else if beqb name (txt "overflowaction") then
            match ovfl_num value with None => inr BadValue | Some o => next AOvfl (w_ovfl d o) end
          else if beqb name (txt "readable") then
            if beqb value (txt "on") then next AReadable (w_read d 1) else inr BadValue
          else if beqb name (txt "maxbkeyrange") then
            match range_value value with None => inr BadValue | Some k => next ARange (w_range d k) end
          else inr BadAttr
      end
  end.

Definition serr_text (e : serr) : bytes :=
  match e with
  | BadLine => txt "CLIENT_ERROR bad command line format"
  | BadValue => txt "ATTR_ERROR bad value"
  | BadAttr => txt "ATTR_ERROR not found"
  end.
(* memcached.c 13381-13512 process_setattr_command *)
Definition setattr_cmd (z : sizes) (c : clock) (junk : adata) (it : option item) (key : bytes) (args : list bytes)
  : option item * reply :=
  if N.ltb KEY_MAX_LENGTH (N.of_nat (List.length key)) then (it, Text (txt "CLIENT_ERROR bad command line format"))
  else if Nat.ltb ATTR_END (List.length args) then (it, Overrun)
  else
    match set_loop c junk args with
    | inr e => (it, Text (serr_text e))
    | inl (d, ids) =>
        match it with
        | None => (None, Text (txt "NOT_FOUND"))
        | Some i =>
            match do_item_setattr z i ids d with
            | None => (it, Text (txt "ATTR_ERROR bad value"))
            | Some i' => (Some i', Text (txt "OK"))
            end
        end
    end.

(* the dispatch, memcached.c 13668-13675 *)
Definition attr_cmd (z : sizes) (c : clock) (junk : adata) (it : option item) (toks : list bytes)
  : option (option item * reply) :=
  match toks with
  | cmd :: key :: rest =>
      let nt := S (List.length toks) in
      if (Nat.leb 3 nt && Nat.leb nt 14 && beqb cmd (txt "getattr"))%bool then
        Some (it, getattr_cmd z c junk it key rest)
      else if (Nat.leb 4 nt && Nat.leb nt 8 && beqb cmd (txt "setattr"))%bool then
        Some (setattr_cmd z c junk it key rest)
      else None
  | _ => None
  end.
