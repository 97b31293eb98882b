(* Byte level model of the command log and snapshot records:
   engines/default/cmdlogrec.h 60-400 and cmdlogrec.c (write, redo and construct functions).
   A record is what lrec_construct_* followed by lrec_write_to_buffer (1417-1423) leaves in the
   log buffer.  Bytes that the code does not write (reserved fields of the structures on the stack and
   the alignment padding) hold whatever was there before: they are given by an arbitrary function jk from
   the offset in the record to its content.  The machine is little endian and 64 bit, as are the structure
   layouts.  memcpy(dst, ptr, n) is  firstn n  of the bytes at ptr. *)
From Verif Require Import Base.
Local Open Scope N_scope.

Definition le16 (n : N) : bytes := [n mod 256; n / 256 mod 256].
Definition le32 (n : N) : bytes :=
  [n mod 256; n / 256 mod 256; n / 65536 mod 256; n / 16777216 mod 256].
Definition le64 (n : N) : bytes := le32 (n mod 4294967296) ++ le32 (n / 4294967296).

(* field accesses  ((T* )b)->f  at a fixed offset *)
Definition u8_at (b : bytes) (o : nat) : N := nth o b 0.
Definition u16_at (b : bytes) (o : nat) : N := nth o b 0 + 256 * nth (o + 1) b 0.
Definition u32_at (b : bytes) (o : nat) : N :=
  nth o b 0 + 256 * nth (o + 1) b 0 + 65536 * nth (o + 2) b 0 + 16777216 * nth (o + 3) b 0.
Definition u64_at (b : bytes) (o : nat) : N := u32_at b o + 4294967296 * u32_at b (o + 4).

(* int32_t <-> the 32 bits that hold it *)
Definition of_int (z : Z) : N := Z.to_N (z mod 4294967296)%Z.
Definition to_int (n : N) : Z := if n <? 2147483648 then Z.of_N n else (Z.of_N n - 4294967296)%Z.

Definition copy (n : N) (p : bytes) : bytes := firstn (N.to_nat n) p.
Definition sub_at (b : bytes) (o n : N) : bytes := firstn (N.to_nat n) (skipn (N.to_nat o) b).
Definition blen (p : bytes) : N := N.of_nat (length p).

(* GET_8_ALIGN_SIZE: cmdlogrec.c 42-43 *)
Definition align8 (n : N) : N := if n mod 8 =? 0 then n else n + (8 - n mod 8).
(* BKEY_NULL: include/memcached/types.h; BTREE_REAL_NBKEY: cmdlogrec.c 46 *)
Definition BKEY_NULL : N := 255.
Definition real_nbkey (n : N) : N := if n =? 0 then 8 else n.

(* a bkey: its length field and its bytes (bkey_t) *)
Notation bkey := (N * bytes)%type.

(* relative server time and unix time, as svcore->get_current_time() and time(NULL) return them *)
Record clock := Clock { c_cur : N; c_unix : N }.

(* CONVERT_ABS_EXPTIME: cmdlogrec.c 54-68 *)
Definition abs_exptime (c : clock) (e : N) : N :=
  if (e =? 0) || (e =? 4294967295) then e
  else if c_cur c <? e then (c_unix c + (e - c_cur c)) mod 4294967296
  else c_unix c mod 4294967296.

(* CONVERT_REL_EXPTIME: cmdlogrec.c 71-85 *)
Definition rel_exptime (c : clock) (e : N) : N :=
  if (e =? 0) || (e =? 4294967295) then e
  else if c_unix c mod 4294967296 <? e
       then (c_cur c + (e - c_unix c mod 4294967296)) mod 4294967296
       else 1.
(* EXPIRED_REL_EXPTIME: cmdlogrec.c 39 *)
Definition expired (e : N) : bool := e =? 1.

(* the fields of a hash_item (and of its collection meta data) that the construct functions read *)
Record ritem := RItem {
  r_type   : N;          (* GET_ITEM_TYPE: 0 KV, 1 list, 2 set, 3 map, 4 B+tree *)
  r_key    : bytes;
  r_data   : bytes;      (* item_get_data: the value of a KV item, CR LF for a collection *)
  r_flags  : N;
  r_exp    : N;          (* it->exptime *)
  r_cas    : N;
  r_ovfl   : N;          (* coll_meta_info.ovflact *)
  r_mflags : N;          (* coll_meta_info.mflags *)
  r_mcnt   : Z;          (* coll_meta_info.mcnt *)
  r_maxbkr : bkey        (* btree_meta_info.maxbkeyrange *)
}.

Record efilter := EFilter {
  f_bitw : bytes; f_ncomp : N; f_comp : bytes; f_cnt : N; f_off : N; f_bitwop : N; f_compop : N }.

Section Write.
Variable jk : nat -> N.

(* a record: header (LogHdr, cmdlogrec.h 95-100), fixed part of the body, variable data and what is left
   of the space of the record *)
Definition put (ty upd bl : N) (fixed data : bytes) : bytes :=
  ([ty; upd; jk 2; jk 3] ++ le32 bl ++ fixed) ++ data ++
  map jk (seq (8 + length fixed + length data)
              (N.to_nat bl - length fixed - length data)).

(* get_it_link_updtype: cmdlogrec.c 188-201 *)
Definition link_updtype (ty : N) : N :=
  if ty =? 1 then 6 else if ty =? 2 then 10 else if ty =? 3 then 14 else if ty =? 4 then 18 else 0.

(* lrec_construct_link_item: cmdlogrec.c 1455-1494 and lrec_it_link_write: 278-298 *)
Definition w_link (c : clock) (it : ritem) : bytes :=
  let maxbkrlen := if r_type it =? 4 then fst (r_maxbkr it) else BKEY_NULL in
  let nadd := if negb (r_type it =? 0) && negb (maxbkrlen =? BKEY_NULL)
              then real_nbkey maxbkrlen else 0 in
  let keylen := blen (r_key it) in
  let vallen := blen (r_data it) in
  put 0 (link_updtype (r_type it)) (align8 (24 + nadd + keylen + vallen))
    ([r_type it; jk 9] ++ le16 keylen ++ le32 vallen ++ le32 (r_flags it) ++
     le32 (abs_exptime c (r_exp it)) ++
     (if r_type it =? 0 then le64 (r_cas it)
      else [r_ovfl it; r_mflags it; maxbkrlen; jk 27] ++ le32 (of_int (r_mcnt it))))
    ((if (r_type it =? 4) && negb (maxbkrlen =? BKEY_NULL)
      then copy (real_nbkey maxbkrlen) (snd (r_maxbkr it)) else []) ++
     copy (keylen + vallen) (r_key it ++ r_data it)).

(* lrec_construct_unlink_item: 1496-1507, lrec_it_unlink_write: 382-390 *)
Definition w_unlink (it : ritem) : bytes :=
  let keylen := blen (r_key it) in
  put 1 1 (align8 (2 + keylen)) (le16 keylen) (copy keylen (r_key it)).

(* lrec_construct_setattr: 1529-1568, lrec_it_setattr_write: 421-436.
   upd is UPD_SETATTR_EXPTIME (2), _EXPTIME_INFO (3) or _EXPTIME_INFO_BKEY (4) *)
Definition w_setattr (c : clock) (upd : N) (it : ritem) : bytes :=
  let info := (upd =? 3) || (upd =? 4) in
  let maxbkrlen := if upd =? 4 then fst (r_maxbkr it) else BKEY_NULL in
  let nadd := if negb (maxbkrlen =? BKEY_NULL) then real_nbkey maxbkrlen else 0 in
  let keylen := blen (r_key it) in
  put 2 upd (align8 (16 + nadd + keylen))
    (le16 keylen ++ [jk 10; jk 11] ++ le32 (abs_exptime c (r_exp it)) ++
     [if info then r_ovfl it else jk 16; if info then r_mflags it else jk 17; maxbkrlen; jk 19] ++
     (if info then le32 (of_int (r_mcnt it)) else [jk 20; jk 21; jk 22; jk 23]))
    ((if negb (maxbkrlen =? BKEY_NULL)
      then copy (real_nbkey maxbkrlen) (snd (r_maxbkr it)) else []) ++
     copy keylen (r_key it)).

(* lrec_construct_flush_item: 1509-1527, lrec_it_flush_write: 516-527.
   None: nprefix < 0 (flush all), Some p: nprefix = length p *)
Definition w_flush (p : option bytes) : bytes :=
  let n := match p with None => 255 | Some q => blen q mod 256 end in
  let real := match p with None => 0 | Some q => blen q end in
  put 3 5 (align8 (1 + real)) [n]
    (if (0 <? n) && (n <? 255) then copy n (match p with None => [] | Some q => q end) else []).

(* do_construct_lrec_attr: 263-271; lrec_attr_info: cmdlogrec.h 210-217.  a, a+1: offset of the reserved bytes,
   which are not written on the stack either *)
Definition attr_info (c : clock) (it : ritem) : bytes :=
  le32 (r_flags it) ++ le32 (abs_exptime c (r_exp it)) ++ le32 (of_int (r_mcnt it)) ++
  [jk 0; jk 1; r_ovfl it; r_mflags it].
Definition attr_opt (c : clock) (it : ritem) (create : bool) : bytes :=
  if create then copy 16 (attr_info c it) else [].
Definition attr_len (create : bool) : N := if create then 16 else 0.
Definition b2n (b : bool) : N := if b then 1 else 0.

(* lrec_construct_list_elem_insert: 1614-1637, lrec_list_elem_insert_write: 563-579 *)
Definition w_list_ins (c : clock) (it : ritem) (totcnt : N) (eindex : Z) (value : bytes) (create : bool) : bytes :=
  let keylen := blen (r_key it) in
  let vallen := blen value in
  put 4 7 (align8 (16 + keylen + vallen) + attr_len create)
    (le16 keylen ++ [b2n create; jk 11] ++ le32 vallen ++ le32 totcnt ++ le32 (of_int eindex))
    (copy keylen (r_key it) ++ copy vallen value ++ attr_opt c it create).

(* lrec_construct_list_elem_delete: 1639-1655, lrec_list_elem_delete_write: 651-659 *)
Definition w_list_del (it : ritem) (totcnt : N) (eindex : Z) (delcnt : N) (drop : bool) : bytes :=
  let keylen := blen (r_key it) in
  put 5 8 (align8 (16 + keylen))
    (le16 keylen ++ [b2n drop; jk 11] ++ le32 totcnt ++ le32 (of_int eindex) ++ le32 delcnt)
    (copy keylen (r_key it)).

(* lrec_construct_set_elem_insert: 1696-1717, lrec_set_elem_insert_write: 696-712 *)
Definition w_set_ins (c : clock) (it : ritem) (value : bytes) (create : bool) : bytes :=
  let keylen := blen (r_key it) in
  let vallen := blen value in
  put 6 11 (align8 (8 + keylen + vallen) + attr_len create)
    (le16 keylen ++ [b2n create; jk 11] ++ le32 vallen)
    (copy keylen (r_key it) ++ copy vallen value ++ attr_opt c it create).

(* lrec_construct_set_elem_delete: 1719-1734, lrec_set_elem_delete_write: 782-792 *)
Definition w_set_del (it : ritem) (value : bytes) (drop : bool) : bytes :=
  let keylen := blen (r_key it) in
  let vallen := blen value in
  put 7 12 (align8 (8 + keylen + vallen))
    (le16 keylen ++ [b2n drop; jk 11] ++ le32 vallen)
    (copy keylen (r_key it) ++ copy vallen value).

(* lrec_construct_map_elem_insert: 1657-1678, lrec_map_elem_insert_write: 832-848;
   elem->data is the field followed by the value *)
Definition w_map_ins (c : clock) (it : ritem) (field value : bytes) (create : bool) : bytes :=
  let keylen := blen (r_key it) in
  let fldlen := blen field in
  let vallen := blen value in
  put 8 15 (align8 (8 + keylen + fldlen + vallen) + attr_len create)
    (le16 keylen ++ [b2n create; fldlen] ++ le32 vallen)
    (copy keylen (r_key it) ++ copy (fldlen + vallen) (field ++ value) ++ attr_opt c it create).

(* lrec_construct_map_elem_delete: 1680-1694, lrec_map_elem_delete_write: 921-931 *)
Definition w_map_del (it : ritem) (field value : bytes) (drop : bool) : bytes :=
  let keylen := blen (r_key it) in
  let fldlen := blen field in
  put 9 16 (align8 (4 + keylen + fldlen))
    (le16 keylen ++ [b2n drop; fldlen])
    (copy keylen (r_key it) ++ copy fldlen (field ++ value)).

(* lrec_construct_btree_elem_insert: 1736-1759, lrec_bt_elem_insert_write: 969-986;
   elem->data is bkey, eflag and value *)
Definition w_bt_ins (c : clock) (it : ritem) (bk : bkey) (eflag value : bytes) (create : bool) : bytes :=
  let keylen := blen (r_key it) in
  let nbkey := fst bk in
  let neflag := blen eflag in
  let vallen := blen value in
  put 10 19 (align8 (12 + keylen + real_nbkey nbkey + neflag + vallen) + attr_len create)
    (le16 keylen ++ [b2n create; nbkey; neflag; jk 13; jk 14; jk 15] ++ le32 vallen)
    (copy keylen (r_key it) ++
     copy (real_nbkey nbkey + neflag + vallen) (snd bk ++ eflag ++ value) ++ attr_opt c it create).

(* lrec_construct_btree_elem_delete: 1761-1775, lrec_bt_elem_delete_write: 1071-1082 *)
Definition w_bt_del (it : ritem) (bk : bkey) (rest : bytes) (drop : bool) : bytes :=
  let keylen := blen (r_key it) in
  put 11 20 (align8 (4 + real_nbkey (fst bk) + keylen))
    (le16 keylen ++ [b2n drop; fst bk])
    (copy keylen (r_key it) ++ copy (real_nbkey (fst bk)) (snd bk ++ rest)).

(* lrec_construct_btree_elem_delete_logical: 1777-1813, lrec_bt_elem_delete_logical_write: 1122-1151;
   real_from_nbkey and real_to_nbkey are uint8_t in the former and int in the latter: both hold the lengths *)
Definition w_bt_lgc (it : ritem) (from to : bkey) (ef : option efilter) (offset reqcount : N) (drop : bool) : bytes :=
  let keylen := blen (r_key it) in
  let rf := real_nbkey (fst from) in
  let rt := real_nbkey (fst to) in
  let filtering := match ef with None => 0 | Some _ => 1 end in
  let nbitw := match ef with None => 0 | Some f => blen (f_bitw f) end in
  let ncomp := match ef with None => 0 | Some f => f_ncomp f end in
  let cnt := match ef with None => 0 | Some f => f_cnt f end in
  put 12 20 (align8 (20 + keylen + rf + (if rt =? BKEY_NULL then 0 else rt) + nbitw + cnt * ncomp))
    (le16 keylen ++
     [b2n drop; fst from; fst to; filtering; nbitw; ncomp; cnt;
      match ef with None => 0 | Some f => f_off f end;
      match ef with None => 0 | Some f => f_bitwop f end;
      match ef with None => 0 | Some f => f_compop f end] ++ le32 offset ++ le32 reqcount)
    (copy keylen (r_key it) ++ copy rf (snd from) ++
     (if negb (rt =? BKEY_NULL) then copy rt (snd to) else []) ++
     match ef with
     | None => []
     | Some f => (if 0 <? nbitw then copy nbitw (f_bitw f) else []) ++ copy (cnt * ncomp) (f_comp f)
     end).

(* lrec_construct_operation_range: 1815-1822, lrec_operation_{begin,end}_write: 1259-1263, 1272-1276 *)
Definition w_range (begin : bool) : bytes := put (if begin then 13 else 14) 22 0 [] [].

(* lrec_construct_snapshot_elem: 1570-1612, lrec_snapshot_elem_link_write: 1285-1302.
   ty is the type of the collection; ekey the field (map) or bkey (B+tree), with the length field nekey;
   nekey and neflag are not written for lists and sets (neflag not for maps) *)
Definition w_snap_elem (ty nekey : N) (ekey eflag value : bytes) : bytes :=
  let nbytes := blen value in
  let n := if ty =? 3 then nekey else if ty =? 4 then real_nbkey nekey else 0 in
  let neflag := if ty =? 4 then blen eflag else 0 in
  put 15 (if ty =? 1 then 7 else if ty =? 2 then 11 else if ty =? 3 then 15 else 19)
    (align8 (6 + n + neflag + nbytes))
    (le32 nbytes ++ [if (ty =? 3) || (ty =? 4) then nekey else jk 12; if ty =? 4 then neflag else jk 13])
    (copy (n + neflag + nbytes)
       (if ty =? 3 then ekey ++ value else if ty =? 4 then ekey ++ eflag ++ value else value)).

End Write.

(* the attributes handed to the *_apply_item_link functions (item_attr); maxbkeyrange None where the code
   leaves it alone *)
Record rattr := RAttr {
  t_flags : N; t_exp : N; t_max : Z; t_ovfl : N; t_readable : bool; t_trimmed : bool; t_maxbkr : option bkey }.

(* what a redo function does with a record: the apply function it calls and its arguments.  For insertions
   the attributes are those with which a missing collection is created first *)
Inductive call :=
| CNothing                                             (* ENGINE_SUCCESS, nothing applied *)
| CKvLink (key : bytes) (flags exp : N) (value : bytes) (cas : N)
| CCollLink (ty : N) (key : bytes) (a : rattr)
| CUnlink (key : bytes)
| CSetExp (key : bytes) (exp : N)
| CSetColl (key : bytes) (exp : N) (mcnt : Z) (ovfl mflags : N) (maxbkr : option bkey)
| CFlush (p : option bytes)
| CListIns (key : bytes) (create : option rattr) (nelems index : Z) (value : bytes)
| CListDel (key : bytes) (nelems index count : Z) (drop : bool)
| CSetIns (key : bytes) (create : option rattr) (value : bytes)
| CSetDel (key : bytes) (value : bytes) (drop : bool)
| CMapIns (key : bytes) (create : option rattr) (field value : bytes)
| CMapDel (key : bytes) (field : bytes) (drop : bool)
| CBtIns (key : bytes) (create : option rattr) (bk : bkey) (eflag value : bytes)
| CBtDel (key : bytes) (bk : bkey) (drop : bool)
| CBtLgc (key : bytes) (from to : bkey) (ef : option efilter) (offset count : N) (drop : bool)
| CElem (ty : N) (bk : bkey) (eflag value : bytes).    (* snapshot element of the current collection *)

Definition readable (m : N) : bool := negb (N.land m 2 =? 0).
Definition trimmed (m : N) : bool := negb (N.land m 8 =? 0).

(* lrec_it_link_redo: cmdlogrec.c 300-347 *)
Definition redo_link (c : clock) (b : bytes) : option call :=
  let ty := u8_at b 8 in
  let keylen := u16_at b 10 in
  let vallen := u32_at b 12 in
  let flags := u32_at b 16 in
  let e := rel_exptime c (u32_at b 20) in
  if expired e then Some CNothing
  else if ty =? 0 then
    Some (CKvLink (sub_at b 32 keylen) flags e (sub_at b (32 + keylen) vallen) (u64_at b 24))
  else
    let m := u8_at b 25 in
    let a := RAttr flags e (to_int (u32_at b 28)) (u8_at b 24) (readable m) (trimmed m) in
    if (ty =? 1) || (ty =? 2) || (ty =? 3) then Some (CCollLink ty (sub_at b 32 keylen) (a None))
    else if ty =? 4 then
      let len := u8_at b 26 in
      if negb (len =? BKEY_NULL)
      then Some (CCollLink 4 (sub_at b (32 + real_nbkey len) keylen)
                   (a (Some (len, sub_at b 32 (real_nbkey len)))))
      else Some (CCollLink 4 (sub_at b 32 keylen) (a (Some (BKEY_NULL, []))))
    else None.   (* ENGINE_FAILED *)

(* lrec_it_unlink_redo: 392-404 *)
Definition redo_unlink (b : bytes) : option call := Some (CUnlink (sub_at b 10 (u16_at b 8))).

(* lrec_it_setattr_redo: 438-474 *)
Definition redo_setattr (c : clock) (b : bytes) : option call :=
  let keylen := u16_at b 8 in
  let e := rel_exptime c (u32_at b 12) in
  if u8_at b 1 =? 2 then Some (CSetExp (sub_at b 24 keylen) e)
  else
    let len := u8_at b 18 in
    if negb (len =? BKEY_NULL)
    then Some (CSetColl (sub_at b (24 + real_nbkey len) keylen) e (to_int (u32_at b 20)) (u8_at b 16) (u8_at b 17)
                 (Some (len, sub_at b 24 (real_nbkey len))))
    else Some (CSetColl (sub_at b 24 keylen) e (to_int (u32_at b 20)) (u8_at b 16) (u8_at b 17) None).

(* lrec_it_flush_redo: 529-547 *)
Definition redo_flush (b : bytes) : option call :=
  let n := u8_at b 8 in
  if n =? 255 then Some (CFlush None)
  else if n =? 0 then Some (CFlush (Some []))
  else Some (CFlush (Some (sub_at b 9 n))).

(* do_construct_item_attr: 250-261 *)
Definition item_attr (c : clock) (b : bytes) (o : N) : rattr :=
  let i := sub_at b o 16 in
  RAttr (u32_at i 0) (rel_exptime c (u32_at i 4)) (to_int (u32_at i 8)) (u8_at i 14)
        (readable (u8_at i 15)) false None.

(* the common shape of the four insertion redo functions: with the create flag the collection is made first,
   unless its attributes say that it has expired *)
Definition with_create (c : clock) (b : bytes) (create : bool) (o : N) (k : option rattr -> call) : option call :=
  if create then
    let a := item_attr c b o in
    if expired (t_exp a) then Some CNothing else Some (k (Some a))
  else Some (k None).
Definition n2b (n : N) : bool := negb (n =? 0).

(* lrec_list_elem_insert_redo: 581-626 *)
Definition redo_list_ins (c : clock) (b : bytes) : option call :=
  let keylen := u16_at b 8 in
  let vallen := u32_at b 12 in
  with_create c b (n2b (u8_at b 10)) (24 + keylen + vallen) (fun cr =>
    CListIns (sub_at b 24 keylen) cr (to_int (u32_at b 16)) (to_int (u32_at b 20))
             (sub_at b (24 + keylen) vallen)).

(* lrec_list_elem_delete_redo: 661-683 *)
Definition redo_list_del (b : bytes) : option call :=
  let keylen := u16_at b 8 in
  Some (CListDel (sub_at b 24 keylen) (to_int (u32_at b 12)) (to_int (u32_at b 16)) (to_int (u32_at b 20))
                 (n2b (u8_at b 10))).

(* lrec_set_elem_insert_redo: 714-758 *)
Definition redo_set_ins (c : clock) (b : bytes) : option call :=
  let keylen := u16_at b 8 in
  let vallen := u32_at b 12 in
  with_create c b (n2b (u8_at b 10)) (16 + keylen + vallen) (fun cr =>
    CSetIns (sub_at b 16 keylen) cr (sub_at b (16 + keylen) vallen)).

(* lrec_set_elem_delete_redo: 794-816 *)
Definition redo_set_del (b : bytes) : option call :=
  let keylen := u16_at b 8 in
  Some (CSetDel (sub_at b 16 keylen) (sub_at b (16 + keylen) (u32_at b 12)) (n2b (u8_at b 10))).

(* lrec_map_elem_insert_redo: 850-894; map_apply_elem_insert splits its data at nfield *)
Definition redo_map_ins (c : clock) (b : bytes) : option call :=
  let keylen := u16_at b 8 in
  let fldlen := u8_at b 11 in
  let vallen := u32_at b 12 in
  with_create c b (n2b (u8_at b 10)) (16 + keylen + fldlen + vallen) (fun cr =>
    CMapIns (sub_at b 16 keylen) cr (sub_at b (16 + keylen) fldlen) (sub_at b (16 + keylen + fldlen) vallen)).

(* lrec_map_elem_delete_redo: 933-955 *)
Definition redo_map_del (b : bytes) : option call :=
  let keylen := u16_at b 8 in
  Some (CMapDel (sub_at b 12 keylen) (sub_at b (12 + keylen) (u8_at b 11)) (n2b (u8_at b 10))).

(* lrec_bt_elem_insert_redo: 988-1035; attr.maxbkeyrange.len = BKEY_NULL when the B+tree is created *)
Definition redo_bt_ins (c : clock) (b : bytes) : option call :=
  let keylen := u16_at b 8 in
  let nbkey := u8_at b 11 in
  let neflag := u8_at b 12 in
  let vallen := u32_at b 16 in
  let d := 20 + keylen in
  let r := real_nbkey nbkey in
  with_create c b (n2b (u8_at b 10)) (d + r + neflag + vallen) (fun cr =>
    CBtIns (sub_at b 20 keylen)
      (match cr with
       | None => None
       | Some a => Some (RAttr (t_flags a) (t_exp a) (t_max a) (t_ovfl a) (t_readable a) (t_trimmed a)
                               (Some (BKEY_NULL, [])))
       end)
      (nbkey, sub_at b d r) (sub_at b (d + r) neflag) (sub_at b (d + r + neflag) vallen)).

(* lrec_bt_elem_delete_redo: 1084-1106 *)
Definition redo_bt_del (b : bytes) : option call :=
  let keylen := u16_at b 8 in
  let nbkey := u8_at b 11 in
  Some (CBtDel (sub_at b 12 keylen) (nbkey, sub_at b (12 + keylen) (real_nbkey nbkey)) (n2b (u8_at b 10))).

(* lrec_bt_elem_delete_logical_redo: 1153-1203 *)
Definition redo_bt_lgc (b : bytes) : option call :=
  let keylen := u16_at b 8 in
  let rf := real_nbkey (u8_at b 11) in
  let rt := real_nbkey (u8_at b 12) in
  let fo := 28 + keylen in
  let to := fo + rf in
  let bo := to + (if rt =? BKEY_NULL then 0 else rt) in
  let nbitw := u8_at b 14 in
  let co := bo + nbitw in
  Some (CBtLgc (sub_at b 28 keylen) (u8_at b 11, sub_at b fo rf)
          (u8_at b 12, if negb (rt =? BKEY_NULL) then sub_at b to rt else [])
          (if n2b (u8_at b 13)
           then Some (EFilter (sub_at b bo nbitw) (u8_at b 15) (sub_at b co (u8_at b 16 * u8_at b 15))
                              (u8_at b 16) (u8_at b 17) (u8_at b 18) (u8_at b 19))
           else None)
          (u32_at b 20) (u32_at b 24) (n2b (u8_at b 10))).

(* lrec_snapshot_elem_link_redo: 1304-1324.  The collection is that of log->it, a pointer at offset 24 of
   the structure; type ty is the type of the item it points to *)
Definition redo_snap_elem (ty : N) (b : bytes) : option call :=
  let nbytes := u32_at b 8 in
  let nekey := u8_at b 12 in
  let neflag := u8_at b 13 in
  if (ty =? 1) || (ty =? 2) then Some (CElem ty (0, []) [] (sub_at b 14 nbytes))
  else if ty =? 3 then Some (CElem 3 (nekey, sub_at b 14 nekey) [] (sub_at b (14 + nekey) nbytes))
  else if ty =? 4 then
    let r := real_nbkey nekey in
    Some (CElem 4 (nekey, sub_at b 14 r) (sub_at b (14 + r) neflag) (sub_at b (14 + r + neflag) nbytes))
  else None.

(* lrec_set_item_in_snapshot_elem: 1834-1840: log->it = it, where it lies at offset 24 of SnapshotElemLog
   (cmdlogrec.h 202-207: header 8 bytes, body 8 bytes, valptr 8 bytes) *)
Definition set_item (b : bytes) (p : N) : bytes := firstn 24 b ++ le64 p ++ skipn 32 b.

(* chkpt_snapshot.c 779-783: the record was read to the start of a buffer of MAX_LOG_RECORD_SIZE bytes, the
   rest of which (rest) is left over from earlier records *)
Definition apply_snap_elem (ty p : N) (rec rest : bytes) : option call :=
  redo_snap_elem ty (set_item (rec ++ rest) p).

(* lrec_redo_from_record: 1425-1436 with the table 1388-1404.  Snapshot elements are redone with
   apply_snap_elem only; log types beyond the table are not defined *)
Definition redo (c : clock) (b : bytes) : option call :=
  match u8_at b 0 with
  | 0 => redo_link c b
  | 1 => redo_unlink b
  | 2 => redo_setattr c b
  | 3 => redo_flush b
  | 4 => redo_list_ins c b
  | 5 => redo_list_del b
  | 6 => redo_set_ins c b
  | 7 => redo_set_del b
  | 8 => redo_map_ins c b
  | 9 => redo_map_del b
  | 10 => redo_bt_ins c b
  | 11 => redo_bt_del b
  | 12 => redo_bt_lgc b
  | 13 | 14 | 16 => Some CNothing
  | _ => None
  end.

(* lrec_get_item_if_collection_link: 1824-1832: the key with which the collection just linked is looked up
   (None: the record is not a link of a collection) *)
Definition coll_link_key (b : bytes) : option bytes :=
  if negb (u8_at b 0 =? 0) || (u8_at b 1 =? 0) then None
  else Some (sub_at b 32 (u16_at b 10)).
