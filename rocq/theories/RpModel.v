(* Log records at the level of data: what a command does to the item of its key and which log records it
   generates (item_clog.c, cmdlogmgr.c), what recovery does with a record (cmdlogrec.c, items.c, the .._apply_.. functions of coll_list.c, coll_set.c, coll_map.c, coll_btree.c),
   and the checkpoint: scan, snapshot, records written to the new log as well (cmdlogmgr.c NEED_DUAL_WRITE,
   items.c item_scan_*, chkpt_snapshot.c).
   Simplified: an item is its flags, expiry time and contents.  The contents of a list, set or map are a list, those
   of a B+tree the state of BtSpec.v, which BtRun.v proves the tree to implement (likewise ListProps.v, SetProps.v,
   MapProps.v); maximum counts are held resolved (mcnt > 0 ? mcnt : the configured maximum), the configuration being
   the same at recovery.  Memory suffices at recovery.  Times are absolute seconds.  Byte formats of records are in
   Rec*, cutting of the log in Rcv*.  Items of the internal prefix "arcus" are not logged and are left out.  The cas value
   is left out. *)
From Verif Require Import Base.
From Verif Require ListModel ListSpec BtModel BtSpec.
Local Open Scope nat_scope.

(* exptime: 0 never, -1 sticky, else a time *)
Inductive etime := Never | Sticky | At (t : N).
(* item_base.c 553-580 item_is_valid / do_item_isvalid: exptime <= current time; cmdlogrec.c 70-83: abstime
   not greater than time(NULL) is expired *)
Definition expired (now : N) (e : etime) : bool := match e with At t => (t <=? now)%N | _ => false end.
(* cmdlogrec.c 54-67 CONVERT_ABS_EXPTIME *)
Definition abs_exp (now : N) (e : etime) : etime :=
  match e with At t => At (if (now <? t)%N then t else now) | _ => e end.

Inductive body :=
| KV (v : bytes)
| Lst (mx : Z) (ov : ListModel.ovflact) (rd : bool) (l : list bytes)
| St (mx : nat) (rd : bool) (l : list bytes)
| Mp (mx : nat) (rd : bool) (l : list (bytes * bytes))
| Bt (rd : bool) (s : BtSpec.sp).
(* i_id stands for the address of the hash_item *)
Record item := mkItem { i_id : N; i_fl : N; i_exp : etime; i_body : body }.
Definition with_body (it : item) (b : body) : item := mkItem (i_id it) (i_fl it) (i_exp it) b.
Definition with_exp (it : item) (e : etime) : item := mkItem (i_id it) (i_fl it) e (i_body it).

(* what a link record holds of an item (cmdlogrec.c 1442-1500 lrec_construct_link_item): a value, or the
   attributes of a collection *)
Definition shell (b : body) : body :=
  match b with
  | KV v => KV v
  | Lst mx ov rd _ => Lst mx ov rd []
  | St mx rd _ => St mx rd []
  | Mp mx rd _ => Mp mx rd []
  | Bt rd s => Bt rd (BtSpec.mkSp [] (BtSpec.s_max s) (BtSpec.s_ovf s) (BtSpec.s_trim s) BtModel.TUnknown (BtSpec.s_range s))
  end.
(* what the attribute part of an insert-with-create record holds (cmdlogrec.c 250-270: no trimmed flag, no
   maxbkeyrange) *)
Definition cshell (b : body) : body :=
  match shell b with
  | Bt rd s => Bt rd (BtSpec.mkSp [] (BtSpec.s_max s) (BtSpec.s_ovf s) false BtModel.TUnknown None)
  | x => x
  end.

(* element inserted: position data of a list as in the record *)
Inductive eins :=
| IList (tot : Z) (i : Z) (v : bytes)
| ISet (v : bytes)
| IMap (f v : bytes)
| IBt (e : BtModel.elem).
Inductive edel :=
| DList (tot : Z) (i : Z) (c : nat)
| DSet (v : bytes)
| DMap (f : bytes)
| DBt (k : BtModel.bkey)
| DBtL (r : BtModel.range) (fl : option BtModel.efilter) (ofs cnt : nat).

Definition creation := (N * etime * body)%type.     (* flags, exptime, attributes *)
Inductive rec1 :=
| RLink (fl : N) (e : etime) (b : body)
| RUnlink
| RAttr (e : etime)                                 (* UPD_SETATTR_EXPTIME *)
| RInfo (e : etime) (b : body) (rng : option BtModel.bkey)   (* UPD_SETATTR_EXPTIME_INFO and .._INFO_BKEY *)
| RIns (cr : option creation) (x : eins)
| RDel (x : edel) (drop : bool)
| RSnap (fl : N) (e : etime) (b : body) (xs : list eins).    (* a link record of a snapshot and its element records *)
Inductive rec := RKey (k : bytes) (r : rec1) | RFlush (p : option bytes).

Definition memb (v : bytes) (l : list bytes) : bool := existsb (beqb v) l.
Definition rem (v : bytes) (l : list bytes) : list bytes := filter (fun x => negb (beqb v x)) l.
Definition memf (f : bytes) (l : list (bytes * bytes)) : bool := memb f (map fst l).
Definition remf (f : bytes) (l : list (bytes * bytes)) : list (bytes * bytes) := filter (fun p => negb (beqb f (fst p))) l.
Definition putf (f v : bytes) (l : list (bytes * bytes)) : list (bytes * bytes) :=
  map (fun p => if beqb f (fst p) then (f, v) else p) l.

(* ---------- commands ---------- *)

(* body and the record of the element; None: the item is of another type; no record: refused *)
Definition ins_fun := body -> option (body * option eins).

(* coll_list.c 280-370 do_list_elem_insert: the count and the index as given are logged, elements trimmed to make
   room are not *)
Definition lst_ins (i : Z) (v : bytes) : ins_fun := fun b =>
  match b with
  | Lst mx ov rd l =>
      match ListSpec.insert_result mx ov i v l with
      | (ListModel.Success, l') => Some (Lst mx ov rd l', Some (IList (ListSpec.size l) i v))
      | _ => Some (b, None)
      end
  | _ => None
  end.
(* coll_set.c 540-600 do_set_elem_insert *)
Definition set_ins (v : bytes) : ins_fun := fun b =>
  match b with
  | St mx rd l => if Nat.leb mx (length l) || memb v l then Some (b, None) else Some (St mx rd (v :: l), Some (ISet v))
  | _ => None
  end.
(* coll_map.c do_map_elem_insert, do_map_elem_link *)
Definition map_ins (rep : bool) (f v : bytes) : ins_fun := fun b =>
  match b with
  | Mp mx rd l =>
      if memf f l then (if rep then Some (Mp mx rd (putf f v l), Some (IMap f v)) else Some (b, None))
      else if Nat.leb mx (length l) then Some (b, None) else Some (Mp mx rd ((f, v) :: l), Some (IMap f v))
  | _ => None
  end.
(* coll_map.c do_map_elem_update: an insert record as well *)
Definition map_upd (f v : bytes) : ins_fun := fun b =>
  match b with
  | Mp mx rd l => if memf f l then Some (Mp mx rd (putf f v l), Some (IMap f v)) else Some (b, None)
  | _ => None
  end.
(* coll_btree.c 2245, 1704, 1778, 2659: the element of the record for an insert, update or arithmetic command *)
Definition bt_elem (s : BtSpec.sp) (o : BtModel.op) (x : BtModel.out) : option BtModel.elem :=
  match o, x with
  | BtModel.Insert e _ _ _ _, (BtModel.OIns _ | BtModel.OReplaced) => Some e
  | BtModel.Update b u v _ _ _, BtModel.ORc BtModel.SUCC =>
      match BtSpec.lookup b (BtSpec.s_el s) with
      | Some x => match BtSpec.s_eflag u (BtModel.ef x) with
                  | Some f => Some (BtModel.mkE (BtModel.bk x) f (match v with Some w => w | None => BtModel.va x end))
                  | None => None
                  end
      | None => None
      end
  | BtModel.Arith b _ _ _ initial f _ _ _ _ _ _, BtModel.ONum n =>
      match BtSpec.lookup b (BtSpec.s_el s) with
      | Some x => Some (BtModel.mkE (BtModel.bk x) (BtModel.ef x) (BtSpec.s_num n))
      | None => Some (BtModel.mkE b f (BtSpec.s_num initial))
      end
  | _, _ => None
  end.
Definition bt_upserts (o : BtModel.op) : bool :=
  match o with BtModel.Insert _ _ _ _ _ | BtModel.Update _ _ _ _ _ _ | BtModel.Arith _ _ _ _ _ _ _ _ _ _ _ _ => true | _ => false end.
Definition bt_ins (o : BtModel.op) : ins_fun := fun b =>
  match b with
  | Bt rd s =>
      if bt_upserts o then
        let '(s', x) := BtSpec.s_step s o in
        match bt_elem s o x with
        | Some e => Some (Bt rd s', Some (IBt e))
        | None => Some (Bt rd s', None)          (* refused; the trimmed flag may have been set *)
        end
      else Some (b, None)
  | _ => None
  end.

(* coll_list.c 411-449 list_elem_insert, coll_set.c 794-830, coll_map.c 773-808, coll_btree.c 3716-3760 and the link
   record of cmdlogmgr.c 517-530: no link record inside an insert command, the insert record carries the attributes
   instead; when the insert into a new collection is refused, the collection is unlinked with a record *)
Definition insert_cmd (now nid : N) (x : option item) (cr : option creation) (f : ins_fun) : option item * list rec1 :=
  match x with
  | Some it =>
      match f (i_body it) with
      | Some (b, Some r) => (Some (with_body it b), [RIns None r])
      | Some (b, None) => (Some (with_body it b), [])
      | None => (x, [])
      end
  | None =>
      match cr with
      | None => (None, [])
      | Some (fl, e, b0) =>
          match f (cshell b0) with
          | Some (b, Some r) => (Some (mkItem nid fl e b), [RIns (Some (fl, abs_exp now e, cshell b0)) r])
          | Some (_, None) => (None, [RUnlink])
          | None => (None, [])
          end
      end
  end.

(* coll_list.c 452-475 adjust_list_range *)
Definition adjust (n f t : Z) : option (Z * Z) :=
  if (n <=? 0)%Z then None
  else
    let f := if (f <? 0)%Z then (f + n)%Z else f in
    let t := if (t <? 0)%Z then (t + n)%Z else t in
    if ((f <? 0) && (t <? 0))%Z then None
    else if ((n <=? f) && (n <=? t))%Z then None
    else
      let f := if (f <? 0)%Z then 0%Z else if (n <=? f)%Z then (n - 1)%Z else f in
      let t := if (t <? 0)%Z then 0%Z else if (n <=? t)%Z then (n - 1)%Z else t in
      Some (f, t).
(* 477-590 list_elem_delete, list_elem_get with delete; the range as in the record: a backward deletion is turned into
   a forward one, item_clog.c 90-119 *)
Definition list_range (n f t : Z) (get : bool) : option (Z * nat) :=
  match adjust n f t with
  | None => None
  | Some (f, t) =>
      if (f <=? t)%Z then Some (f, Z.to_nat (t - f + 1))
      else if get then
             let c := (f - t + 1)%Z in
             if (f <? c)%Z then Some (0%Z, Z.to_nat (f + 1)) else Some ((f - (c - 1))%Z, Z.to_nat c)
           else Some (t, Z.to_nat (f - t + 1))
  end.
(* 232-252 do_list_elem_delete and 171-200 do_list_elem_find: count elements from the index on, 0 = all *)
Definition cut (i : Z) (c : nat) (l : list bytes) : list bytes :=
  let n := ListSpec.size l in
  let i := if (i <? 0)%Z then (i + n)%Z else i in
  if ((i <? 0) || (n <=? i))%Z then l
  else firstn (Z.to_nat i) l ++ (if Nat.eqb c 0 then [] else skipn (Z.to_nat i + c) l).

(* elements deleted: new body, None when it is empty and dropped *)
Definition dropped (drop empty : bool) (b : body) : option body := if drop && empty then None else Some b.
Definition is_nil {A} (l : list A) : bool := match l with [] => true | _ => false end.
Definition settle (it : item) (b : option body) : option item := match b with Some b => Some (with_body it b) | None => None end.

(* what the client asked to delete is positions lo .. hi counted from the head *)
Definition list_del (it : item) (f t : Z) (drop get : bool) : option item * list rec1 :=
  match i_body it with
  | Lst mx ov rd l =>
      if get && negb rd then (Some it, [])
      else match list_range (ListSpec.size l) f t get with
           | None => (Some it, [])
           | Some (i, c) =>
               let n := ListSpec.size l in
               let f' := ListSpec.from_head f n in let t' := ListSpec.from_head t n in
               let l' := ListSpec.outside 0 (Z.min f' t') (Z.max f' t') l in
               (settle it (dropped drop (is_nil l') (Lst mx ov rd l')), [RDel (DList n i c) drop])
           end
  | _ => (Some it, [])
  end.
(* coll_set.c 832-861 set_elem_delete, 890-945 set_elem_get with delete: d are the values deleted, one record each
   (coll_set.c do_set_elem_unlink) *)
Definition set_del (it : item) (d : list bytes) (drop : bool) : option item * list rec1 :=
  match i_body it, d with
  | St mx rd l, _ :: _ =>
      if forallb (fun v => memb v l) d && Nat.eqb (length (nodup (list_eq_dec N.eq_dec) d)) (length d) then
        let l' := filter (fun v => negb (memb v d)) l in
        (settle it (dropped drop (is_nil l') (St mx rd l')), map (fun v => RDel (DSet v) drop) d)
      else (Some it, [])
  | _, _ => (Some it, [])
  end.
(* coll_map.c 829-862 map_elem_delete, 864-920 map_elem_get with delete; fl = [] means all fields.  The records come in
   the order of the fields in the code, here in the order of the list *)
Definition map_del (it : item) (fl : list bytes) (drop : bool) : option item * list rec1 :=
  match i_body it with
  | Mp mx rd l =>
      let hit p := match fl with [] => true | _ => memb (fst p) fl end in
      match filter hit l with
      | [] => (Some it, [])
      | d => let l' := filter (fun p => negb (hit p)) l in
             (settle it (dropped drop (is_nil l') (Mp mx rd l')), map (fun p => RDel (DMap (fst p)) drop) d)
      end
  | _ => (Some it, [])
  end.
(* coll_btree.c 3768-3850 btree_elem_delete, 3880-3960 btree_elem_get with delete: one record per element (1667, 1947,
   2400), or one record for the whole (2016, 2469) if gen_logical_btree_delete_log *)
Definition bt_del (it : item) (o : BtModel.op) (drop logical : bool) : option item * list rec1 :=
  match i_body it with
  | Bt rd s =>
      let go r fl ofs cnt :=
        match BtSpec.s_step s o with
        | (s', (BtModel.OCnt _ | BtModel.OElems _ _)) =>
            (settle it (dropped drop (is_nil (BtSpec.s_el s')) (Bt rd s')),
             if (logical : bool) then [RDel (DBtL r fl ofs cnt) drop]
             else map (fun e => RDel (DBt (BtModel.bk e)) drop) (BtSpec.select r fl ofs cnt (BtSpec.s_el s)))
        | (s', _) => (Some (with_body it (Bt rd s')), [])
        end in
      match o with
      | BtModel.Delete r fl cnt => go r fl 0 cnt
      | BtModel.Get r fl ofs cnt true => if rd then go r fl ofs cnt else (Some it, [])
      | _ => (Some it, [])
      end
  | _ => (Some it, [])
  end.

(* attributes of a setattr command; x_ov as given by the client *)
Inductive ovf := FErr | FHead | FTail | FSmallest | FLargest | FSmallestSilent | FLargestSilent.
Definition lov_of (o : ovf) : option ListModel.ovflact :=
  match o with FErr => Some ListModel.OvError | FHead => Some ListModel.OvHeadTrim | FTail => Some ListModel.OvTailTrim | _ => None end.
Definition bov_of (o : ovf) : option BtModel.ovact :=
  match o with
  | FErr => Some BtModel.OvError | FSmallest => Some BtModel.OvSmallest | FLargest => Some BtModel.OvLargest
  | FSmallestSilent => Some BtModel.OvSmallestSilent | FLargestSilent => Some BtModel.OvLargestSilent | _ => None
  end.
(* x_junk: what cmdlogmgr.c / cmdlogrec.c 1550-1556 finds where the maxbkeyrange of a B+tree would be when the item is
   not a B+tree *)
Record xattr := mkX { x_exp : option etime; x_max : option nat; x_ov : option ovf; x_rd : bool;
                      x_rng : option (option BtModel.bkey); x_junk : option BtModel.bkey }.

Definition is_sticky (e : etime) : bool := match e with Sticky => true | _ => false end.
Definition set_small (mx : nat) (x : xattr) (n : nat) : option nat :=
  match x_ov x with
  | None | Some FErr => match x_max x with Some m => if Nat.ltb m n then None else Some m | None => Some mx end
  | _ => None
  end.
Definition bt_set (s : BtSpec.sp) (o : option BtModel.attr) : option BtSpec.sp :=
  match o with
  | None => Some s
  | Some a => match BtSpec.s_step s (BtModel.SetAttr a) with (s', BtModel.ORc BtModel.SUCC) => Some s' | _ => None end
  end.
(* coll_list.c 633-668, coll_set.c, coll_map.c, coll_btree.c 4294-4383 .._coll_setattr; nothing is checked for a
   plain item, and maxbkeyrange is ignored by lists, sets and maps *)
Definition set_body (b : body) (x : xattr) : option body :=
  match b with
  | KV v => Some (KV v)
  | Lst mx ov rd l =>
      match (match x_ov x with None => Some ov | Some o => lov_of o end),
            (match x_max x with None => Some mx | Some m => if Nat.ltb m (length l) then None else Some (Z.of_nat m) end) with
      | Some ov', Some mx' => Some (Lst mx' ov' (rd || x_rd x) l)
      | _, _ => None
      end
  | St mx rd l => match set_small mx x (length l) with Some m => Some (St m (rd || x_rd x) l) | None => None end
  | Mp mx rd l => match set_small mx x (length l) with Some m => Some (Mp m (rd || x_rd x) l) | None => None end
  | Bt rd s =>
      match x_ov x with
      | Some o =>
          match bov_of o with
          | None => None
          | Some o' =>
              match bt_set s (option_map BtModel.AMaxCount (x_max x)) with
              | Some s1 => match bt_set s1 (Some (BtModel.AOvf o')) with
                           | Some s2 => match bt_set s2 (option_map BtModel.ARange (x_rng x)) with
                                        | Some s3 => Some (Bt (rd || x_rd x) s3) | None => None end
                           | None => None end
              | None => None
              end
          end
      | None =>
          match bt_set s (option_map BtModel.AMaxCount (x_max x)) with
          | Some s1 => match bt_set s1 (option_map BtModel.ARange (x_rng x)) with
                       | Some s2 => Some (Bt (rd || x_rd x) s2) | None => None end
          | None => None
          end
      end
  end.
(* items.c 770-823 do_item_setattr, cmdlogmgr.c 548-576 cmdlog_generate_setattr, cmdlogrec.c 1528-1566 *)
Definition has_info (x : xattr) : bool :=
  match x_max x, x_ov x, x_rng x with None, None, None => x_rd x | _, _, _ => true end.
Definition rec_range (b : body) (x : xattr) : option BtModel.bkey :=
  match x_rng x with
  | None => None
  | Some _ => match b with Bt _ s => BtSpec.s_range s | _ => x_junk x end
  end.
Definition attr_cmd (now : N) (it : item) (x : xattr) : option item * list rec1 :=
  let e' := match x_exp x with Some e => e | None => i_exp it end in
  if negb (Bool.eqb (is_sticky e') (is_sticky (i_exp it))) then (Some it, [])
  else match set_body (i_body it) x with
       | None => (Some it, [])
       | Some b =>
           (Some (mkItem (i_id it) (i_fl it) e' b),
            if has_info x then [RInfo (abs_exp now e') (shell b) (rec_range b x)]
            else match x_exp x with Some _ => [RAttr (abs_exp now e')] | None => [] end)
       end.

Inductive kcmd :=
| KStore (fl : N) (e : etime) (v : bytes)              (* a set, add, replace, append, cas, arithmetic command that stores *)
| KRemove                                              (* delete *)
| KEvict                                               (* eviction, scrub stale *)
| KCreate (fl : N) (e : etime) (b : body)
| KLIns (cr : option creation) (i : Z) (v : bytes)
| KLDel (f t : Z) (drop get : bool)
| KSIns (cr : option creation) (v : bytes)
| KSDel (d : list bytes) (drop : bool)
| KMIns (cr : option creation) (rep : bool) (f v : bytes)
| KMUpd (f v : bytes)
| KMDel (fl : list bytes) (drop : bool)
| KBIns (cr : option creation) (o : BtModel.op)
| KBDel (o : BtModel.op) (drop logical : bool)
| KAttr (x : xattr).

(* a command on one key whose valid item is x; nid: the address of a new item *)
Definition act (now nid : N) (x : option item) (c : kcmd) : option item * list rec1 :=
  match c with
  | KStore fl e v =>
      (* items.c 86-224 do_store_item, item_base.c 992-1026 do_item_link, 1070-1130 do_item_replace: the unlink of the
         old item is not logged *)
      match x with
      | Some (mkItem _ _ _ (KV _)) | None => (Some (mkItem nid fl e (KV v)), [RLink fl (abs_exp now e) (KV v)])
      | Some _ => (x, [])
      end
  | KRemove | KEvict =>
      (* items.c 395-430, item_base.c 1029-1067, cmdlogmgr.c 532-542 *)
      match x with Some _ => (None, [RUnlink]) | None => (None, []) end
  | KCreate fl e b =>
      match x, b with
      | None, KV _ => (None, [])
      | None, _ => (Some (mkItem nid fl e (cshell b)), [RLink fl (abs_exp now e) (shell (cshell b))])
      | Some _, _ => (x, [])
      end
  | KLIns cr i v => insert_cmd now nid x cr (lst_ins i v)
  | KSIns cr v => insert_cmd now nid x cr (set_ins v)
  | KMIns cr rep f v => insert_cmd now nid x cr (map_ins rep f v)
  | KMUpd f v => insert_cmd now nid x None (map_upd f v)
  | KBIns cr o => insert_cmd now nid x cr (bt_ins o)
  | KLDel f t drop get => match x with Some it => list_del it f t drop get | None => (None, []) end
  | KSDel d drop => match x with Some it => set_del it d drop | None => (None, []) end
  | KMDel fl drop => match x with Some it => map_del it fl drop | None => (None, []) end
  | KBDel o drop logical => match x with Some it => bt_del it o drop logical | None => (None, []) end
  | KAttr xa => match x with Some it => attr_cmd now it xa | None => (None, []) end
  end.

(* ---------- recovery ---------- *)

(* list_apply_elem_insert coll_list.c 710-762, set_apply_elem_insert coll_set.c 1128-1168, map_apply_elem_insert
   coll_map.c 1102-1145, btree_apply_elem_insert coll_btree.c 4429-4477; None: the item is removed as inconsistent.
   The functions do not look at the type of the item; an item of another type is taken as removed here *)
Definition redo_ins (b : body) (x : eins) : option body :=
  match b, x with
  | Lst mx ov rd l, IList tot i v =>
      if negb (tot =? -1)%Z && negb (tot =? ListSpec.size l)%Z then None
      else match ListSpec.insert_result mx ov i v l with
           | (ListModel.Success, l') => Some (Lst mx ov rd l')
           | _ => None
           end
  | St mx rd l, ISet v => if Nat.leb mx (length l) || memb v l then None else Some (St mx rd (v :: l))
  | Mp mx rd l, IMap f v =>
      if memf f l then Some (Mp mx rd (putf f v l))
      else if Nat.leb mx (length l) then None else Some (Mp mx rd ((f, v) :: l))
  | Bt rd s, IBt e =>
      match BtSpec.s_step s (BtModel.Insert e true false true 0) with
      | (s', (BtModel.OIns _ | BtModel.OReplaced)) => Some (Bt rd s')
      | _ => None
      end
  | _, _ => None
  end.
(* list_apply_elem_delete coll_list.c 764-813, set_apply_elem_delete coll_set.c 1170-1211, map_apply_elem_delete
   coll_map.c 1147-1200, btree_apply_elem_delete and .._logical coll_btree.c 4479-4606 *)
Definition redo_bt_del (rd : bool) (s : BtSpec.sp) (r : BtModel.range) (fl : option BtModel.efilter) (ofs cnt : nat) (drop : bool) : option body :=
  match BtSpec.s_el s with
  | [] => dropped drop true (Bt rd s)
  | _ => if BtSpec.s_bad_type s (BtModel.r_from r) then None
         else let s' := BtSpec.with_el s (BtSpec.without (BtSpec.select r fl ofs cnt (BtSpec.s_el s)) (BtSpec.s_el s)) in
              dropped drop (is_nil (BtSpec.s_el s')) (Bt rd s')
  end.
Definition redo_del (b : body) (x : edel) (drop : bool) : option body :=
  match b, x with
  | Lst mx ov rd l, DList tot i c =>
      if negb (tot =? ListSpec.size l)%Z then None
      else let l' := cut i c l in dropped drop (is_nil l') (Lst mx ov rd l')
  | St mx rd l, DSet v => let l' := rem v l in dropped drop (is_nil l') (St mx rd l')
  | Mp mx rd l, DMap f => let l' := remf f l in dropped drop (is_nil l') (Mp mx rd l')
  | Bt rd s, DBt k => redo_bt_del rd s (BtModel.mkR k None) None 0 0 drop
  | Bt rd s, DBtL r fl ofs cnt => redo_bt_del rd s r fl ofs cnt drop
  | _, _ => None
  end.
(* items.c 1820-1869 item_apply_setattr_collinfo: no bktype, and a maxbkeyrange is only ever set, not cleared.  The
   code copies raw numbers; a record of another type of collection than the item is left out (no change) *)
Definition redo_info (b nb : body) (rng : option BtModel.bkey) : option body :=
  match b, nb with
  | KV _, _ => None
  | Lst _ _ _ l, Lst mx ov rd _ => match rng with None => Some (Lst mx ov rd l) | Some _ => None end
  | St _ _ l, St mx rd _ => match rng with None => Some (St mx rd l) | Some _ => None end
  | Mp _ _ l, Mp mx rd _ => match rng with None => Some (Mp mx rd l) | Some _ => None end
  | Bt _ s, Bt rd n =>
      Some (Bt rd (BtSpec.mkSp (BtSpec.s_el s) (BtSpec.s_max n) (BtSpec.s_ovf n) (BtSpec.s_trim n) (BtSpec.s_type s)
                     (match rng with Some r => Some r | None => BtSpec.s_range s end)))
  | _, _ => Some b
  end.

Fixpoint redo_elems (b : body) (xs : list eins) : option body :=
  match xs with
  | [] => Some b
  | x :: r => match redo_ins b x with Some b' => redo_elems b' r | None => None end
  end.

Definition valid (now : N) (x : option item) : option item :=
  match x with Some it => if expired now (i_exp it) then None else x | None => None end.

(* cmdlogrec.c 300-347 link, 392-405 unlink, 438-476 setattr, 581-625, 714-760, 850-897, 988-1036 element insert,
   661-680, 794-812, 933-951, 1084-1104, 1153-1205 element delete; chkpt_snapshot.c 764-791 with cmdlogrec.c
   1300-1322 for the elements of a snapshot *)
Definition redo1 (now : N) (y : option item) (r : rec1) : option item :=
  let y := valid now y in
  match r with
  | RLink fl e b => if expired now e then y else Some (mkItem 0 fl e b)
  | RUnlink => None
  | RAttr e => match y with Some it => Some (with_exp it e) | None => None end
  | RInfo e b rng => match y with
                     | Some it => match redo_info (i_body it) b rng with Some b' => Some (mkItem (i_id it) (i_fl it) e b') | None => None end
                     | None => None
                     end
  | RIns (Some (fl, e, b)) x =>
      match y with
      | Some _ => y                                             (* already exists *)
      | None => if expired now e then None
                else match redo_ins b x with Some b' => Some (mkItem 0 fl e b') | None => None end
      end
  | RIns None x => match y with Some it => settle it (redo_ins (i_body it) x) | None => None end
  | RDel x drop => match y with Some it => settle it (redo_del (i_body it) x drop) | None => None end
  | RSnap fl e b xs => if expired now e then y
                       else match redo_elems b xs with Some b' => Some (mkItem 0 fl e b') | None => None end
  end.

(* prefix.c 342-350: the prefix of a key is what precedes the first ':' after its first character; [] is the null prefix *)
Fixpoint before_colon (k : bytes) : option bytes :=
  match k with
  | [] => None
  | c :: r => if (c =? 58)%N then Some [] else match before_colon r with Some p => Some (c :: p) | None => None end
  end.
Definition prefix_name (k : bytes) : option bytes :=
  match k with
  | [] => None
  | c :: r => match before_colon r with Some p => Some (c :: p) | None => None end
  end.
(* flush of everything, or of one prefix; items.c 436-558 *)
Definition covers (p : option bytes) (k : bytes) : bool :=
  match p with
  | None => true
  | Some p => beqb p (match prefix_name k with Some q => q | None => [] end)
  end.

Definition table := bytes -> option item.
Definition upd (t : table) (k : bytes) (x : option item) : table := fun j => if beqb k j then x else t j.
Definition redo (now : N) (t : table) (r : rec) : table :=
  match r with
  | RKey k r1 => upd t k (redo1 now (t k) r1)
  | RFlush p => fun k => if covers p k then None else t k        (* items.c 1890-1901 *)
  end.
Definition recover (now : N) (rs : list rec) : table := fold_left (redo now) rs (fun _ => None).

(* ---------- the server with its log and checkpoint ---------- *)

(* contents of a captured item in the form of element records (chkpt_snapshot.c 228-272, cmdlogrec.c 1300-1322: a list
   element is appended whatever the count) *)
Definition elems_of (b : body) : list eins :=
  match b with
  | KV _ => []
  | Lst _ _ _ l => map (IList (-1) (-1)) l
  | St _ _ l => map ISet l
  | Mp _ _ l => map (fun p => IMap (fst p) (snd p)) l
  | Bt _ s => map IBt (BtSpec.s_el s)
  end.
(* the elements were captured when the scan met the item, the attributes are read when the item is written *)
Definition retain (cur cap : body) : body :=
  match cur, cap with
  | Lst mx ov rd _, Lst _ _ _ l => Lst mx ov rd l
  | St mx rd _, St _ _ l => St mx rd l
  | Mp mx rd _, Mp _ _ l => Mp mx rd l
  | Bt rd s, Bt _ c => Bt rd (BtSpec.mkSp (BtSpec.s_el c) (BtSpec.s_max s) (BtSpec.s_ovf s) (BtSpec.s_trim s) (BtSpec.s_type c) (BtSpec.s_range s))
  | _, _ => cap
  end.
Definition refresh (x : option item) (cap : item) : item :=
  match x with
  | Some it => if N.eqb (i_id it) (i_id cap) then mkItem (i_id cap) (i_fl cap) (i_exp it) (retain (i_body it) (i_body cap)) else cap
  | None => cap
  end.
Definition entry := (bytes * item)%type.
(* after a command on k whose item is now x *)
Definition refresh_all (k : bytes) (x : option item) (ps : list entry) : list entry :=
  map (fun p => if beqb k (fst p) then (fst p, refresh x (snd p)) else p) ps.
Definition snap_rec (now : N) (p : entry) : rec :=
  RKey (fst p) (RSnap (i_fl (snd p)) (abs_exp now (i_exp (snd p))) (shell (i_body (snd p))) (elems_of (i_body (snd p)))).

(* sc_vis: the keys the scan has passed; sc_first: before the first call the table index of the scan is not
   initialised (assoc.c 351-371) and some keys are taken for passed *)
Record scan := mkScan { sc_vis : bytes -> bool; sc_first : bytes -> bool; sc_snap : list rec; sc_pend : list entry; sc_new : list rec }.
(* base: what recovery reads, the last complete snapshot and its log *)
Record sys := mkSys { now : N; nid : N; tab : table; base : list rec; sc : option scan }.

Inductive ev :=
| ECmd (k : bytes) (c : kcmd) (relinked : bool)
| EFlush (p : option bytes)                   (* flush_all, flush_prefix without delay *)
| EFlushDue (p : option bytes)                (* the time of a delayed flush has come *)
| ETick (d : N)
| EOpen (first : bytes -> bool)               (* item_scan_open, cmdlog_set_chkpt_scan *)
| EScan (f : bytes -> bool) (ks : list bytes) (* one call of item_scan_getnext: the keys passed *)
| EDump                                       (* one item written to the snapshot *)
| EClose                                      (* item_scan_close, cmdlog_reset_chkpt_scan(true) *)
| EAbort.                                     (* the checkpoint failed *)

(* NEED_DUAL_WRITE cmdlogmgr.c 36-37 *)
Definition dual (s : scan) (k : bytes) : bool := sc_vis s k || sc_first s k.

Definition is_some {A} (x : option A) : bool := match x with Some _ => true | None => false end.

(* relinked: an item linked into the part of a chain the scan has passed *)
Definition cmd_step (s : sys) (k : bytes) (c : kcmd) (relinked : bool) : sys :=
  let x := valid (now s) (tab s k) in
  let '(x', rs) := act (now s) (nid s) x c in
  let t' := upd (tab s) k x' in
  let recs := map (RKey k) rs in
  mkSys (now s) (nid s + 1) t' (base s ++ recs)
    (match sc s with
     | None => None
     | Some a =>
         let a' := mkScan (fun j => if beqb k j then sc_vis a j || relinked && negb (is_some x) else sc_vis a j)
                          (sc_first a) (sc_snap a) (refresh_all k x' (sc_pend a)) (sc_new a) in
         Some (mkScan (sc_vis a') (sc_first a') (sc_snap a') (sc_pend a') (sc_new a' ++ (if dual a' k then recs else [])))
     end).

Definition flush_step (s : sys) (p : option bytes) (logged : bool) : sys :=
  let t' : table := fun k => if covers p k then None else tab s k in
  let recs := if logged then [RFlush p] else [] in
  mkSys (now s) (nid s) t' (base s ++ recs)
    (match sc s with
     | None => None
     | Some a => Some (mkScan (sc_vis a) (sc_first a) (sc_snap a) (sc_pend a) (sc_new a ++ recs))
     end).

Inductive step : sys -> ev -> sys -> Prop :=
| st_cmd s k c b : step s (ECmd k c b) (cmd_step s k c b)
| st_flush s p : step s (EFlush p) (flush_step s p true)
| st_flush_due s p : step s (EFlushDue p) (flush_step s p false)        (* cmdlogmgr.c 545: not logged *)
| st_tick s d : step s (ETick d) (mkSys (now s + d) (nid s) (tab s) (base s) (sc s))
| st_open s first : sc s = None ->
    step s (EOpen first) (mkSys (now s) (nid s) (tab s) (base s) (Some (mkScan (fun _ => false) first [] [] [])))
(* items.c 1065-1122 item_scan_getnext: the items are captured under the lock; assoc.c 373-450 *)
| st_scan s a f ks : sc s = Some a -> sc_pend a = [] -> NoDup ks ->
    (forall k, In k ks <-> f k = true /\ sc_vis a k = false /\ is_some (valid (now s) (tab s k)) = true) ->
    step s (EScan f ks)
      (mkSys (now s) (nid s) (tab s) (base s)
         (Some (mkScan (fun k => sc_vis a k || f k) (fun _ => false) (sc_snap a)
                       (flat_map (fun k => match valid (now s) (tab s k) with Some it => [(k, it)] | None => [] end) ks) (sc_new a))))
| st_dump s a p r : sc s = Some a -> sc_pend a = p :: r ->
    step s EDump (mkSys (now s) (nid s) (tab s) (base s) (Some (mkScan (sc_vis a) (sc_first a) (sc_snap a ++ [snap_rec (now s) p]) r (sc_new a))))
(* chkpt_snapshot.c 280-330: the scan ends when no item is left *)
| st_close s a : sc s = Some a -> sc_pend a = [] -> (forall k, is_some (valid (now s) (tab s k)) = true -> sc_vis a k = true) ->
    step s EClose (mkSys (now s) (nid s) (tab s) (sc_snap a ++ sc_new a) None)
| st_abort s : step s EAbort (mkSys (now s) (nid s) (tab s) (base s) None).

Definition start (t0 : N) : sys := mkSys t0 1 (fun _ => None) [] None.
