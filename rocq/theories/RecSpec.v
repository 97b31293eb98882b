(* Specification of the log records: the operations that are logged, in terms of their contents, and what
   has to be done with them when the log is replayed, whatever their representation on disk.
   Only the data types are shared with the model. *)
From Verif Require Import Base RecModel.
Local Open Scope N_scope.

(* the logged operations *)
Inductive lop :=
| OLink (it : ritem)                       (* the item, with this value or as an empty collection *)
| OUnlink (it : ritem)
| OSetExp (it : ritem)                     (* the item now has this expiry time *)
| OSetInfo (it : ritem)                    (* ... and these collection attributes *)
| OSetRange (it : ritem)                   (* ... and this maximum bkey range *)
| OFlush (p : option bytes)                (* flush_all, or flush_prefix p *)
| OListIns (it : ritem) (total : N) (index : Z) (value : bytes) (create : bool)
| OListDel (it : ritem) (total : N) (index : Z) (count : N) (drop : bool)
| OSetIns (it : ritem) (value : bytes) (create : bool)
| OSetDel (it : ritem) (value : bytes) (drop : bool)
| OMapIns (it : ritem) (field value : bytes) (create : bool)
| OMapDel (it : ritem) (field value : bytes) (drop : bool)
| OBtIns (it : ritem) (bk : bkey) (eflag value : bytes) (create : bool)
| OBtDel (it : ritem) (bk : bkey) (rest : bytes) (drop : bool)
| OBtLgc (it : ritem) (from to : bkey) (ef : option efilter) (offset count : N) (drop : bool)
| OBegin | OEnd.

(* when an item expires, in unix time *)
Inductive expiry := Never | Sticky | At (t : Z).
Definition meaning (c : clock) (e : N) : expiry :=
  if e =? 0 then Never else if e =? 4294967295 then Sticky
  else At (Z.of_N (c_unix c) + Z.of_N e - Z.of_N (c_cur c)).
(* the expiry time of the restarted server's clock with the same meaning; None: it has passed *)
Definition still (c : clock) (x : expiry) : option N :=
  match x with
  | Never => Some 0
  | Sticky => Some 4294967295
  | At t => if (t <=? Z.of_N (c_unix c))%Z then None
            else Some (Z.to_N (t - Z.of_N (c_unix c) + Z.of_N (c_cur c)))
  end.

(* bit 1: readable; bit 3: trimmed *)
Definition attrs (it : ritem) (e : N) (trim : bool) (range : option bkey) : rattr :=
  RAttr (r_flags it) e (r_mcnt it) (r_ovfl it) (N.testbit (r_mflags it) 1)
        (trim && N.testbit (r_mflags it) 3) range.
Definition range_of (it : ritem) : bkey :=
  if fst (r_maxbkr it) =? 255 then (255, []) else r_maxbkr it.

(* insertions that make the collection give its attributes; nothing is to be done if it has expired *)
Definition ins (c c' : clock) (it : ritem) (create : bool) (range : option bkey) (k : option rattr -> call) : call :=
  if create
  then match still c' (meaning c (r_exp it)) with
       | None => CNothing
       | Some e => k (Some (attrs it e false range))
       end
  else k None.

(* what is to be done at clock c' for an operation logged at clock c *)
Definition expected (c c' : clock) (o : lop) : call :=
  match o with
  | OLink it =>
      match still c' (meaning c (r_exp it)) with
      | None => CNothing
      | Some e =>
          if r_type it =? 0 then CKvLink (r_key it) (r_flags it) e (r_data it) (r_cas it)
          else CCollLink (r_type it) (r_key it)
                 (attrs it e true (if r_type it =? 4 then Some (range_of it) else None))
      end
  | OUnlink it => CUnlink (r_key it)
  | OSetExp it =>
      CSetExp (r_key it) (match still c' (meaning c (r_exp it)) with None => 1 | Some e => e end)
  | OSetInfo it =>
      CSetColl (r_key it) (match still c' (meaning c (r_exp it)) with None => 1 | Some e => e end)
               (r_mcnt it) (r_ovfl it) (r_mflags it) None
  | OSetRange it =>
      CSetColl (r_key it) (match still c' (meaning c (r_exp it)) with None => 1 | Some e => e end)
               (r_mcnt it) (r_ovfl it) (r_mflags it) (Some (range_of it))
  | OFlush p => CFlush p
  | OListIns it total index value create =>
      ins c c' it create None (fun a => CListIns (r_key it) a (Z.of_N total) index value)
  | OListDel it total index count drop =>
      CListDel (r_key it) (Z.of_N total) index (Z.of_N count) drop
  | OSetIns it value create => ins c c' it create None (fun a => CSetIns (r_key it) a value)
  | OSetDel it value drop => CSetDel (r_key it) value drop
  | OMapIns it field value create =>
      ins c c' it create None (fun a => CMapIns (r_key it) a field value)
  | OMapDel it field value drop => CMapDel (r_key it) field drop
  | OBtIns it bk eflag value create =>
      ins c c' it create (Some (255, [])) (fun a => CBtIns (r_key it) a bk eflag value)
  | OBtDel it bk rest drop => CBtDel (r_key it) bk drop
  | OBtLgc it from to ef offset count drop => CBtLgc (r_key it) from to ef offset count drop
  | OBegin | OEnd => CNothing
  end.

(* the clock at recovery is not before the one at logging, the server has not been up for longer than the
   unix time, and no expiry time lies after 2106 *)
Definition clocks (c c' : clock) (it : ritem) : Prop :=
  1 <= c_unix c <= c_unix c' /\ c_unix c' < 4294967295 /\ 1 <= c_cur c' <= c_unix c' /\
  c_unix c + r_exp it < 4294967295 + c_cur c \/ (r_exp it = 4294967295 /\ 1 <= c_cur c').

Definition wf_bkey (k : bkey) : Prop := fst k <= 31 /\ blen (snd k) = (if fst k =? 0 then 8 else fst k).
Definition wf_item (it : ritem) : Prop :=
  r_type it <= 4 /\ blen (r_key it) < 65536 /\ blen (r_data it) < 2147483648 /\
  r_flags it < 4294967296 /\ r_exp it < 4294967296 /\ r_cas it < 18446744073709551616 /\
  (-2147483648 <= r_mcnt it < 2147483648)%Z /\
  (fst (r_maxbkr it) = 255 \/ wf_bkey (r_maxbkr it)).
Definition small (v : bytes) : Prop := blen v < 2147483648.
Definition wf_filter (f : efilter) : Prop :=
  blen (f_bitw f) < 256 /\ blen (f_comp f) = f_cnt f * f_ncomp f /\ f_cnt f < 256 /\ f_ncomp f < 256.

Definition wf (o : lop) : Prop :=
  match o with
  | OLink it | OUnlink it | OSetExp it | OSetInfo it => wf_item it
  | OSetRange it => wf_item it /\ fst (r_maxbkr it) <> 255
  | OFlush None => True
  | OFlush (Some p) => blen p < 255
  | OListIns it total index value create =>
      wf_item it /\ total < 2147483648 /\ (-2147483648 <= index < 2147483648)%Z /\ small value
  | OListDel it total index count drop =>
      wf_item it /\ total < 2147483648 /\ (-2147483648 <= index < 2147483648)%Z /\ count < 2147483648
  | OSetIns it value _ | OSetDel it value _ => wf_item it /\ small value
  | OMapIns it field value _ | OMapDel it field value _ => wf_item it /\ blen field < 256 /\ small value
  | OBtIns it bk eflag value _ => wf_item it /\ wf_bkey bk /\ blen eflag < 256 /\ small value
  | OBtDel it bk _ _ => wf_item it /\ wf_bkey bk
  | OBtLgc it from to ef offset count _ =>
      wf_item it /\ wf_bkey from /\ (to = (255, []) \/ wf_bkey to) /\
      match ef with None => True | Some f => wf_filter f end /\
      offset < 4294967296 /\ count < 4294967296
  | OBegin | OEnd => True
  end.

(* the clocks only matter to the records that carry an expiry time *)
Definition timed (c c' : clock) (o : lop) : Prop :=
  match o with
  | OLink it | OSetExp it | OSetInfo it | OSetRange it
  | OListIns it _ _ _ true | OSetIns it _ true | OMapIns it _ _ true | OBtIns it _ _ _ true => clocks c c' it
  | _ => True
  end.
