(* Model of /repo/engines/default/coll_list.c: the list collection of one key.
   The doubly linked list is modelled at pointer level: a heap of element nodes with prev/next
   pointers and reference counts, and the list meta information (head, tail, counters).
   Undefined behaviour (dereferencing NULL, a freed node or the "unlinked" address, a failed
   assert) is the outcome None. Every API function runs under LOCK_CACHE, hence is one step.
   Left out: the key lookup itself (the key's slot is empty, holds a list or holds an item of
   another type), expiry, logging (CLOG macros), sticky memory limit, prefix statistics. *)
From Verif Require Import Base.
Open Scope Z_scope.

(* an element address: NULL, ADDR_MEANS_UNLINKED or a real address *)
Inductive ptr := Null | Unl | At (i : nat).

(* item_base.h list_elem_item: refcount, prev, next, value (nbytes is its length) *)
Record node := { nprev : ptr; nnext : ptr; nval : bytes; nref : nat }.
Definition heap := nat -> option node.
Definition hset (h : heap) (i : nat) (o : option node) : heap :=
  fun j => if Nat.eqb i j then o else h j.

Inductive ovflact := OvError | OvHeadTrim | OvTailTrim | OvOther.  (* types.h 163-170 *)

(* item_base.h list_meta_info (mflags reduced to the readable bit) plus the flags of the item *)
Record meta := { head : ptr; tail : ptr; ccnt : Z; mcnt : Z; ovfl : ovflact;
                 readable : bool; stotal : Z; iflags : N }.
Definition with_links (m : meta) (hd tl : ptr) (c : Z) (st : Z) : meta :=
  {| head := hd; tail := tl; ccnt := c; mcnt := mcnt m; ovfl := ovfl m;
     readable := readable m; stotal := st; iflags := iflags m |}.

Section SPACE.
(* slabs_space_size(sizeof(list_elem_item) + nbytes): memory charged for an element, an
   arbitrary function of the number of value bytes (slabs.c is not modelled here) *)
Variable space : bytes -> N.

(* coll_list.c 77-90 do_list_real_maxcount; DEFAULT_LIST_SIZE = 4000 (item_base.h 34) *)
Definition real_maxcount (maxsz maxcount : Z) : Z :=
  if maxcount <? 0 then -1
  else if maxcount =? 0 then 4000
  else if maxsz <? maxcount then maxsz
  else maxcount.

(* one pointer step *)
Definition deref (h : heap) (p : ptr) : option node :=
  match p with At i => h i | _ => None end.

(* the for loops of coll_list.c 163-165 (forward) and 169-171 (backward): at most n steps,
   stopping at NULL *)
Fixpoint walk (forward : bool) (n : nat) (h : heap) (p : ptr) : option ptr :=
  match n with
  | O => Some p
  | S n' =>
      match p with
      | Null => Some Null
      | _ => let* nd := deref h p in walk forward n' h (if forward then nnext nd else nprev nd)
      end
  end.

(* coll_list.c 155-174 do_list_elem_find, the asserts included *)
Definition find (h : heap) (m : meta) (index : Z) : option ptr :=
  if index <=? Z.quot (ccnt m) 2 then
    if index <? 0 then None
    else walk true (Z.to_nat index) h (head m)
  else if index <? ccnt m then walk false (Z.to_nat (ccnt m - 1 - index)) h (tail m)
  else None.

Definition set_next (h : heap) (p : ptr) (q : ptr) : option heap :=
  match p with
  | At i => let* nd := h i in
            Some (hset h i (Some {| nprev := nprev nd; nnext := q; nval := nval nd; nref := nref nd |}))
  | _ => None
  end.
Definition set_prev (h : heap) (p : ptr) (q : ptr) : option heap :=
  match p with
  | At i => let* nd := h i in
            Some (hset h i (Some {| nprev := q; nnext := nnext nd; nval := nval nd; nref := nref nd |}))
  | _ => None
  end.

(* coll_list.c 176-208 do_list_elem_link *)
Definition link (h : heap) (m : meta) (index : Z) (i : nat) : option (heap * meta) :=
  if index <? 0 then None
  else
    let* (prev, next) :=
      (if index =? 0 then Some (Null, head m)
       else if ccnt m <=? index then Some (tail m, Null)
       else let* p := find h m (index - 1) in
            let* nd := deref h p in Some (p, nnext nd)) in
    let* nd := h i in
    let h1 := hset h i (Some {| nprev := prev; nnext := next; nval := nval nd; nref := nref nd |}) in
    let* (h2, hd) := (match prev with
                       | Null => Some (h1, At i)
                       | p => let* h' := set_next h1 p (At i) in Some (h', head m)
                       end) in
    let* (h3, tl) := (match next with
                       | Null => Some (h2, At i)
                       | p => let* h' := set_prev h2 p (At i) in Some (h', tail m)
                       end) in
    Some (h3, with_links m hd tl (ccnt m + 1) (stotal m + Z.of_N (space (nval nd)))).

(* coll_list.c 138-144 do_list_elem_free: the assert and the release of the memory *)
Definition efree (h : heap) (i : nat) : option heap :=
  let* nd := h i in
  match nref nd with O => Some (hset h i None) | S _ => None end.

(* coll_list.c 210-232 do_list_elem_unlink *)
Definition unlink (h : heap) (m : meta) (i : nat) : option (heap * meta) :=
  let* nd := h i in
  let* (h1, hd) := (match nprev nd with
                     | Null => Some (h, nnext nd)
                     | p => let* h' := set_next h p (nnext nd) in Some (h', head m)
                     end) in
  let* (h2, tl) := (match nnext nd with
                     | Null => Some (h1, nprev nd)
                     | p => let* h' := set_prev h1 p (nprev nd) in Some (h', tail m)
                     end) in
  let h3 := hset h2 i (Some {| nprev := Unl; nnext := Unl; nval := nval nd; nref := nref nd |}) in
  let* st := (if 0 <? stotal m then
                if stotal m <? Z.of_N (space (nval nd)) then None  (* assert, item_base.c 357 *)
                else Some (stotal m - Z.of_N (space (nval nd)))
              else Some (stotal m)) in
  let m' := with_links m hd tl (ccnt m - 1) st in
  match nref nd with
  | O => let* h4 := efree h3 i in Some (h4, m')
  | S _ => Some (h3, m')
  end.

(* coll_list.c 245-252: the loop of do_list_elem_delete; fuel exhaustion is excluded by the
   theorems (fuel = number of elements + 1) *)
Fixpoint delete_loop (fuel : nat) (h : heap) (m : meta) (p : ptr) (count fcnt : Z)
  : option (heap * meta * Z) :=
  match p with
  | Null => Some (h, m, fcnt)
  | Unl => None
  | At i =>
      match fuel with
      | O => None
      | S f =>
          let* nd := h i in
          let* (h', m') := unlink h m i in
          if (0 <? count) && (count <=? fcnt + 1) then Some (h', m', fcnt + 1)
          else delete_loop f h' m' (nnext nd) count (fcnt + 1)
      end
  end.

(* coll_list.c 234-254 do_list_elem_delete *)
Definition elem_delete (h : heap) (m : meta) (index count : Z) : option (heap * meta * Z) :=
  let* p := find h m index in
  delete_loop (S (Z.to_nat (ccnt m))) h m p count 0.

(* coll_list.c 271-279: the loop of do_list_elem_get; the result lists the elements put in
   elem_array *)
Fixpoint get_loop (fuel : nat) (h : heap) (m : meta) (p : ptr) (count : Z) (forward delete : bool)
    (acc : list nat) : option (heap * meta * list nat) :=
  match p with
  | Null => Some (h, m, acc)
  | Unl => None
  | At i =>
      match fuel with
      | O => None
      | S f =>
          let* nd := h i in
          let tobe := if forward then nnext nd else nprev nd in
          let h1 := hset h i (Some {| nprev := nprev nd; nnext := nnext nd; nval := nval nd;
                                      nref := S (nref nd) |}) in
          let acc' := acc ++ [i] in
          let* (h2, m2) := (if delete then unlink h1 m i else Some (h1, m)) in
          if (0 <? count) && (count <=? Z.of_nat (length acc')) then Some (h2, m2, acc')
          else get_loop f h2 m2 tobe count forward delete acc'
      end
  end.

(* coll_list.c 256-282 do_list_elem_get *)
Definition elem_get (h : heap) (m : meta) (index count : Z) (forward delete : bool)
  : option (heap * meta * list nat) :=
  let* p := find h m index in
  get_loop (S (Z.to_nat (ccnt m))) h m p count forward delete [].

Inductive code := Success | KeyENOENT | KeyEEXISTS | EBadType | EIndexOOR | EOverflow
  | ElemENOENT | Unreadable | EBadValue | ENoMem.

(* coll_list.c 284-349 do_list_elem_insert.  -index is undefined for the least int. *)
Definition elem_insert (h : heap) (m : meta) (maxsz : Z) (index : Z) (i : nat)
  : option (heap * meta * code) :=
  let real_mcnt := if 0 <? mcnt m then mcnt m else maxsz in
  if index =? - 2 ^ 31 then None else
  let oor := if 0 <=? index then (ccnt m <? index) || (real_mcnt - 1 <? index)
             else (ccnt m + 1 <? - index) || (real_mcnt <? - index) in
  if oor then Some (h, m, EIndexOOR)
  else if (match ovfl m with OvError => true | _ => false end) && (real_mcnt <=? ccnt m)
  then Some (h, m, EOverflow)
  else
    let* (h1, m1, index1) :=
      (if real_mcnt <=? ccnt m then
         if (index =? 0) || (index =? -1) then
           let delidx := if index =? -1 then 0 else ccnt m - 1 in
           let* (h', m', n) := elem_delete h m delidx 1 in
           if n =? 1 then Some (h', m', index) else None
         else
           let headtrim := match ovfl m with OvHeadTrim => true | _ => false end in
           let delidx := if headtrim then 0 else ccnt m - 1 in
           let* (h', m', n) := elem_delete h m delidx 1 in
           if n =? 1 then
             Some (h', m', if headtrim then (if 0 <? index then index - 1 else index)
                           else (if index <? 0 then index + 1 else index))
           else None
       else Some (h, m, index)) in
    let index2 := if index1 <? 0 then
                    let x := index1 + (ccnt m1 + 1) in if x <? 0 then 0 else x
                  else index1 in
    let* (h2, m2) := link h1 m1 index2 i in
    Some (h2, m2, Success).

(* coll_list.c 451-475 adjust_list_range; None is the result -1 *)
Definition adjust_range (ccnt from to : Z) : option (Z * Z) :=
  if ccnt <=? 0 then None
  else
    let f := if from <? 0 then from + ccnt else from in
    let t := if to <? 0 then to + ccnt else to in
    if (f <? 0) && (t <? 0) then None
    else if (0 <=? f) && (ccnt <=? f) && (ccnt <=? t) then None
    else
      let f' := if f <? 0 then 0 else if ccnt <=? f then ccnt - 1 else f in
      let t' := if t <? 0 then 0 else if ccnt <=? t then ccnt - 1 else t in
      Some (f', t').

(* ---- the state seen by the API: the slot of the key, the element memory, the references
   held by clients (elements returned by a get and not released yet) and the server limit *)
Inductive slot := SEmpty | SOther | SList (m : meta).
Record state := { hp : heap; nextid : nat; slt : slot; held : list (nat * bytes); maxsz : Z }.

(* item_attr: flags, maxcount, ovflaction (None = 0 = not given), readable *)
Record attrs := { a_flags : N; a_maxcount : Z; a_ovfl : option ovflact; a_readable : bool }.

(* coll_list.c 92-120 do_list_item_alloc *)
Definition new_meta (maxsz : Z) (a : attrs) : meta :=
  {| head := Null; tail := Null; ccnt := 0; mcnt := real_maxcount maxsz (a_maxcount a);
     ovfl := match a_ovfl a with None => OvTailTrim | Some o => o end;
     readable := a_readable a; stotal := 0; iflags := a_flags a |}.

Inductive op :=
| Create (a : attrs)
| Insert (index : Z) (v : bytes) (a : option attrs)
| Delete (from to : Z) (drop : bool)
| Get (from to : Z) (delete drop : bool)
| SetAttr (mc : option Z) (ov : option ovflact) (rd : option bool)
| GetAttr
| Release (k : nat)               (* a client releases the k-th element that is held *)
| DeleteKey                       (* the item is deleted (or evicted, invalidated) *)
| SetKV                           (* the key is overwritten by a key-value item *)
| Config (newmax : Z).            (* config max_list_size *)

Inductive out :=
| OCode (c : code)
| OInsert (c : code) (created : bool)
| ODelete (c : code) (count : Z) (dropped : bool)
| OGet (c : code) (flags : N) (elems : list bytes) (dropped : bool)
| OAttr (count maxcount : Z) (ov : ovflact) (rd : bool)
| ONone.

Definition set_slot (s : state) (h : heap) (x : slot) : state :=
  {| hp := h; nextid := nextid s; slt := x; held := held s; maxsz := maxsz s |}.

(* list_elem_alloc, coll_list.c 122-136: a fresh unlinked node (memory shortage not modelled) *)
Definition alloc (s : state) (v : bytes) : state * nat :=
  ({| hp := hset (hp s) (nextid s) (Some {| nprev := Unl; nnext := Unl; nval := v; nref := 0 |});
      nextid := S (nextid s); slt := slt s; held := held s; maxsz := maxsz s |}, nextid s).

(* do_item_unlink / do_item_replace followed by the deletion of all elements
   (item_base.c 1060-1068, 1116-1125 set stotal to 0; 434-452 and the collection delete thread
   1262-1281 delete the elements; done in one step here because the item can no longer be
   reached by a client) *)
Definition drop_list (h : heap) (m : meta) : option heap :=
  let m0 := with_links m (head m) (tail m) (ccnt m) 0 in
  if 0 <? ccnt m0 then let* (h', _, _) := elem_delete h m0 0 0 in Some h' else Some h.

(* coll_list.c 411-449 list_elem_insert preceded by list_elem_alloc (memcached.c 10680) and
   followed by list_elem_free on failure (memcached.c 1693-1695) *)
Definition list_elem_insert (s0 : state) (index : Z) (v : bytes) (a : option attrs)
  : option (state * out) :=
  let '(s, i) := alloc s0 v in
  let fail (h : heap) (x : slot) (c : code) :=
      let* h' := efree h i in Some (set_slot s h' x, OInsert c false) in
  match slt s with
  | SOther => fail (hp s) SOther EBadType
  | SEmpty =>
      match a with
      | None => fail (hp s) SEmpty KeyENOENT
      | Some at_ =>
          let* (h1, m1, c) := elem_insert (hp s) (new_meta (maxsz s) at_) (maxsz s) index i in
          match c with
          | Success => Some (set_slot s h1 (SList m1), OInsert Success true)
          | _ => let* h2 := drop_list h1 m1 in fail h2 SEmpty c
          end
      end
  | SList m =>
      let* (h1, m1, c) := elem_insert (hp s) m (maxsz s) index i in
      match c with
      | Success => Some (set_slot s h1 (SList m1), OInsert Success false)
      | _ => fail h1 (SList m1) c
      end
  end.

(* coll_list.c 477-522 list_elem_delete *)
Definition list_elem_delete (s : state) (from to : Z) (drop : bool) : option (state * out) :=
  match slt s with
  | SEmpty => Some (s, ODelete KeyENOENT 0 false)
  | SOther => Some (s, ODelete EBadType 0 false)
  | SList m =>
      match adjust_range (ccnt m) from to with
      | None => Some (s, ODelete ElemENOENT 0 false)
      | Some (f, t) =>
          let '(index, count) := if f <=? t then (f, t - f + 1) else (t, f - t + 1) in
          let* (h', m', n) := elem_delete (hp s) m index count in
          if 0 <? n then
            if (ccnt m' =? 0) && drop then
              let* h2 := drop_list h' m' in
              Some (set_slot s h2 SEmpty, ODelete Success n true)
            else Some (set_slot s h' (SList m'), ODelete Success n false)
          else Some (set_slot s h' (SList m'), ODelete ElemENOENT 0 false)
      end
  end.

Definition hval (h : heap) (i : nat) : bytes := match h i with Some nd => nval nd | None => [] end.

(* coll_list.c 524-586 list_elem_get *)
Definition list_elem_get (s : state) (from to : Z) (delete drop : bool) : option (state * out) :=
  match slt s with
  | SEmpty => Some (s, OGet KeyENOENT 0 [] false)
  | SOther => Some (s, OGet EBadType 0 [] false)
  | SList m =>
      if negb (readable m) then Some (s, OGet Unreadable 0 [] false)
      else
      match adjust_range (ccnt m) from to with
      | None => Some (s, OGet ElemENOENT 0 [] false)
      | Some (f, t) =>
          let forward := f <=? t in
          let count := if forward then t - f + 1 else f - t + 1 in
          let* (h', m', ids) := elem_get (hp s) m f count forward delete in
          let s' (h : heap) (x : slot) :=
              {| hp := h; nextid := nextid s; slt := x;
                 held := held s ++ map (fun i => (i, hval h' i)) ids; maxsz := maxsz s |} in
          match ids with
          | [] => None                                    (* assert, line 570 *)
          | _ :: _ =>
              if (ccnt m' =? 0) && drop then
                if negb delete then None                  (* assert, line 572 *)
                else let* h2 := drop_list h' m' in
                     Some (s' h2 SEmpty, OGet Success (iflags m') (map (hval h') ids) true)
              else Some (s' h' (SList m'), OGet Success (iflags m') (map (hval h') ids) false)
          end
      end
  end.

(* coll_list.c 632-673 list_coll_setattr; the second match mirrors the readable attribute,
   which can only be switched on *)
Definition list_setattr (s : state) (mc : option Z) (ov : option ovflact) (rd : option bool)
  : state * out :=
  match slt s with
  | SEmpty => (s, OCode KeyENOENT)
  | SOther => (s, OCode EBadType)          (* not the list's function; kept total *)
  | SList m =>
      let mc' := match mc with None => None | Some x => Some (real_maxcount (maxsz s) x) end in
      let bad_mc := match mc' with None => false | Some x => (0 <? x) && (x <? ccnt m) end in
      let bad_ov := match ov with Some OvOther => true | _ => false end in
      let bad_rd := match rd with Some false => true | _ => false end in
      if bad_mc || bad_ov || bad_rd then (s, OCode EBadValue)
      else
        let m' := {| head := head m; tail := tail m; ccnt := ccnt m;
                     mcnt := match mc' with None => mcnt m | Some x => x end;
                     ovfl := match ov with None => ovfl m | Some o => o end;
                     readable := match rd with None => readable m | Some _ => true end;
                     stotal := stotal m; iflags := iflags m |} in
        (set_slot s (hp s) (SList m'), OCode Success)
  end.

(* coll_list.c 610-630 list_coll_getattr *)
Definition list_getattr (s : state) : out :=
  match slt s with
  | SEmpty => OCode KeyENOENT
  | SOther => OCode EBadType
  | SList m => OAttr (ccnt m) (if 0 <? mcnt m then mcnt m else maxsz s) (ovfl m) (readable m)
  end.

(* coll_list.c 146-154 do_list_elem_release, called by list_elem_release 394-409 *)
Definition list_elem_release (s : state) (k : nat) : option state :=
  match nth_error (held s) k with
  | None => Some s
  | Some (i, _) =>
      let* nd := hp s i in
      let r := pred (nref nd) in
      let h1 := hset (hp s) i (Some {| nprev := nprev nd; nnext := nnext nd; nval := nval nd; nref := r |}) in
      let* h2 := (match r, nnext nd with
                  | O, Unl => efree h1 i
                  | _, _ => Some h1
                  end) in
      Some {| hp := h2; nextid := nextid s; slt := slt s;
              held := firstn k (held s) ++ skipn (S k) (held s); maxsz := maxsz s |}
  end.

(* coll_list.c 354-378 list_struct_create *)
Definition list_create (s : state) (a : attrs) : state * out :=
  match slt s with
  | SEmpty => (set_slot s (hp s) (SList (new_meta (maxsz s) a)), OCode Success)
  | _ => (s, OCode KeyEEXISTS)
  end.

Definition remove_item (s : state) (x : slot) : option (state * out) :=
  match slt s with
  | SList m => let* h := drop_list (hp s) m in Some (set_slot s h x, OCode Success)
  | SOther => Some (set_slot s (hp s) x, OCode Success)
  | SEmpty => Some (set_slot s (hp s) x, OCode (match x with SEmpty => KeyENOENT | _ => Success end))
  end.

(* default_engine.c 1424-1438: the limit can only be increased; MAXIMUM_MAX_COLL_SIZE 1000000 *)
Definition config_max (s : state) (n : Z) : state * out :=
  let n' := if (n <? 0) || (1000000 <? n) then 1000000 else n in
  if maxsz s <? n' then
    ({| hp := hp s; nextid := nextid s; slt := slt s; held := held s; maxsz := n' |}, OCode Success)
  else (s, OCode EBadValue).

Definition step (s : state) (o : op) : option (state * out) :=
  match o with
  | Create a => Some (list_create s a)
  | Insert i v a => list_elem_insert s i v a
  | Delete f t d => list_elem_delete s f t d
  | Get f t d dr => list_elem_get s f t d dr
  | SetAttr mc ov rd => Some (list_setattr s mc ov rd)
  | GetAttr => Some (s, list_getattr s)
  | Release k => let* s' := list_elem_release s k in Some (s', ONone)
  | DeleteKey => remove_item s SEmpty
  | SetKV => remove_item s SOther
  | Config n => Some (config_max s n)
  end.

(* initial state; the server limit is between 10000 and 1000000 (default_engine.c 121-126) *)
Definition init (maxsz0 : Z) : state :=
  {| hp := fun _ => None; nextid := 0; slt := SEmpty; held := []; maxsz := maxsz0 |}.

Fixpoint run (s : state) (ops : list op) : option (state * list out) :=
  match ops with
  | [] => Some (s, [])
  | o :: r =>
      let* (s1, x) := step s o in
      let* (s2, xs) := run s1 r in
      Some (s2, x :: xs)
  end.
End SPACE.
