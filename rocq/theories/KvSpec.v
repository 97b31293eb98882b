(* Specification of the key-value commands: a plain map from keys to entries with expiry.
   Only the types of operations and answers (op, out, code, store_kind) are taken from
   KvModel.v; nothing here refers to items, hash table, LRU lists or references. *)
From Verif Require Import Base UtilModel UtilSpec KvModel.
Open Scope Z_scope.

Record entry := mkEntry { e_val : bytes; e_flags : N; e_exp : Z; e_cas : N; e_coll : bool }.

(* a value sent by a client and not stored yet *)
Record req := mkReq { r_key : bytes; r_flags : N; r_exp : Z; r_val : bytes; r_cas : N }.

Record cache := mkCache {
  smap : bytes -> option entry;       (* entries, possibly past their expiry time *)
  spend : list (option req);          (* one place for each open request of a client *)
  scas : N;                           (* the largest cas unique handed out *)
  snow : Z }.

Definition alive (t : Z) (e : entry) : bool := (e_exp e =? 0) || (t <? e_exp e).

(* what a command sees under a key *)
Definition slook (st : cache) (k : bytes) : option entry :=
  match smap st k with
  | Some e => if alive (snow st) e then Some e else None
  | None => None
  end.

Definition put (m : bytes -> option entry) (k : bytes) (e : option entry) : bytes -> option entry :=
  fun k' => if beqb k' k then e else m k'.
Definition without (m : bytes -> option entry) (ks : list bytes) : bytes -> option entry :=
  fun k => if existsb (beqb k) ks then None else m k.

Definition w_map st m := mkCache m (spend st) (scas st) (snow st).
Definition w_pend st p := mkCache (smap st) p (scas st) (snow st).
Definition w_scas st c := mkCache (smap st) (spend st) c (snow st).

(* key [k] belongs to prefix [p]: the text before its first ':' (not counting a ':' at the
   very beginning); None is the null prefix, for keys without one *)
Definition has_prefix (k : bytes) (p : option bytes) : Prop :=
  match p with
  | Some q => exists c q' r, q = c :: q' /\ k = q ++ 58%N :: r /\ ~ In 58%N q'
  | None => forall c r, k = c :: r -> ~ In 58%N r
  end.

(* the number the text functions read from a stored value followed in memory by [tail];
   see C33 for the same characterisation *)
Definition reads_as (s : bytes) (v : N) : Prop :=
  (exists neg m rest, reads_number s neg m rest /\ terminated rest /\ (m < 2 ^ 64)%N /\
     v = (if neg then (2 ^ 64 - m) mod 2 ^ 64 else m)%N /\ (2 ^ 63 <= v -> ~ In 45 s)%N)
  \/ ((forall neg m rest, ~ reads_number s neg m rest) /\ (exists c r, s = c :: r /\ is_space c) /\ v = 0%N).

Definition arith (incr : bool) (v d : N) : N :=
  if incr then ((v + d) mod 2 ^ 64)%N else (v - d)%N.   (* N subtraction stops at 0 *)

(* a name part that cannot be used as a prefix *)
Definition bad_prefix_name (k : bytes) : Prop := exists q, has_prefix k (Some q) /\ mc_isvalidname q = false.

(* [new st k e c st'] : entry e with the new cas c is stored under k *)
Definition stores (st : cache) (k v : bytes) (f : N) (e : Z) (coll : bool) (c : N) (st' : cache) : Prop :=
  (scas st < c)%N /\ st' = w_scas (w_map st (put (smap st) k (Some (mkEntry v f e c coll)))) c.

(* effect of storing request r, given what is seen under its key *)
Definition store_spec (kind : store_kind) (st : cache) (r : req) (x : out) (st' : cache) : Prop :=
  let k := r_key r in
  let fresh := (exists c, x = OStored c /\ stores st k (r_val r) (r_flags r) (r_exp r) false c st') in
  match slook st k with
  | Some e =>
      if e_coll e then x = ORes EBADTYPE /\ st' = st
      else
        match kind with
        | KSet | KReplace => fresh
        | KAdd => x = ORes NOT_STORED /\ st' = st
        | KCas => if N.eqb (r_cas r) (e_cas e) then fresh else x = ORes EEXISTS /\ st' = st
        | KAppend | KPrepend =>
            if N.eqb (r_cas r) 0 || N.eqb (r_cas r) (e_cas e) then
              (x = ORes NOT_STORED /\ st' = st) (* out of memory *) \/
              (exists c, x = OStored c /\
                 stores st k (match kind with KAppend => e_val e ++ r_val r | _ => r_val r ++ e_val e end)
                   (e_flags e) (e_exp e) false c st')
            else x = ORes EEXISTS /\ st' = st
        end
  | None =>
      match kind with
      | KSet | KAdd => fresh \/ (x = ORes ENAME /\ bad_prefix_name k /\ st' = st)
      | KCas => x = ORes ENOENT /\ st' = st
      | KReplace | KAppend | KPrepend => x = ORes NOT_STORED /\ st' = st
      end
  end.

(* operations that need memory may evict *)
Definition allocates (o : op) : bool :=
  match o with
  | Alloc _ _ _ _ _ _ => true
  | Store _ KAppend _ | Store _ KPrepend _ => true
  | Arith _ _ _ _ _ _ _ _ _ => true
  | CollCreate _ _ _ _ => true
  | _ => false
  end.

(* the key an operation works on *)
Definition op_key (st : cache) (o : op) : option bytes :=
  match o with
  | Store h _ _ => match nth_error (spend st) h with Some (Some r) => Some (r_key r) | _ => None end
  | Get k | Arith k _ _ _ _ _ _ _ _ | Delete k _ | SetExp k _ | GetExp k | CollCreate k _ _ _ => Some k
  | _ => None
  end.

(* the keys in ev were evicted: only by operations that need memory, only visible entries
   that are not sticky, and never the entry the operation works on *)
Definition ev_ok (st : cache) (o : op) (ev : list bytes) : Prop :=
  (allocates o = false -> ev = []) /\
  forall k, In k ev -> (exists e, slook st k = Some e /\ e_exp e <> sticky_time) /\ op_key st o <> Some k.

Definition effect (st : cache) (o : op) (x : out) (st' : cache) : Prop :=
  match o with
  | Tick d => x = ONone /\ st' = mkCache (smap st) (spend st) (scas st) (snow st + Z.of_nat d)
  | Alloc k f e v c _ =>
      (x = ORes SUCCESS /\ st' = w_pend st (Some (mkReq k f e v c) :: spend st)) \/
      (x = ORes ENOMEM /\ st' = st)
  | Store h kind _ =>
      match nth_error (spend st) h with
      | Some (Some r) => store_spec kind (w_pend st (set_nth h None (spend st))) r x st'
      | _ => x = ONone /\ st' = st
      end
  | Get k =>
      match slook st k with
      | Some e => if e_coll e then x = ORes EBADTYPE /\ st' = st
                  else x = OVal (e_val e) (e_flags e) (e_cas e) /\ st' = w_pend st (None :: spend st)
      | None => x = ORes ENOENT /\ st' = st
      end
  | Release h => x = ONone /\ st' = w_pend st (del_nth h (spend st))
  | Arith k incr create delta initial f ex tail _ =>
      match slook st k with
      | Some e =>
          if e_coll e then x = ORes EBADTYPE /\ st' = st
          else
            (x = ORes EINVAL /\ (forall v, ~ reads_as (e_val e ++ [13; 10]%N ++ tail) v) /\ st' = st) \/
            (exists v, reads_as (e_val e ++ [13; 10]%N ++ tail) v /\
               ((x = ORes ENOMEM /\ st' = st) \/
                exists c, x = ONum (arith incr v delta) c /\
                  stores st k (dec_text (arith incr v delta)) (e_flags e) (e_exp e) false c st'))
      | None =>
          if create then
            (x = ORes ENOMEM /\ st' = st) \/
            (x = ORes ENAME /\ bad_prefix_name k /\ st' = st) \/
            (exists c, x = ONum initial c /\ stores st k (dec_text initial) f ex false c st')
          else x = ORes ENOENT /\ st' = st
      end
  | Delete k c =>
      match slook st k with
      | Some e => if N.eqb c 0 || N.eqb c (e_cas e)
                  then x = ORes SUCCESS /\ st' = w_map st (put (smap st) k None)
                  else x = ORes EEXISTS /\ st' = st
      | None => x = ORes ENOENT /\ st' = st
      end
  | SetExp k t =>
      match slook st k with
      | Some e => if Bool.eqb (e_exp e =? sticky_time) (t =? sticky_time)
                  then x = ORes SUCCESS /\
                       st' = w_map st (put (smap st) k (Some (mkEntry (e_val e) (e_flags e) t (e_cas e) (e_coll e))))
                  else x = ORes EBADVALUE /\ st' = st
      | None => x = ORes ENOENT /\ st' = st
      end
  | GetExp k =>
      match slook st k with
      | Some e => x = OExp (e_exp e) /\ st' = st
      | None => x = ORes ENOENT /\ st' = st
      end
  | Flush _ => x = ORes SUCCESS /\ st' = w_map st (fun _ => None)
  | FlushPrefix p _ =>
      (x = ORes SUCCESS /\ snow st' = snow st /\ scas st' = scas st /\ spend st' = spend st /\
         (forall k, has_prefix k p -> smap st' k = None) /\
         (forall k, ~ has_prefix k p -> smap st' k = smap st k)) \/
      (x = ORes PENOENT /\ (forall k, has_prefix k p -> slook st k = None) /\ st' = st)
  | CollCreate k f e _ =>
      match slook st k with
      | Some _ => x = ORes EEXISTS /\ st' = st
      | None =>
          (x = ORes ENOMEM /\ st' = st) \/
          (x = ORes ENAME /\ bad_prefix_name k /\ st' = st) \/
          (exists c, x = ORes SUCCESS /\ stores st k [] f e true c st')
      end
  end.

Definition sstep (st : cache) (o : op) (x : out) (ev : list bytes) (st' : cache) : Prop :=
  ev_ok st o ev /\ effect (w_map st (without (smap st) ev)) o x st'.

Inductive sruns : cache -> list op -> list (out * list bytes) -> cache -> Prop :=
| sr_nil st : sruns st [] [] st
| sr_cons st o x ev st1 ops xs st2 :
    sstep st o x ev st1 -> sruns st1 ops xs st2 -> sruns st (o :: ops) ((x, ev) :: xs) st2.

Definition empty_cache : cache := mkCache (fun _ => None) [] 0 2.
