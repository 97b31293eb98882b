(* engines/default/assoc.c: the hash table of the keys with its incremental expansion, the scan with
   a placeholder (scrubber, dump, checkpoint) and the scan with a cursor (SCAN command), and the loop
   of default_keyscan (default_engine.c 1325-1387).

   Each operation runs under the cache lock.  The table is a function from table index and bucket to
   the chain; khash of an item is the hash of its key.  hashpower is a parameter hp (assoc_init: 16);
   the hash function is a parameter.  Statistics, traces and log messages are left out.  None: an assert
   fails or memory outside of an array is written. *)
From Verif Require Import Base UtilModel.
Local Open Scope N_scope.

(* hash_item in a chain: a cache item (its key and identity) or the placeholder of a scan *)
Inductive cell := It (k : bytes) (v : N) | Ph (s : nat).

(* assoc.h struct assoc_scan.  tabidx is not set by assoc_scan_init: it keeps what the memory held *)
Record scan := mkScan { s_bucket : N; s_tabcnt : N; s_tabidx : N; s_linked : bool; s_on : bool }.

(* assoc.h struct assoc.  rootsize and rootmask are 2^rpow and 2^rpow - 1, prevmask is psz - 1 *)
Record assoc := mkAs {
  rpow : N;               (* rootpower *)
  psz : N;                (* prevsize *)
  rtsz : N;               (* roottabsz *)
  expg : bool;            (* expanding *)
  ebkt : N;               (* exp_bucket *)
  etab : N;               (* exp_tabidx *)
  tab : N -> N -> list cell;   (* roottable[tabidx].hashtable[bucket] *)
  refc : N -> N;          (* infotable[bucket].refcount *)
  items : N;              (* hash_items *)
  limit : N;              (* hash_expansion_limit *)
  scans : list scan       (* the scan structures *)
}.
Definition set_tab (a : assoc) (f : N -> N -> list cell) : assoc :=
  mkAs (rpow a) (psz a) (rtsz a) (expg a) (ebkt a) (etab a) f (refc a) (items a) (limit a) (scans a).
Definition set_exp (a : assoc) (x : bool) (b t : N) : assoc :=
  mkAs (rpow a) (psz a) (rtsz a) x b t (tab a) (refc a) (items a) (limit a) (scans a).
Definition set_items (a : assoc) (n : N) : assoc :=
  mkAs (rpow a) (psz a) (rtsz a) (expg a) (ebkt a) (etab a) (tab a) (refc a) n (limit a) (scans a).
Definition set_refc (a : assoc) (f : N -> N) : assoc :=
  mkAs (rpow a) (psz a) (rtsz a) (expg a) (ebkt a) (etab a) (tab a) f (items a) (limit a) (scans a).
Definition set_scans (a : assoc) (l : list scan) : assoc :=
  mkAs (rpow a) (psz a) (rtsz a) (expg a) (ebkt a) (etab a) (tab a) (refc a) (items a) (limit a) l.

Definition upd (f : N -> N -> list cell) (t b : N) (l : list cell) : N -> N -> list cell :=
  fun t' b' => if (t' =? t) && (b' =? b) then l else f t' b'.
Definition upd1 (f : N -> N) (b x : N) : N -> N := fun b' => if b' =? b then x else f b'.
Fixpoint set_nth {A} (l : list A) (i : nat) (x : A) : list A :=
  match l, i with
  | [], _ => []
  | _ :: r, O => x :: r
  | y :: r, S j => y :: set_nth r j x
  end.

(* the hash table chain pointed at by a placeholder item: the cells before and after it *)
Fixpoint cut_ph (s : nat) (l : list cell) : option (list cell * list cell) :=
  match l with
  | [] => None
  | Ph s' :: r => if Nat.eqb s s' then Some ([], r)
                  else match cut_ph s r with Some (p, q) => Some (Ph s' :: p, q) | None => None end
  | c :: r => match cut_ph s r with Some (p, q) => Some (c :: p, q) | None => None end
  end.

Section Assoc.
Variables (hp : N) (hash : bytes -> N).

Definition hsize : N := 2 ^ hp.
Definition hmask : N := hsize - 1.
Definition rsize (a : assoc) : N := 2 ^ rpow a.
Definition rmask (a : assoc) : N := rsize a - 1.
Definition pmask (a : assoc) : N := psz a - 1.

(* 33 GET_HASH_BUCKET *)
Definition bucket_of (h : N) : N := N.land h hmask.

(* 39-60 CUR_HASH_TABIDX *)
Definition cur_tabidx (a : assoc) (h b : N) : N :=
  if expg a then
    if b <? ebkt a then N.land (N.shiftr h hp) (pmask a)
    else if ebkt a <? b then N.land (N.shiftr h hp) (rmask a)
    else
      let t := N.land (N.shiftr h hp) (pmask a) in
      if t <? etab a then N.land (N.shiftr h hp) (rmask a) else t
  else N.land (N.shiftr h hp) (rmask a).

(* 62-101 assoc_init; the allocations succeed.  n scan structures, none in use *)
Definition init (n : nat) : assoc :=
  mkAs 0 0 512 false 0 0 (fun _ _ => []) (fun _ => 0) 0 ((hsize * 3) / 2) (repeat (mkScan 0 0 0 false false) n).

(* 141-152, one chain: items of another table index leave the chain and go to the head of the new one.
   A placeholder does not occur: no scan is on the bucket *)
Fixpoint spread (rm t b : N) (l kept : list cell) (f : N -> N -> list cell) : list cell * (N -> N -> list cell) :=
  match l with
  | [] => (rev kept, f)
  | Ph s :: r => spread rm t b r (Ph s :: kept) f
  | It k v :: r =>
      let t' := N.land (N.shiftr (hash k) hp) rm in
      if t' =? t then spread rm t b r (It k v :: kept) f
      else spread rm t b r kept (upd f t' b (It k v :: f t' b))
  end.

(* 140-156 the loop of redistribute: at most n chains *)
Fixpoint redist (n : nat) (a : assoc) : assoc :=
  match n with
  | O => a
  | S n' =>
      let '(kept, f) := spread (rmask a) (etab a) (ebkt a) (tab a (etab a) (ebkt a)) [] (tab a) in
      let a1 := set_exp (set_tab a (upd f (etab a) (ebkt a) kept)) (expg a) (ebkt a) (etab a + 1) in
      if psz a <=? etab a + 1 then a1 else redist n' a1
  end.

(* 129-169 redistribute *)
Definition redistribute (a : assoc) : assoc :=
  let a1 := redist 4 a in
  if psz a1 <=? etab a1 then
    if 0 <? ebkt a1 then set_exp a1 (expg a1) (ebkt a1 - 1) 0 else set_exp a1 false (ebkt a1) 0
  else a1.

(* 171-194 assoc_find (a placeholder has no key bytes and is never equal to a key) *)
Fixpoint find_in (k : bytes) (l : list cell) : option N :=
  match l with
  | [] => None
  | Ph _ :: r => find_in k r
  | It k' v :: r => if (hash k =? hash k') && beqb k k' then Some v else find_in k r
  end.
Definition chain_of (a : assoc) (k : bytes) : list cell :=
  let b := bucket_of (hash k) in tab a (cur_tabidx a (hash k) b) b.
Definition find (a : assoc) (k : bytes) : option N := find_in k (chain_of a k).

(* 198-209 _hashitem_before: the cells before the item and after it *)
Fixpoint before (k : bytes) (l : list cell) : option (list cell * list cell) :=
  match l with
  | [] => None
  | It k' v :: r => if beqb k k' then Some ([], r)
                    else match before k r with Some (p, q) => Some (It k' v :: p, q) | None => None end
  | c :: r => match before k r with Some (p, q) => Some (c :: p, q) | None => None end
  end.

(* 211-222 assoc_expand_roottable and 225-265 assoc_expand; mem1, mem2: the allocations succeed *)
Definition expand (a : assoc) (mem1 mem2 : bool) : assoc :=
  let grow := rtsz a <? rsize a * 2 in
  if grow && negb mem1 then a
  else
    let rt := if grow then rtsz a * 2 else rtsz a in
    if negb mem2 then
      mkAs (rpow a) (psz a) rt (expg a) (ebkt a) (etab a) (tab a) (refc a) (items a) (limit a) (scans a)
    else
      let rp := rpow a + 1 in
      (* the new tables are zeroed memory *)
      let f := fun t b => if (rsize a <=? t) && (t <? 2 ^ rp) then [] else tab a t b in
      let lim := if rp <? 15 then (hsize * 2 ^ rp * 3) / 2 else 0 in
      mkAs rp (rsize a) rt true (hsize - 1) 0 f (refc a) (items a) lim (scans a).

(* 268-296 assoc_insert *)
Definition insert (a : assoc) (k : bytes) (v : N) (mem1 mem2 : bool) : option assoc :=
  match find a k with
  | Some _ => None (* the assert *)
  | None =>
      let b := bucket_of (hash k) in
      let t := cur_tabidx a (hash k) b in
      let a1 := set_items (set_tab a (upd (tab a) t b (It k v :: tab a t b))) (items a + 1) in
      Some (if expg a1 then
              if refc a1 (ebkt a1) =? 0 then redistribute a1 else a1
            else if negb (limit a1 =? 0) && (limit a1 <? items a1) then expand a1 mem1 mem2 else a1)
  end.

(* 298-312 assoc_replace; the item is in the table (the pointer would be stored past the chain) *)
Definition replace (a : assoc) (k : bytes) (v : N) : option assoc :=
  let b := bucket_of (hash k) in
  let t := cur_tabidx a (hash k) b in
  match before k (tab a t b) with
  | None => None
  | Some (p, q) => Some (set_tab a (upd (tab a) t b (p ++ It k v :: q)))
  end.

(* 314-336 assoc_delete *)
Definition delete (a : assoc) (k : bytes) : option assoc :=
  let b := bucket_of (hash k) in
  let t := cur_tabidx a (hash k) b in
  match before k (tab a t b) with
  | None => None
  | Some (p, q) => Some (set_items (set_tab a (upd (tab a) t b (p ++ q))) (items a - 1))
  end.

(* 361-371 assoc_scan_init on scan structure number s, whose memory holds garbage in tabidx *)
Definition scan_init (a : assoc) (s : nat) (garbage : N) : assoc :=
  set_scans a (set_nth (scans a) s (mkScan 0 0 garbage false true)).

(* 409-425: walk a chain from next; ccnt gives the element count of a collection item.
   Result: items appended, element count, cost, and the part of the chain walked when it stopped
   at an item *)
Fixpoint take (asz elim : N) (ccnt : N -> option N) (l : list cell) (out : list (bytes * N)) (ec cost : N) (seen : list cell)
  : list (bytes * N) * N * N * option (list cell * list cell) :=
  match l with
  | [] => (out, ec, cost, None)
  | Ph s :: r => take asz elim ccnt r out ec (cost + 1) (seen ++ [Ph s])
  | It k v :: r =>
      let out' := out ++ [(k, v)] in
      let seen' := seen ++ [It k v] in
      if asz <=? N.of_nat (length out') then (out', ec, cost, Some (seen', r))
      else
        match (if 0 <? elim then ccnt v else None) with
        | Some n => if elim <? ec + n then (out', ec + n, cost, Some (seen', r))
                    else take asz elim ccnt r out' (ec + n) (cost + 1) seen'
        | None => take asz elim ccnt r out' ec (cost + 1) seen'
        end
  end.

(* 399-438: the tables of the current bucket; n = tabcnt - tabidx.  Third component: scan_done *)
Fixpoint scan_tabs (n : nat) (asz elim : N) (ccnt : N -> option N) (s : nat) (a : assoc) (sc : scan)
         (out : list (bytes * N)) (ec cost : N) : option (assoc * scan * list (bytes * N) * N * N * bool) :=
  match n with
  | O => Some (a, sc, out, ec, cost, false)
  | S n' =>
      if (2 * asz <? cost) && negb (match out with [] => true | _ => false end) then Some (a, sc, out, ec, cost, true)
      else
        let b := s_bucket sc in
        let t := s_tabidx sc in
        let start := if s_linked sc then cut_ph s (tab a t b) else Some ([], tab a t b) in
        match start with
        | None => None
        | Some (pre, todo) =>
            let '(out', ec', cost', stop) := take asz elim ccnt todo out ec (cost + 1) [] in
            match stop with
            | Some (seen, rest) =>
                match rest with
                | _ :: _ =>
                    Some (set_tab a (upd (tab a) t b (pre ++ seen ++ Ph s :: rest)),
                          mkScan b (s_tabcnt sc) t true true, out', ec', cost', true)
                | [] =>
                    Some (set_tab a (upd (tab a) t b (pre ++ todo)),
                          mkScan b (s_tabcnt sc) (t + 1) false true, out', ec', cost', true)
                end
            | None =>
                scan_tabs n' asz elim ccnt s (set_tab a (upd (tab a) t b (pre ++ todo)))
                          (mkScan b (s_tabcnt sc) (t + 1) false true) out' ec' cost'
            end
        end
  end.

(* 386-447: the buckets; n = hashsz - bucket *)
Fixpoint scan_buckets (n : nat) (asz elim : N) (ccnt : N -> option N) (s : nat) (a : assoc) (sc : scan)
         (out : list (bytes * N)) (ec cost : N) : option (assoc * scan * list (bytes * N)) :=
  match n with
  | O => Some (a, sc, out)
  | S n' =>
      let start := s_tabcnt sc =? 0 in
      let b := s_bucket sc in
      let sc1 := if start then mkScan b (rsize a) 0 (s_linked sc) true else sc in
      let a1 := if start then set_refc a (upd1 (refc a) b (refc a b + 1)) else a in
      match scan_tabs (N.to_nat (s_tabcnt sc1 - s_tabidx sc1)) asz elim ccnt s a1 sc1 out ec cost with
      | None => None
      | Some (a2, sc2, out2, ec2, cost2, true) => Some (a2, sc2, out2)
      | Some (a2, sc2, out2, ec2, cost2, false) =>
          scan_buckets n' asz elim ccnt s (set_refc a2 (upd1 (refc a2) b (refc a2 b - 1)))
                       (mkScan (b + 1) 0 (s_tabidx sc2) (s_linked sc2) true) out2 ec2 cost2
      end
  end.

(* 373-453 assoc_scan_next.  Result: the items, or the end of the scan (-1) *)
Definition scan_next (a : assoc) (s : nat) (asz elim : N) (ccnt : N -> option N)
  : option (assoc * option (list (bytes * N))) :=
  match nth_error (scans a) s with
  | None => None
  | Some sc =>
      if negb (s_on sc) || (asz =? 0) then None (* the assert *)
      else
        match scan_buckets (N.to_nat (hsize - s_bucket sc)) asz elim ccnt s a sc [] 0 0 with
        | None => None
        | Some (a', sc', out) =>
            Some (set_scans a' (set_nth (scans a') s sc'),
                  match out with [] => if hsize <=? s_bucket sc' then None else Some [] | _ => Some out end)
        end
  end.

(* 550-580 assoc_scan_in_visited_area *)
Definition visited (a : assoc) (s : nat) (k : bytes) : bool :=
  match nth_error (scans a) s with
  | None => false
  | Some sc =>
      let b := bucket_of (hash k) in
      if b <? s_bucket sc then true
      else if b =? s_bucket sc then
        let t := cur_tabidx a (hash k) b in
        if t <? s_tabidx sc then true
        else if (t =? s_tabidx sc) && s_linked sc then
          match cut_ph s (tab a t b) with
          | None => false
          | Some (p, _) => existsb (fun c => match c with It k' _ => beqb k k' | Ph _ => false end) p
          end
        else false
      else false
  end.

(* 582-595 assoc_scan_final *)
Definition scan_final (a : assoc) (s : nat) : option assoc :=
  match nth_error (scans a) s with
  | None => None
  | Some sc =>
      if negb (s_on sc) then None
      else
        let a1 := if s_linked sc then
                    match cut_ph s (tab a (s_tabidx sc) (s_bucket sc)) with
                    | None => None
                    | Some (p, q) => Some (set_tab a (upd (tab a) (s_tabidx sc) (s_bucket sc) (p ++ q)))
                    end
                  else Some a in
        match a1 with
        | None => None
        | Some a1 =>
            let a2 := if (s_bucket sc <? hsize) && (0 <? s_tabcnt sc)
                      then set_refc a1 (upd1 (refc a1) (s_bucket sc) (refc a1 (s_bucket sc) - 1)) else a1 in
            Some (set_scans a2 (set_nth (scans a2) s (mkScan (s_bucket sc) (s_tabcnt sc) (s_tabidx sc) false false)))
        end
  end.

(* ---------- SCAN command ---------- *)
Definition u32 : N := 2 ^ 32.
Definition ones32 : N := 2 ^ 32 - 1.

(* 457-467 reverse_bits: n rounds, s the current bit size *)
Fixpoint rev_loop (n : nat) (s mask v : N) : N :=
  match n with
  | O => v
  | S n' =>
      let s' := s / 2 in
      let mask' := N.lxor mask (N.shiftl mask s' mod u32) in
      rev_loop n' s' mask' (N.lor (N.land (N.shiftr v s') mask') (N.land (N.shiftl v s' mod u32) (ones32 - mask')))
  end.
Definition reverse_bits (v : N) : N := rev_loop 5 32 ones32 v.

(* 469-473 encode_cursor *)
Definition encode (t b : N) : bytes := dec_text (N.lor (N.shiftl t hp mod u32) b).
(* 475-485 decode_cursor *)
Definition decode (cur : bytes) : option (N * N) :=
  match safe_strtoul cur with
  | None => None
  | Some n => Some (N.shiftr n hp, N.land n hmask)
  end.

(* 523-528: the next table index, from the higher order bit *)
Definition next_tabidx (a : assoc) (t : N) : N :=
  if 0 <? rmask a then
    reverse_bits ((reverse_bits (N.lor t (ones32 - rmask a)) + 1) mod u32)
  else t.

(* 505-517: the items of one chain are stored in item_array[asz].  None: stored past its end *)
Fixpoint collect (asz : N) (l : list cell) (out : list (bytes * N)) : option (list (bytes * N)) :=
  match l with
  | [] => Some out
  | Ph _ :: r => collect asz r out
  | It k v :: r =>
      if asz <=? N.of_nat (length out) then None
      else if asz <=? N.of_nat (length out) + 1 then Some (out ++ [(k, v)])
      else collect asz r (out ++ [(k, v)])
  end.

(* 500-536: the loop.  Result: items and the final table index and bucket.  At most 4 * req + 1 rounds *)
Fixpoint direct_loop (fuel : nat) (a : assoc) (req asz t b hc : N) (out : list (bytes * N))
  : option (list (bytes * N) * N * N) :=
  match fuel with
  | O => None
  | S fuel' =>
      if ((N.of_nat (length out) <? req) && (hc <? req * 4)) || (expg a && (pmask a <? t)) then
        match collect asz (tab a t b) out with
        | None => None
        | Some out' =>
            let t' := next_tabidx a t in
            if t' =? 0 then
              if hsize <=? b + 1 then Some (out', t', b + 1)
              else direct_loop fuel' a req asz t' (b + 1) (hc + 1) out'
            else direct_loop fuel' a req asz t' b (hc + 1) out'
        end
      else Some (out, t, b)
  end.

Inductive scanned := BadCursor | Scanned (cur : bytes) (l : list (bytes * N)).

(* 487-545 assoc_scan_direct *)
Definition scan_direct (a : assoc) (cur : bytes) (req asz : N) : option scanned :=
  if (asz =? 0) || (asz <? req) then None (* the assert *)
  else
    match decode cur with
    | None => Some BadCursor
    | Some (t, b) =>
        if rsize a <=? t then Some BadCursor
        else
          match direct_loop (N.to_nat (req * 4 + 2)) a req asz t b 0 [] with
          | None => None
          | Some (out, t', b') => Some (Scanned (if hsize <=? b' then encode 0 0 else encode t' b') out)
          end
    end.

(* default_engine.c 1325-1387 default_keyscan.  tables: the state of the table at each call of
   item_scan_direct (the lock is released in between); slow: the time limit is reached after the call;
   match: the item is returned by item_scan_direct and matches the pattern.  None also when the
   tables run out. *)
Fixpoint keyscan_loop (tables : list (assoc * bool)) (mtch : bytes * N -> bool) (cur : bytes) (count asz : N)
         (iter : N) (out : list (bytes * N)) : option scanned :=
  if iter <? count then
    match tables with
    | [] => None
    | (a, slow) :: ts =>
        let total := N.of_nat (length out) in
        let left := (count + u32 - total) mod u32 in     (* uint32 arithmetic *)
        let ic := if left <? 200 then left else 200 in
        match scan_direct a cur ic (asz - total) with
        | None => None
        | Some BadCursor => Some BadCursor
        | Some (Scanned cur' l) =>
            let out' := out ++ filter mtch l in
            if (match cur' with c :: _ => c =? 48 | [] => false end) || slow then Some (Scanned cur' out')
            else keyscan_loop ts mtch cur' count asz (iter + ic) out'
        end
    end
  else Some (Scanned cur out).
Definition keyscan (tables : list (assoc * bool)) (mtch : bytes * N -> bool) (cur : bytes) (count asz : N) : option scanned :=
  if asz <? count + 100 then None (* the assert *)
  else keyscan_loop tables mtch cur count asz 0 [].

(* ---------- all operations of the table (assoc_scan_direct only reads it) ---------- *)
Inductive op :=
| Insert (k : bytes) (v : N) (mem1 mem2 : bool)
| Delete (k : bytes)
| Replace (k : bytes) (v : N)
| Find (k : bytes)
| ScanInit (s : nat) (garbage : N)
| ScanNext (s : nat) (asz elim : N) (ccnt : N -> option N)
| ScanFinal (s : nat)
| Visited (s : nat) (k : bytes).
Inductive out :=
| ODone | OFound (v : option N) | OItems (l : option (list (bytes * N))) | OVisited (b : bool).

Definition step (a : assoc) (o : op) : option (assoc * out) :=
  match o with
  | Insert k v m1 m2 => match insert a k v m1 m2 with Some a' => Some (a', ODone) | None => None end
  | Delete k => match delete a k with Some a' => Some (a', ODone) | None => None end
  | Replace k v => match replace a k v with Some a' => Some (a', ODone) | None => None end
  | Find k => Some (a, OFound (find a k))
  | ScanInit s g => Some (scan_init a s g, ODone)
  | ScanNext s asz el cc => match scan_next a s asz el cc with Some (a', r) => Some (a', OItems r) | None => None end
  | ScanFinal s => match scan_final a s with Some a' => Some (a', ODone) | None => None end
  | Visited s k => Some (a, OVisited (visited a s k))
  end.

Fixpoint run (a : assoc) (l : list op) : option (assoc * list out) :=
  match l with
  | [] => Some (a, [])
  | o :: r =>
      match step a o with
      | None => None
      | Some (a', x) => match run a' r with Some (a'', xs) => Some (a'', x :: xs) | None => None end
      end
  end.

End Assoc.
