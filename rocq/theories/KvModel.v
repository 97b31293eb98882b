(* Model of the key-value part of the default engine: engines/default/items.c,
   engines/default/item_base.c (items, LRU lists, memory reclaim), and the parts of
   assoc.c and prefix.c they call.

   All entry points run under LOCK_CACHE (items.c), so one step of [step] is one critical
   section and every interleaving of client threads is a list of operations.

   Simplifications, used throughout:
   - an item block is identified by a number instead of an address; numbers are never
     reused (the real allocator reuses addresses), so "the block of a freed item is given
     to another item" appears as a fresh number and an access to a freed number sets [bad];
   - the key hash table is an association list (assoc.c is modelled in its own files);
   - a prefix exists exactly when some linked item has it (prefix.c 442-463 drops empty
     prefixes; modelled in its own files); malloc of a prefix_t never fails;
   - an LRU list is the list of its item numbers from head to tail;
   - collection items carry no elements here (a non-empty collection that is freed is
     first emptied by the background thread, item_base.c 899-905);
   - cas ids are unbounded numbers (uint64_t in the code); the persistence hooks (CLOG_..)
     and the statistics are left out;
   - the result of each slabs_alloc call and the space shortage level are chosen by the
     environment (type [oracle]). *)
From Verif Require Import Base UtilModel.
Open Scope Z_scope.

(* item_base.h 61-83 struct _hash_item.  [inlru = false] is prev == it && next == it. *)
Record item := mkItem {
  ikey : bytes; idata : bytes; iflags : N; iexp : Z; icas : N; itime : Z;
  ilinked : bool; iref : nat; inlru : bool; icoll : bool }.

Definition set_cas it c := mkItem (ikey it) (idata it) (iflags it) (iexp it) c (itime it) (ilinked it) (iref it) (inlru it) (icoll it).
Definition set_time it t := mkItem (ikey it) (idata it) (iflags it) (iexp it) (icas it) t (ilinked it) (iref it) (inlru it) (icoll it).
Definition set_linked it b := mkItem (ikey it) (idata it) (iflags it) (iexp it) (icas it) (itime it) b (iref it) (inlru it) (icoll it).
Definition set_ref it r := mkItem (ikey it) (idata it) (iflags it) (iexp it) (icas it) (itime it) (ilinked it) r (inlru it) (icoll it).
Definition set_inlru it b := mkItem (ikey it) (idata it) (iflags it) (iexp it) (icas it) (itime it) (ilinked it) (iref it) b (icoll it).
Definition set_exp it e := mkItem (ikey it) (idata it) (iflags it) e (icas it) (itime it) (ilinked it) (iref it) (inlru it) (icoll it).

(* default_engine.h, item_base.h 99-123 struct items, prefix.h 23-57 (oldest_live only).
   [held], [lost], [evicted], [bad], [repaired] are ghost: the references clients hold
   (true = allocated and not yet stored), references that can never be released,
   the keys evicted by the running operation, an assertion or memory error, and whether
   do_item_repair has ever run. *)
Record state := mkState {
  items : nat -> option item; next_id : nat; table : list (bytes * nat);
  lru : bool -> nat -> list nat;
  lowmk : nat -> option nat; curmk : nat -> option nat; smk : nat -> option nat;
  casid : N; now : Z; oldest : Z; pold : option bytes -> Z;
  held : list (nat * bool); lost : list nat; evicted : list (bytes * nat);
  bad : bool; repaired : bool }.

Definition w_items s x := mkState x (next_id s) (table s) (lru s) (lowmk s) (curmk s) (smk s) (casid s) (now s) (oldest s) (pold s) (held s) (lost s) (evicted s) (bad s) (repaired s).
Definition w_next s x := mkState (items s) x (table s) (lru s) (lowmk s) (curmk s) (smk s) (casid s) (now s) (oldest s) (pold s) (held s) (lost s) (evicted s) (bad s) (repaired s).
Definition w_table s x := mkState (items s) (next_id s) x (lru s) (lowmk s) (curmk s) (smk s) (casid s) (now s) (oldest s) (pold s) (held s) (lost s) (evicted s) (bad s) (repaired s).
Definition w_lru s x := mkState (items s) (next_id s) (table s) x (lowmk s) (curmk s) (smk s) (casid s) (now s) (oldest s) (pold s) (held s) (lost s) (evicted s) (bad s) (repaired s).
Definition w_lowmk s x := mkState (items s) (next_id s) (table s) (lru s) x (curmk s) (smk s) (casid s) (now s) (oldest s) (pold s) (held s) (lost s) (evicted s) (bad s) (repaired s).
Definition w_curmk s x := mkState (items s) (next_id s) (table s) (lru s) (lowmk s) x (smk s) (casid s) (now s) (oldest s) (pold s) (held s) (lost s) (evicted s) (bad s) (repaired s).
Definition w_smk s x := mkState (items s) (next_id s) (table s) (lru s) (lowmk s) (curmk s) x (casid s) (now s) (oldest s) (pold s) (held s) (lost s) (evicted s) (bad s) (repaired s).
Definition w_casid s x := mkState (items s) (next_id s) (table s) (lru s) (lowmk s) (curmk s) (smk s) x (now s) (oldest s) (pold s) (held s) (lost s) (evicted s) (bad s) (repaired s).
Definition w_now s x := mkState (items s) (next_id s) (table s) (lru s) (lowmk s) (curmk s) (smk s) (casid s) x (oldest s) (pold s) (held s) (lost s) (evicted s) (bad s) (repaired s).
Definition w_oldest s x := mkState (items s) (next_id s) (table s) (lru s) (lowmk s) (curmk s) (smk s) (casid s) (now s) x (pold s) (held s) (lost s) (evicted s) (bad s) (repaired s).
Definition w_pold s x := mkState (items s) (next_id s) (table s) (lru s) (lowmk s) (curmk s) (smk s) (casid s) (now s) (oldest s) x (held s) (lost s) (evicted s) (bad s) (repaired s).
Definition w_held s x := mkState (items s) (next_id s) (table s) (lru s) (lowmk s) (curmk s) (smk s) (casid s) (now s) (oldest s) (pold s) x (lost s) (evicted s) (bad s) (repaired s).
Definition w_lost s x := mkState (items s) (next_id s) (table s) (lru s) (lowmk s) (curmk s) (smk s) (casid s) (now s) (oldest s) (pold s) (held s) x (evicted s) (bad s) (repaired s).
Definition w_evicted s x := mkState (items s) (next_id s) (table s) (lru s) (lowmk s) (curmk s) (smk s) (casid s) (now s) (oldest s) (pold s) (held s) (lost s) x (bad s) (repaired s).
Definition w_bad s x := mkState (items s) (next_id s) (table s) (lru s) (lowmk s) (curmk s) (smk s) (casid s) (now s) (oldest s) (pold s) (held s) (lost s) (evicted s) x (repaired s).
Definition w_repaired s x := mkState (items s) (next_id s) (table s) (lru s) (lowmk s) (curmk s) (smk s) (casid s) (now s) (oldest s) (pold s) (held s) (lost s) (evicted s) (bad s) x.

(* a failed assertion, or an access to freed memory *)
Definition oops (s : state) : state := w_bad s true.

Definition fset {A} (f : nat -> A) (k : nat) (x : A) : nat -> A := fun j => if Nat.eqb j k then x else f j.

Definition set_item (s : state) (i : nat) (it : item) : state := w_items s (fset (items s) i (Some it)).
Definition put_lru (s : state) (b : bool) (c : nat) (l : list nat) : state :=
  w_lru s (fun b' c' => if Bool.eqb b' b && Nat.eqb c' c then l else lru s b' c').

Definition onat_eqb (a b : option nat) : bool :=
  match a, b with Some x, Some y => Nat.eqb x y | None, None => true | _, _ => false end.

(* assoc.c assoc_find / assoc_insert / assoc_delete / assoc_replace *)
Fixpoint tfind (k : bytes) (t : list (bytes * nat)) : option nat :=
  match t with
  | (k', i) :: t' => if beqb k k' then Some i else tfind k t'
  | [] => None
  end.
Definition tdel (k : bytes) (t : list (bytes * nat)) : list (bytes * nat) :=
  filter (fun e => negb (beqb k (fst e))) t.

(* the item before [i] (towards the head) in an LRU list: it->prev *)
Fixpoint prev_in (l : list nat) (i : nat) : option nat :=
  match l with
  | a :: ((b :: _) as r) => if Nat.eqb b i then Some a else prev_in r i
  | _ => None
  end.

(* index of the first delimiter ':' at position >= 1 : prefix.c 342-350 (memchr from key+1) *)
Fixpoint index_of (c : N) (s : bytes) (n : nat) : option nat :=
  match s with
  | x :: s' => if N.eqb x c then Some n else index_of c s' (S n)
  | [] => None
  end.

(* prefix.c 341-358: DEFAULT_PREFIX_MAX_DEPTH is 1 so only the first delimiter counts, and
   prefix_list[..].nprefix is a uint8_t.  None is the null prefix. *)
Definition pfx (k : bytes) : option bytes :=
  match k with
  | [] => None
  | _ :: r => match index_of 58 r 1 with
              | Some i => Some (firstn (Nat.modulo i 256) k)
              | None => None
              end
  end.

Definition obeqb (a b : option bytes) : bool :=
  match a, b with Some x, Some y => beqb x y | None, None => true | _, _ => false end.

(* prefix.c 319-329 prefix_find *)
Definition pfx_exists (s : state) (p : option bytes) : bool :=
  match p with
  | None => true
  | Some _ => existsb (fun e => obeqb (pfx (fst e)) p) (table s)
  end.

(* prefix.c 466-481 prefix_isincluded (delimiter ':') *)
Definition isincluded (pt : option bytes) (p : option bytes) : bool :=
  let name x := match x with Some y => y | None => [] end in
  let a := name pt in let b := name p in
  match b with
  | [] => match a with [] => true | _ => false end
  | _ => beqb a b ||
         (Nat.ltb (length b) (length a) &&
          (match nth_error a (length b) with Some c => N.eqb c 58 | None => false end) &&
          beqb (firstn (length b) a) b)
  end.

(* the environment's choices for one allocating operation: refusal because the size has no
   slab class or because sticky memory is used up (item_base.c 847-858), the space shortage
   level, and the results of the successive slabs_alloc calls *)
Record oracle := mkOracle { o_fail : bool; o_ssl : nat; o_slabs : list bool }.

Definition popb (l : list bool) : bool * list bool :=
  match l with b :: r => (b, r) | [] => (false, []) end.

(* ENGINE_... codes *)
Inductive code := SUCCESS | NOT_STORED | ENOENT | EEXISTS | EBADTYPE | ENOMEM | EINVAL | EBADVALUE
  | ENAME | PENOENT.

Definition sticky_time : Z := 4294967295. (* (rel_time_t)-1 *)
Definition is_sticky (it : item) : bool := iexp it =? sticky_time.

Section Kv.
(* slab class used for the LRU list of an item (item_base.c 458-465, 503-508): 0 for
   collections and small items, otherwise the slab class of the item size *)
Variable lru_class : bool -> bytes -> bytes -> nat.
Variable maxcls : nat.          (* POWER_LARGEST *)
Variable evict_on : bool.       (* config->evict_to_free *)

Definition cls_of (coll : bool) (key data : bytes) : nat := Nat.min (lru_class coll key data) maxcls.
Definition cls (it : item) : nat := cls_of (icoll it) (ikey it) (idata it).

(* item_base.c 453-494 item_link_q; the assertion is [it] not being the head, and linking
   an item that already is in a list would destroy the list *)
Definition link_q (s : state) (i : nat) : state :=
  match items s i with
  | None => oops s
  | Some it =>
      if inlru it then oops s else
      let b := is_sticky it in let c := cls it in
      let s1 :=
        if negb b && (0 <? iexp it) then
          match lowmk s c with
          | None => w_curmk (w_lowmk s (fset (lowmk s) c (Some i))) (fset (curmk s) c (Some i))
          | Some _ => s
          end
        else s in
      put_lru (set_item s1 i (set_inlru it true)) b c (i :: lru s b c)
  end.

(* item_base.c 496-555 item_unlink_q *)
Definition unlink_q (s : state) (i : nat) : state :=
  match items s i with
  | None => oops s
  | Some it =>
      if negb (inlru it) then s else
      let b := is_sticky it in let c := cls it in let l := lru s b c in
      if negb (existsb (Nat.eqb i) l) then oops s else
      let p := prev_in l i in
      let s1 :=
        if b then
          if onat_eqb (smk s c) (Some i) then w_smk s (fset (smk s) c p) else s
        else
          let lo := if onat_eqb (lowmk s c) (Some i) then p else lowmk s c in
          let cu := if onat_eqb (curmk s c) (Some i)
                    then match p with Some _ => p | None => lo end else curmk s c in
          w_curmk (w_lowmk s (fset (lowmk s) c lo)) (fset (curmk s) c cu) in
      put_lru (set_item s1 i (set_inlru it false)) b c (filter (fun j => negb (Nat.eqb j i)) l)
  end.

(* prefix.c 512-526 prefix_isvalid, item_base.c 557-581 do_item_isvalid *)
Definition flushed_by (o t : Z) (it : item) : bool := negb (o =? 0) && (o <=? t) && (itime it <=? o).
Definition isvalid (s : state) (it : item) : bool :=
  negb (negb (iexp it =? 0) && (iexp it <=? now s)) &&
  negb (flushed_by (oldest s) (now s) it) &&
  negb (flushed_by (pold s (pfx (ikey it))) (now s) it).

(* item_base.c 892-911 do_item_free *)
Definition free (s : state) (i : nat) : state :=
  match items s i with
  | None => oops s
  | Some it =>
      if ilinked it || negb (Nat.eqb (iref it) 0) || inlru it then oops s
      else w_items s (fset (items s) i None)
  end.

(* prefix.c 442-463 prefix_unlink: the prefix is dropped when it becomes empty *)
Definition drop_prefix (s : state) (p : option bytes) : state :=
  match p with
  | None => s
  | Some _ => if pfx_exists s p then s
              else w_pold s (fun q => if obeqb q p then 0 else pold s q)
  end.

(* item_base.c 968-973: take the item out of the hash table and its prefix *)
Definition detach (s : state) (i : nat) : state :=
  match items s i with
  | None => oops s
  | Some it =>
      drop_prefix (set_item (w_table s (tdel (ikey it) (table s))) i (set_linked it false)) (pfx (ikey it))
  end.

(* item_base.c 955-999 do_item_unlink *)
Definition unlink (s : state) (i : nat) : state :=
  match items s i with
  | None => oops s
  | Some it =>
      if negb (ilinked it) then s else
      let s2 := detach (unlink_q s i) i in
      if Nat.eqb (iref it) 0 then free s2 i else s2
  end.

(* item_base.c 936-944 / 1017-1026: into the hash table with the current time and a new cas,
   then to the head of the LRU list *)
Definition attach (s : state) (i : nat) (c : N) : state :=
  match items s i with
  | None => oops s
  | Some it =>
      match tfind (ikey it) (table s) with
      | Some _ => oops s (* assoc_insert asserts that the key is absent *)
      | None =>
          link_q (set_item (w_table s ((ikey it, i) :: table s)) i
                    (set_time (set_linked (set_cas it c) true) (now s))) i
      end
  end.

(* item_base.c 913-953 do_item_link, prefix.c 331-440 prefix_link *)
Definition link (s : state) (i : nat) : state * code :=
  match items s i with
  | None => (oops s, EINVAL)
  | Some it =>
      if ilinked it then (oops s, EINVAL) else
      let c := N.succ (casid s) in
      let s1 := w_casid s c in
      let okname := match pfx (ikey it) with
                    | None => true
                    | Some p => pfx_exists s (Some p) || mc_isvalidname p
                    end in
      if negb okname then (set_item s1 i (set_cas it c), ENAME)
      else (attach s1 i c, SUCCESS)
  end.

(* item_base.c 1001-1060 do_item_replace.  The field writes are grouped: first all on the
   old item, then all on the new one.  The prefix keeps existing (it is handed over to the
   new item), so its oldest_live is kept. *)
Definition replace (s : state) (old new : nat) : state :=
  match items s old, items s new with
  | Some o, Some n =>
      if negb (ilinked o) || ilinked n || negb (beqb (ikey n) (ikey o)) then oops s else
      let s1 := unlink_q s old in
      let c := N.succ (casid s1) in
      let s2 := w_table (w_casid s1 c) (tdel (ikey o) (table s1)) in
      let s3 := match items s2 old with
                | None => oops s2
                | Some o1 => set_item s2 old (set_linked o1 false)
                end in
      let s4 := if Nat.eqb (iref o) 0 then free s3 old else s3 in
      attach s4 new c
  | _, _ => oops s
  end.

(* item_base.c 1062-1085 do_item_update; rel_time_t is unsigned *)
Definition update (s : state) (i : nat) (force : bool) : state :=
  match items s i with
  | None => oops s
  | Some it =>
      if negb (ilinked it) then s else
      if force || (itime it <? (now s - 60) mod 2 ^ 32) then
        let s1 := unlink_q s i in
        match items s1 i with
        | None => oops s1
        | Some it1 => link_q (set_item s1 i (set_time it1 (now s1))) i
        end
      else s
  end.

(* item_base.c 1087-1129 do_item_get *)
Definition do_get (s : state) (k : bytes) (upd : bool) : state * option nat :=
  match tfind k (table s) with
  | None => (s, None)
  | Some i =>
      match items s i with
      | None => (oops s, None)
      | Some it =>
          if isvalid s it then
            let s1 := set_item s i (set_ref it (S (iref it))) in
            ((if upd then update s1 i false else s1), Some i)
          else (unlink s i, None)
      end
  end.

(* item_base.c 1131-1156 do_item_release *)
Definition release (s : state) (i : nat) : state :=
  match items s i with
  | None => oops s
  | Some it =>
      let it1 := set_ref it (pred (iref it)) in
      let s1 := set_item s i it1 in
      if Nat.eqb (iref it1) 0 then
        if negb (ilinked it1) then free s1 i
        else if negb (inlru it1) then
          if isvalid s1 it1 then link_q (set_item s1 i (set_time it1 (now s1))) i
          else unlink s1 i
        else s1
      else s1
  end.

(* item_base.c 583-612 do_item_reclaim: for a large item (lruid <> 0) the block itself is
   taken over, otherwise it is freed and slabs_alloc is called *)
Definition reclaim (s : state) (i c : nat) (ora : list bool) : state * bool * list bool :=
  let s1 := unlink s i in
  if Nat.eqb c 0 then let '(b, ora') := popb ora in (s1, b, ora') else (s1, true, ora).

(* item_base.c 627-638 do_item_evict *)
Definition evict (s : state) (i : nat) : state :=
  match items s i with
  | None => oops s
  | Some it => unlink (w_evicted s ((ikey it, i) :: evicted s)) i
  end.

(* item_base.c 640-652 do_item_repair *)
Definition repair (s : state) (i : nat) : state :=
  match items s i with
  | None => oops s
  | Some it => unlink (w_repaired (set_item s i (set_ref it 0)) true) i
  end.

(* search->refcount == 0 && !do_item_isvalid(search, current_time) *)
Definition dead (s : state) (i : nat) : bool :=
  match items s i with
  | Some it => Nat.eqb (iref it) 0 && negb (isvalid s it)
  | None => false
  end.

(* item_base.c 614-625 do_item_invalidate, called only on dead items *)
Definition invalidate_if_dead (s : state) (o : option nat) : state :=
  match o with
  | None => s
  | Some i => match items s i with
              | None => oops s
              | Some _ => if dead s i then unlink s i else s
              end
  end.

(* item_base.c 654-691 do_item_regain: the loop goes from the tail and removes only the
   visited item, so it is written over the list read beforehand *)
Fixpoint regain (n : nat) (l : list nat) (s : state) : state :=
  match n, l with
  | S n', i :: l' =>
      match items s i with
      | None => oops s
      | Some it =>
          regain n' l' (if Nat.eqb (iref it) 0
                        then if isvalid s it then evict s i else unlink s i
                        else unlink_q s i)
      end
  | _, _ => s
  end.

(* item_base.c 735-746: sticky_curMK loop *)
Fixpoint sticky_loop (n : nat) (s : state) (c : nat) (ora : list bool) : state * bool * list bool :=
  match n with
  | O => (s, false, ora)
  | S n' =>
      match smk s c with
      | None => (s, false, ora)
      | Some i =>
          match items s i with
          | None => (oops s, false, ora)
          | Some _ =>
              let s1 := w_smk s (fset (smk s) c (prev_in (lru s true c) i)) in
              if dead s1 i then
                let '(s2, got, ora') := reclaim s1 i c ora in
                if got then (s2, true, ora') else sticky_loop n' s2 c ora'
              else sticky_loop n' s1 c ora
          end
      end
  end.

(* item_base.c 762-778: step 1, from lowMK up to curMK; also returns previt and tries *)
Fixpoint step1_loop (n : nat) (s : state) (c : nat) (search prv : option nat) (ora : list bool)
  : state * bool * option nat * nat * list bool :=
  match n with
  | O => (s, false, prv, O, ora)
  | S n' =>
      match search with
      | None => (s, false, prv, n, ora)
      | Some i =>
          if onat_eqb search (curmk s c) then (s, false, prv, n, ora) else
          match items s i with
          | None => (oops s, false, prv, n, ora)
          | Some it =>
              let p := prev_in (lru s false c) i in
              if dead s i then
                let '(s2, got, ora') := reclaim s i c ora in
                if got then (s2, true, p, n, ora') else step1_loop n' s2 c p p ora'
              else
                let s1 := if (iexp it =? 0) && onat_eqb (Some i) (lowmk s c)
                          then w_lowmk s (fset (lowmk s) c p) else s in
                step1_loop n' s1 c p prv ora
          end
      end
  end.

(* item_base.c 789-798: step 2, from curMK *)
Fixpoint step2_loop (n : nat) (s : state) (c : nat) (ora : list bool) : state * bool * list bool :=
  match n with
  | O => (s, false, ora)
  | S n' =>
      match curmk s c with
      | None => (s, false, ora)
      | Some i =>
          match items s i with
          | None => (oops s, false, ora)
          | Some _ =>
              let s1 := w_curmk s (fset (curmk s) c (prev_in (lru s false c) i)) in
              if dead s1 i then
                let '(s2, got, ora') := reclaim s1 i c ora in
                if got then (s2, true, ora') else step2_loop n' s2 c ora'
              else step2_loop n' s1 c ora
          end
      end
  end.

(* item_base.c 836-855: eviction from the tail *)
Fixpoint evict_loop (n : nat) (l : list nat) (s : state) (c : nat) (ora : list bool)
  : state * bool * list bool :=
  match n, l with
  | S n', i :: l' =>
      match items s i with
      | None => (oops s, false, ora)
      | Some it =>
          if Nat.eqb (iref it) 0 then
            let '(s2, got, ora') :=
              if isvalid s it then let '(b, r) := popb ora in (evict s i, b, r) else reclaim s i c ora in
            if got then (s2, true, ora') else evict_loop n' l' s2 c ora'
          else evict_loop n' l' (unlink_q s i) c ora
      end
  | _, _ => (s, false, ora)
  end.

(* item_base.c 877-897: tail repair, TAIL_REPAIR_TIME is three hours *)
Fixpoint repair_loop (n : nat) (l : list nat) (s : state) (ora : list bool) : state * bool * list bool :=
  match n, l with
  | S n', i :: l' =>
      match items s i with
      | None => (oops s, false, ora)
      | Some it =>
          if negb (Nat.eqb (iref it) 0) && (itime it + 10800 <? now s) then
            let s2 := repair s i in
            let '(b, ora') := popb ora in
            if b then (s2, true, ora') else repair_loop n' l' s2 ora'
          else repair_loop n' l' s ora
      end
  | _, _ => (s, false, ora)
  end.

(* item_base.c 780-815: the two reclaim steps *)
Definition mem_reclaim (s : state) (c : nat) (ora : list bool) : state * bool * list bool :=
  match curmk s c with
  | None => (s, false, ora)
  | Some _ =>
      match lowmk s c with
      | None => (oops s, false, ora)
      | Some _ =>
          let '(s1, got, prv, tries, ora1) := step1_loop 10 s c (lowmk s c) None ora in
          if got then (invalidate_if_dead s1 prv, true, ora1)
          else
            let '(s2, got2, ora2) := step2_loop (tries + 20) s1 c ora1 in
            let s3 := match curmk s2 c with
                      | None => w_curmk s2 (fset (curmk s2) c (lowmk s2 c))
                      | Some _ => s2
                      end in
            if got2 then (invalidate_if_dead s3 (curmk s3 c), true, ora2)
            else (s3, false, ora2)
      end
  end.

(* item_base.c 693-907 do_item_mem_alloc; the result says whether memory was obtained *)
Definition mem_alloc (s : state) (c : nat) (o : oracle) : state * bool :=
  let s0 := if evict_on && Nat.eqb c 0 then regain (o_ssl o) (rev (lru s false 0%nat)) s else s in
  let '(s1, got1, ora1) := sticky_loop 10 s0 c (o_slabs o) in
  if got1 then (invalidate_if_dead s1 (smk s1 c), true) else
  let '(s2, got2, ora2) := mem_reclaim s1 c ora1 in
  if got2 then (s2, true) else
  let '(b, ora3) := popb ora2 in
  if b then (s2, true) else
  if negb evict_on then (s2, false) else
  let '(s4, got4, ora4) := evict_loop 200 (rev (lru s2 false c)) s2 c ora3 in
  if got4 then (s4, true) else
  if Nat.eqb c 0 then (s4, false) else
  let '(s5, got5, _) := repair_loop 50 (rev (lru s4 false c)) s4 ora4 in
  (s5, got5).

(* item_base.c 838-890 do_item_alloc; the data is copied in by the caller *)
Definition alloc (s : state) (coll : bool) (key : bytes) (flags : N) (exp : Z) (data : bytes)
    (cas : N) (o : oracle) : state * option nat :=
  if o_fail o then (s, None) else
  let '(s1, got) := mem_alloc s (cls_of coll key data) o in
  if got then
    let i := next_id s1 in
    (w_next (set_item s1 i (mkItem key data flags exp cas 0 false 1 false coll)) (S i), Some i)
  else (s1, None).

Inductive out :=
| ORes (c : code)
| OStored (cas : N)
| OVal (v : bytes) (flags : N) (cas : N)
| ONum (n : N) (cas : N)
| OExp (e : Z)
| ONone.

Inductive store_kind := KSet | KAdd | KReplace | KCas | KAppend | KPrepend.

Definition cas_of (s : state) (i : nat) : N := match items s i with Some it => icas it | None => 0%N end.

(* items.c 76-97 do_item_store_set *)
Definition store_set (s : state) (i : nat) (k : bytes) : state * out :=
  let '(s1, o) := do_get s k false in
  match o with
  | Some old =>
      match items s1 old with
      | None => (oops s1, ONone)
      | Some oit =>
          let '(s2, r) := if icoll oit then (s1, ORes EBADTYPE)
                          else let s2 := replace s1 old i in (s2, OStored (cas_of s2 i)) in
          (release s2 old, r)
      end
  | None => let '(s2, c) := link s1 i in
            (s2, match c with SUCCESS => OStored (cas_of s2 i) | _ => ORes c end)
  end.

(* items.c 99-122 do_item_store_add *)
Definition store_add (s : state) (i : nat) (k : bytes) : state * out :=
  let '(s1, o) := do_get s k false in
  match o with
  | Some old =>
      match items s1 old with
      | None => (oops s1, ONone)
      | Some oit =>
          let '(s2, r) := if icoll oit then (s1, ORes EBADTYPE)
                          else (update s1 old false, ORes NOT_STORED) in
          (release s2 old, r)
      end
  | None => let '(s2, c) := link s1 i in
            (s2, match c with SUCCESS => OStored (cas_of s2 i) | _ => ORes c end)
  end.

(* items.c 124-144 do_item_store_replace *)
Definition store_replace (s : state) (i : nat) (k : bytes) : state * out :=
  let '(s1, o) := do_get s k false in
  match o with
  | None => (s1, ORes NOT_STORED)
  | Some old =>
      match items s1 old with
      | None => (oops s1, ONone)
      | Some oit =>
          let '(s2, r) := if icoll oit then (s1, ORes EBADTYPE)
                          else let s2 := replace s1 old i in (s2, OStored (cas_of s2 i)) in
          (release s2 old, r)
      end
  end.

(* items.c 146-180 do_item_store_cas *)
Definition store_cas (s : state) (i : nat) (k : bytes) : state * out :=
  let '(s1, o) := do_get s k false in
  match o with
  | None => (s1, ORes ENOENT)
  | Some old =>
      match items s1 old with
      | None => (oops s1, ONone)
      | Some oit =>
          let '(s2, r) :=
            if icoll oit then (s1, ORes EBADTYPE)
            else if N.eqb (cas_of s1 i) (icas oit)
                 then let s2 := replace s1 old i in (s2, OStored (cas_of s2 i))
                 else (s1, ORes EEXISTS) in
          (release s2 old, r)
      end
  end.

(* items.c 182-235 do_item_store_attach; values end in CR LF *)
Definition store_attach (s : state) (i : nat) (k : bytes) (append : bool) (orc : oracle) : state * out :=
  let '(s1, o) := do_get s k false in
  match o with
  | None => (s1, ORes NOT_STORED)
  | Some old =>
      match items s1 old, items s1 i with
      | Some oit, Some it =>
          let '(s2, r) :=
            if icoll oit then (s1, ORes EBADTYPE)
            else if negb (N.eqb (icas it) 0) && negb (N.eqb (icas it) (icas oit))
            then (s1, ORes EEXISTS)
            else
              let d := if append then firstn (length (idata oit) - 2) (idata oit) ++ idata it
                       else firstn (length (idata it) - 2) (idata it) ++ idata oit in
              let '(s2, a) := alloc s1 false (ikey it) (iflags oit) (iexp oit) d 0%N orc in
              match a with
              | None => (s2, ORes NOT_STORED)
              | Some n => let s3 := replace s2 old n in
                          (release s3 n, OStored (cas_of s3 n))
              end in
          (release s2 old, r)
      | _, _ => (oops s1, ONone)
      end
  end.

(* "%"PRIu64"\r\n" *)
Definition num_data (n : N) : bytes := (dec_text n ++ [13; 10])%N.

(* items.c 248-292 do_add_delta; [tail] is whatever lies in memory after the item, which
   the text functions reach because the data is not NUL terminated *)
Definition add_delta (s : state) (i : nat) (incr : bool) (delta : N) (tail : bytes) (orc : oracle)
  : state * out :=
  match items s i with
  | None => (oops s, ONone)
  | Some it =>
      match safe_strtoull (idata it ++ tail) with
      | None => (s, ORes EINVAL)
      | Some v =>
          let v' := if incr then ((v + delta) mod 2 ^ 64)%N
                    else if (v <? delta)%N then 0%N else (v - delta)%N in
          let '(s1, a) := alloc s false (ikey it) (iflags it) (iexp it) (num_data v') 0%N orc in
          match a with
          | None => (s1, ORes ENOMEM)
          | Some n => let s2 := replace s1 i n in
                      (release s2 n, ONum v' (cas_of s2 n))
          end
      end
  end.

(* items.c 356-401 item_arithmetic: note that a collection item is not released *)
Definition arithmetic (s : state) (k : bytes) (incr create : bool) (delta initial : N) (flags : N)
    (exp : Z) (tail : bytes) (orc : oracle) : state * out :=
  let '(s1, o) := do_get s k false in
  match o with
  | Some i =>
      match items s1 i with
      | None => (oops s1, ONone)
      | Some it =>
          if icoll it then (w_lost s1 (i :: lost s1), ORes EBADTYPE)
          else let '(s2, r) := add_delta s1 i incr delta tail orc in (release s2 i, r)
      end
  | None =>
      if create then
        let '(s2, a) := alloc s1 false k flags exp (num_data initial) 0%N orc in
        match a with
        | None => (s2, ORes ENOMEM)
        | Some n =>
            let '(s3, r) := store_add s2 n k in
            (release s3 n, match r with OStored c => ONum initial c | _ => r end)
        end
      else (s1, ORes ENOENT)
  end.

(* items.c 403-432 item_delete *)
Definition delete (s : state) (k : bytes) (cas : N) : state * out :=
  let '(s1, o) := do_get s k false in
  match o with
  | None => (s1, ORes ENOENT)
  | Some i =>
      if N.eqb cas 0 || N.eqb cas (cas_of s1 i)
      then (release (unlink s1 i) i, ORes SUCCESS)
      else (release s1 i, ORes EEXISTS)
  end.

(* items.c 480-500: walk one list from the head *)
Fixpoint flush_list (l : list nat) (s : state) (b : bool) (c : nat) (ol : Z) (all : bool) (p : option bytes)
  : state :=
  match l with
  | [] => s
  | i :: l' =>
      match items s i with
      | None => oops s
      | Some it =>
          if itime it <? ol then
            let tl := hd_error (rev (lru s b c)) in
            if b then w_smk s (fset (smk s) c tl)
            else w_curmk (w_lowmk s (fset (lowmk s) c tl)) (fset (curmk s) c tl)
          else flush_list l' (if all || isincluded (pfx (ikey it)) p then unlink s i else s) b c ol all p
      end
  end.

Definition flush_class (s : state) (c : nat) (ol : Z) (all : bool) (p : option bytes) : state :=
  let s1 := flush_list (lru s false c) s false c ol all p in
  flush_list (lru s1 true c) s1 true c ol all p.

Definition flush_classes (s : state) (ol : Z) (all : bool) (p : option bytes) : state :=
  fold_left (fun s c => flush_class s c ol all p) (seq 0 (S maxcls)) s.

(* items.c 440-541 do_item_flush_expired *)
Definition flush_all (s : state) (wh : Z) : state * out :=
  let ol := if wh =? 0 then (now s - 1) mod 2 ^ 32 else wh - 1 in
  let s1 := w_oldest s ol in
  ((if ol =? 0 then s1 else flush_classes s1 ol true None), ORes SUCCESS).

Definition flush_prefix (s : state) (p : option bytes) (wh : Z) : state * out :=
  if negb (pfx_exists s p) then (s, ORes PENOENT) else
  let ol := if wh =? 0 then (now s - 1) mod 2 ^ 32 else wh - 1 in
  let s1 := w_pold s (fun q => if obeqb q p then ol else pold s q) in
  ((if ol =? 0 then s1 else flush_classes s1 ol false p), ORes SUCCESS).

(* items.c 797-852 do_item_setattr, 854-878 item_setattr, with the expiretime attribute only *)
Definition set_expire (s : state) (k : bytes) (e : Z) : state * out :=
  let '(s1, o) := do_get s k false in
  match o with
  | None => (s1, ORes ENOENT)
  | Some i =>
      match items s1 i with
      | None => (oops s1, ONone)
      | Some it =>
          if (is_sticky it && negb (e =? sticky_time)) || (negb (is_sticky it) && (e =? sticky_time))
          then (release s1 i, ORes EBADVALUE)
          else
            let s2 :=
              if iexp it =? e then s1
              else
                let s2 := set_item s1 i (set_exp it e) in
                if (iexp it =? 0) && negb (e =? 0) then update s2 i true else s2 in
            (release s2 i, ORes SUCCESS)
      end
  end.

(* items.c 740-790 item_getattr, the expiretime attribute only *)
Definition get_expire (s : state) (k : bytes) : state * out :=
  let '(s1, o) := do_get s k false in
  match o with
  | None => (s1, ORes ENOENT)
  | Some i =>
      match items s1 i with
      | None => (oops s1, ONone)
      | Some it => (release s1 i, OExp (iexp it))
      end
  end.

(* coll_list.c (and set/map/btree) *_struct_create: create an empty collection *)
Definition coll_create (s : state) (k : bytes) (flags : N) (exp : Z) (orc : oracle) : state * out :=
  let '(s1, o) := do_get s k false in
  match o with
  | Some i => (release s1 i, ORes EEXISTS)
  | None =>
      let '(s2, a) := alloc s1 true k flags exp [] 0%N orc in
      match a with
      | None => (s2, ORes ENOMEM)
      | Some n => let '(s3, c) := link s2 n in (release s3 n, ORes c)
      end
  end.

(* data without the trailing CR LF *)
Definition strip (d : bytes) : bytes := firstn (length d - 2) d.

(* default_engine.c 334-356 default_get (for a collection: item_release and EBADTYPE) *)
Definition get (s : state) (k : bytes) : state * out :=
  let '(s1, o) := do_get s k true in
  match o with
  | None => (s1, ORes ENOENT)
  | Some i =>
      match items s1 i with
      | None => (oops s1, ONone)
      | Some it =>
          if icoll it then (release s1 i, ORes EBADTYPE)
          else (w_held s1 ((i, false) :: held s1), OVal (strip (idata it)) (iflags it) (icas it))
      end
  end.

Inductive op :=
| Tick (d : nat)
| Alloc (k : bytes) (flags : N) (exp : Z) (v : bytes) (cas : N) (orc : oracle)
| Store (h : nat) (kind : store_kind) (orc : oracle)
| Get (k : bytes)
| Release (h : nat)
| Arith (k : bytes) (incr create : bool) (delta initial : N) (flags : N) (exp : Z) (tail : bytes) (orc : oracle)
| Delete (k : bytes) (cas : N)
| SetExp (k : bytes) (e : Z)
| GetExp (k : bytes)
| Flush (wh : Z)
| FlushPrefix (p : option bytes) (wh : Z)
| CollCreate (k : bytes) (flags : N) (exp : Z) (orc : oracle).

Fixpoint set_nth {A} (n : nat) (x : A) (l : list A) : list A :=
  match l, n with
  | _ :: r, O => x :: r
  | y :: r, S n' => y :: set_nth n' x r
  | [], _ => []
  end.
Fixpoint del_nth {A} (n : nat) (l : list A) : list A :=
  match l, n with
  | _ :: r, O => r
  | y :: r, S n' => y :: del_nth n' r
  | [], _ => []
  end.

(* items.c 318-354 item_store on the h-th held reference, which must be newly allocated *)
Definition store (s : state) (h : nat) (kind : store_kind) (orc : oracle) : state * out :=
  match nth_error (held s) h with
  | Some (i, true) =>
      let s0 := w_held s (set_nth h (i, false) (held s)) in
      match items s0 i with
      | None => (oops s0, ONone)
      | Some it =>
          match kind with
          | KSet => store_set s0 i (ikey it)
          | KAdd => store_add s0 i (ikey it)
          | KReplace => store_replace s0 i (ikey it)
          | KCas => store_cas s0 i (ikey it)
          | KAppend => store_attach s0 i (ikey it) true orc
          | KPrepend => store_attach s0 i (ikey it) false orc
          end
      end
  | _ => (s, ONone)
  end.

Definition step (s0 : state) (o : op) : state * out :=
  let s := w_evicted s0 [] in
  match o with
  | Tick d => (w_now s (now s + Z.of_nat d), ONone)
  | Alloc k f e v c orc =>
      let '(s1, a) := alloc s false k f e (v ++ [13; 10]%N) c orc in
      match a with
      | None => (s1, ORes ENOMEM)
      | Some i => (w_held s1 ((i, true) :: held s1), ORes SUCCESS)
      end
  | Store h kind orc => store s h kind orc
  | Get k => get s k
  | Release h =>
      match nth_error (held s) h with
      | Some (i, _) => (release (w_held s (del_nth h (held s))) i, ONone)
      | None => (s, ONone)
      end
  | Arith k incr create delta initial f e tail orc => arithmetic s k incr create delta initial f e tail orc
  | Delete k c => delete s k c
  | SetExp k e => set_expire s k e
  | GetExp k => get_expire s k
  | Flush wh => flush_all s wh
  | FlushPrefix p wh => flush_prefix s p wh
  | CollCreate k f e orc => coll_create s k f e orc
  end.

(* the clock starts at 2 (memcached.c 298: process_started = time(0) - 2) *)
Definition init : state :=
  mkState (fun _ => None) 0 [] (fun _ _ => []) (fun _ => None) (fun _ => None) (fun _ => None)
    0 2 0 (fun _ => 0) [] [] [] false false.

(* answers with the keys evicted by each operation *)
Fixpoint run (s : state) (ops : list op) : state * list (out * list (bytes * nat)) :=
  match ops with
  | [] => (s, [])
  | o :: r => let '(s1, x) := step s o in
              let '(s2, xs) := run s1 r in (s2, (x, evicted s1) :: xs)
  end.

End Kv.
