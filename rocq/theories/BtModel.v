(* Model of the B+tree collection: engines/default/coll_btree.c, item_base.h 280-318.

   A B+tree is the list of its levels, leaves first; the last level holds the root alone.  A level
   is the list of its nodes in prev/next order and a node is the list of its used slots
   (used_count = length).  A leaf slot holds an element (El None: the NULL left behind while a
   range is being deleted); an index slot holds ecnt, the number of elements below the child.
   Node k of a level is the child in the k-th slot of the level above, counted over all its nodes
   (see flat): the child pointers item[i] and the pointers prev/next are represented by this
   position.  A node detached in do_btree_node_merge stays in its level as an empty node, and its
   slot as Cnt 0, until do_btree_node_remove_null_items drops the slot; ->prev/->next then mean
   the nearest node that is not detached (next_alive, prev_alive).

   Simplifications: elements are values (their reference count only decides whether an update is
   done in place, argument [held]); memory accounting (do_coll_space_incr/decr), opcost and the
   persistence hooks are left out; the collection is readable; the forced overflow action of
   an environment variable (lines 115-176) is left out.
   A result None means: failed assertion, NULL or uninitialised pointer used, loop that does not
   end. *)
From Verif Require Import Base UtilModel.
Local Open Scope nat_scope.

(* ---------- bkeys ---------- *)

(* bkey_t: nbkey = 0 is a 64-bit number, otherwise 1..31 bytes *)
Inductive bkey := U64 (n : N) | Bin (l : bytes).

(* 378-383 UINT64_COMP *)
Definition u64_comp (a b : N) : comparison :=
  if (a =? b)%N then Eq else if (a <? b)%N then Lt else Gt.

(* 415-428 BINARY_COMP *)
Fixpoint bin_comp (a b : bytes) : comparison :=
  match a, b with
  | [], [] => Eq
  | [], _ :: _ => Lt
  | _ :: _, [] => Gt
  | x :: a', y :: b' => if (x =? y)%N then bin_comp a' b' else if (x <? y)%N then Lt else Gt
  end.

(* 430-439 BINARY_ISEQ *)
Fixpoint bin_iseq (a b : bytes) : bool :=
  match a, b with
  | [], [] => true
  | x :: a', y :: b' => if (x =? y)%N then bin_iseq a' b' else false
  | _, _ => false
  end.

(* 441-450 BINARY_ISNE *)
Fixpoint bin_isne (a b : bytes) : bool :=
  match a, b with
  | [], [] => false
  | x :: a', y :: b' => if (x =? y)%N then bin_isne a' b' else true
  | _, _ => true
  end.

(* 452-464 BINARY_ISLT *)
Fixpoint bin_islt (a b : bytes) : bool :=
  match a, b with
  | x :: a', y :: b' => if (x =? y)%N then bin_islt a' b' else (x <? y)%N
  | [], _ :: _ => true
  | _, [] => false
  end.

(* 466-478 BINARY_ISLE *)
Fixpoint bin_isle (a b : bytes) : bool :=
  match a, b with
  | x :: a', y :: b' => if (x =? y)%N then bin_isle a' b' else (x <? y)%N
  | [], _ => true
  | _ :: _, [] => false
  end.

(* 480-492 BINARY_ISGT *)
Fixpoint bin_isgt (a b : bytes) : bool :=
  match a, b with
  | x :: a', y :: b' => if (x =? y)%N then bin_isgt a' b' else (y <? x)%N
  | _ :: _, [] => true
  | [], _ => false
  end.

(* 494-506 BINARY_ISGE *)
Fixpoint bin_isge (a b : bytes) : bool :=
  match a, b with
  | x :: a', y :: b' => if (x =? y)%N then bin_isge a' b' else (y <? x)%N
  | _, [] => true
  | [], _ :: _ => false
  end.

(* 542-569 BKEY_COMP, BKEY_ISLT, BKEY_ISGT, BKEY_ISNE.  Keys of different types: the assertion
   nv1 > 0 && nv2 > 0 fails; without assertions the lengths 0 and > 0 decide.  (The commands check
   the type first, see bad_type, and both ends of a range have one type, memcached.c 12080-12114.) *)
Definition bcomp (a b : bkey) : comparison :=
  match a, b with
  | U64 x, U64 y => u64_comp x y
  | Bin x, Bin y => bin_comp x y
  | U64 _, Bin _ => Lt
  | Bin _, U64 _ => Gt
  end.
Definition b_islt (a b : bkey) : bool :=
  match a, b with
  | U64 x, U64 y => (x <? y)%N
  | Bin x, Bin y => bin_islt x y
  | U64 _, Bin _ => true
  | Bin _, U64 _ => false
  end.
Definition b_isgt (a b : bkey) : bool :=
  match a, b with
  | U64 x, U64 y => (y <? x)%N
  | Bin x, Bin y => bin_isgt x y
  | U64 _, Bin _ => false
  | Bin _, U64 _ => true
  end.
Definition b_isne (a b : bkey) : bool :=
  match a, b with
  | U64 x, U64 y => negb (x =? y)%N
  | Bin x, Bin y => bin_isne x y
  | _, _ => true
  end.

(* 605-646 BINARY_DIFF: the bytes beyond [length] are ignored, missing ones are 0; the loop runs
   from the last byte, the second component is [subtraction] *)
Definition padded (n : nat) (v : bytes) : bytes := firstn n (v ++ repeat 0%N n).
Fixpoint diff_loop (a b : bytes) : bytes * bool :=
  match a, b with
  | x :: a', y :: b' =>
      let '(r, s) := diff_loop a' b' in
      if s then if (y <? x)%N then ((x - y - 1)%N :: r, false) else ((255 - y + x)%N :: r, true)
      else if (y <=? x)%N then ((x - y)%N :: r, false) else ((255 - y + x + 1)%N :: r, true)
  | _, _ => ([], false)
  end.
Definition bin_diff (n : nat) (a b : bytes) : bytes := fst (diff_loop (padded n a) (padded n b)).

(* 664-675 BINARY_DECR; None: assert(i >= 0) *)
Fixpoint decr_loop (v : bytes) : bytes * bool :=
  match v with
  | [] => ([], true)
  | x :: r => let '(r', borrow) := decr_loop r in
              if borrow then if (0 <? x)%N then ((x - 1)%N :: r', false) else (255%N :: r', true)
              else (x :: r', false)
  end.
Definition bin_decr (v : bytes) : option bytes :=
  let '(r, borrow) := decr_loop v in if borrow then None else Some r.

(* 681-690 BKEY_DIFF with the length taken from the key [like], BKEY_DECR *)
Definition b_diff (like a b : bkey) : option bkey :=
  match like, a, b with
  | U64 _, U64 x, U64 y => if (y <=? x)%N then Some (U64 (x - y)) else None
  | Bin l, Bin x, Bin y => Some (Bin (bin_diff (length l) x y))
  | _, _, _ => None
  end.
Definition b_decr (a : bkey) : option bkey :=
  match a with
  | U64 x => if (0 <? x)%N then Some (U64 (x - 1)) else None
  | Bin l => match bin_decr l with Some r => Some (Bin r) | None => None end
  end.

(* ---------- elements, eflag filter ---------- *)

(* btree_elem_item: the value includes the final \r\n *)
Record elem := mkE { bk : bkey; ef : bytes; va : bytes }.

Inductive bitop := OpAnd | OpOr | OpXor.
Inductive cmpop := OpEq | OpNe | OpLt | OpLe | OpGt | OpGe.

(* 508-530 BINARY_AND, BINARY_OR, BINARY_XOR on [length v2] bytes *)
Definition bit1 (o : bitop) (x y : N) : N :=
  match o with OpAnd => N.land x y | OpOr => N.lor x y | OpXor => N.lxor x y end.
Fixpoint bitwise (o : bitop) (a b : bytes) : bytes :=
  match a, b with
  | x :: a', y :: b' => bit1 o x y :: bitwise o a' b'
  | _, _ => []
  end.

(* 535-537 BINARY_COMPARE_OP *)
Definition compare_op (o : cmpop) (a b : bytes) : bool :=
  match o with
  | OpEq => bin_iseq a b | OpNe => bin_isne a b | OpLt => bin_islt a b
  | OpLe => bin_isle a b | OpGt => bin_isgt a b | OpGe => bin_isge a b
  end.

(* eflag_filter; memcached.c 12162-12224 makes all operands of one length (ncompval) *)
Record efilter := mkF { f_ofs : nat; f_bit : option (bitop * bytes); f_op : cmpop; f_vals : list bytes }.
Definition ncompval (f : efilter) : nat := length (hd [] (f_vals f)).
Definition is_ne (o : cmpop) : bool := match o with OpNe => true | _ => false end.
Definition is_eq (o : cmpop) : bool := match o with OpEq => true | _ => false end.

(* 1028-1056 do_btree_elem_filter *)
Definition elem_filter (e : elem) (f : efilter) : bool :=
  if Nat.leb (length (ef e)) (f_ofs f) || Nat.ltb (length (ef e) - f_ofs f) (ncompval f) then is_ne (f_op f)
  else
    let operand := firstn (ncompval f) (skipn (f_ofs f) (ef e)) in
    let operand := match f_bit f with Some (o, v) => bitwise o operand v | None => operand end in
    match f_vals f with
    | [v] => compare_op (f_op f) operand v
    | vs => if existsb (bin_iseq operand) vs then is_eq (f_op f) else negb (is_eq (f_op f))
    end.
Definition passes (fl : option efilter) (e : elem) : bool :=
  match fl with None => true | Some f => elem_filter e f end.

(* ---------- levels, nodes, positions ---------- *)

Definition ITEM_COUNT := 32. (* item_base.h 281 *)
Definition MAX_DEPTH := 7.   (* item_base.h 280 *)

Inductive slot := El (o : option elem) | Cnt (n : nat).
Definition node := list slot.
Definition level := list node.
(* (node, index) for the levels 1, 2, ... up to the root: path[1], path[2], ... *)
Definition path := list (nat * nat).

Fixpoint upd_nth {A} (i : nat) (f : A -> A) (l : list A) : list A :=
  match l, i with
  | [], _ => []
  | x :: r, O => f x :: r
  | x :: r, S i' => x :: upd_nth i' f r
  end.
Definition del_nth {A} (i : nat) (l : list A) : list A := firstn i l ++ skipn (S i) l.
Definition ins_nth {A} (i : nat) (x : A) (l : list A) : list A := firstn i l ++ x :: skipn i l.

Definition wt (s : slot) : nat := match s with El _ => 1 | Cnt n => n end.
Definition nd (L : level) (k : nat) : node := nth k L [].
Definition used (L : level) (k : nat) : nat := length (nd L k).
Definition set_nd (L : level) (k : nat) (n : node) : level := upd_nth k (fun _ => n) L.
(* the child in slot i of node k *)
Definition flat (L : level) (k i : nat) : nat := length (concat (firstn k L)) + i.
Definition slot_wt (L : level) (k i : nat) : nat := match nth_error (nd L k) i with Some s => wt s | None => 0 end.
Definition adj (f : nat -> nat) (s : slot) : slot := match s with Cnt n => Cnt (f n) | El o => El o end.
(* node->ecnt[i] = f(node->ecnt[i]) *)
Definition set_cnt (U : level) (k i : nat) (f : nat -> nat) : level := set_nd U k (upd_nth i (adj f) (nd U k)).
Definition lev (T : list level) (d : nat) : level := nth d T [].

(* BTREE_GET_ELEM_ITEM(leaf, i) *)
Definition elem_at (T : list level) (k i : nat) : option elem :=
  match nth_error (nd (lev T 0) k) i with Some (El (Some e)) => Some e | _ => None end.

(* 338-350 do_btree_get_first_leaf, 352-364 do_btree_get_last_leaf from node k of depth d *)
Fixpoint first_leaf (T : list level) (d k : nat) : nat * path :=
  match d with
  | O => (k, [])
  | S d' => let '(l, p) := first_leaf T d' (flat (lev T d) k 0) in (l, p ++ [(k, 0)])
  end.
Fixpoint last_leaf (T : list level) (d k : nat) : nat * path :=
  match d with
  | O => (k, [])
  | S d' => let i := used (lev T d) k - 1 in
            let '(l, p) := last_leaf T d' (flat (lev T d) k i) in (l, p ++ [(k, i)])
  end.
(* 320-336 do_btree_get_first_elem, do_btree_get_last_elem *)
Definition first_elem (T : list level) (d k : nat) : option elem := elem_at T (fst (first_leaf T d k)) 0.
Definition last_elem (T : list level) (d k : nat) : option elem :=
  let l := fst (last_leaf T d k) in elem_at T l (used (lev T 0) l - 1).
Definition depth (T : list level) : nat := length T - 1.

(* btree_elem_posi of a leaf: pn = None is node == NULL; peq is bkeq *)
Record posi := mkPosi { pn : option nat; px : nat; peq : bool }.

(* 706-714 do_btree_incr_posi, 716-727 do_btree_decr_posi *)
Definition incr_at (L : level) (k i : nat) : option nat * nat :=
  if Nat.ltb (S i) (used L k) then (Some k, S i)
  else (if Nat.ltb (S k) (length L) then Some (S k) else None, 0).
Definition decr_at (L : level) (k i : nat) : option nat * nat :=
  match i with
  | S i' => (Some k, i')
  | O => match k with O => (None, ITEM_COUNT) | S k' => (Some k', used L k' - 1) end
  end.

(* 729-753 do_btree_incr_path, do_btree_decr_path from depth 1 *)
Fixpoint incr_path (Us : list level) (p : path) : option path :=
  match Us, p with
  | U :: Us', (k, i) :: p' =>
      match incr_at U k i with
      | (None, _) => None
      | (Some k', i') => if Nat.eqb k k' then Some ((k', i') :: p')
                         else match incr_path Us' p' with Some q => Some ((k', i') :: q) | None => None end
      end
  | _, _ => None
  end.
Fixpoint decr_path (Us : list level) (p : path) : option path :=
  match Us, p with
  | U :: Us', (k, i) :: p' =>
      match decr_at U k i with
      | (None, _) => None
      | (Some k', i') => if Nat.eqb k k' then Some ((k', i') :: p')
                         else match decr_path Us' p' with Some q => Some ((k', i') :: q) | None => None end
      end
  | _, _ => None
  end.

(* ---------- searching ---------- *)

(* the binary search of 763-789, 816-826, 880-890 with left = lo, right = hi - 1;
   inl: found at this index, inr: not found, left = right + 1 = this index *)
Fixpoint bsearch (fuel : nat) (cmp : nat -> option comparison) (lo hi : nat) : option (nat + nat) :=
  if Nat.ltb lo hi then
    match fuel with
    | O => None
    | S fuel' =>
        let mid := Nat.div (lo + (hi - 1)) 2 in
        match cmp mid with
        | None => None
        | Some Eq => Some (inl mid)
        | Some Lt => bsearch fuel' cmp lo mid
        | Some Gt => bsearch fuel' cmp (S mid) hi
        end
    end
  else Some (inr lo).

Definition cmp_to (b : bkey) (o : option elem) : option comparison :=
  match o with Some e => Some (bcomp b (bk e)) | None => None end.

(* 755-798 do_btree_find_leaf from node k of depth d: leaf, path, and whether the bkey was met
   as a separator (it is then the first element of the leaf) *)
Fixpoint find_leaf (T : list level) (d k : nat) (b : bkey) : option (nat * path * bool) :=
  match d with
  | O => Some (k, [], false)
  | S d' =>
      let L := lev T d in
      match bsearch (used L k) (fun mid => cmp_to b (first_elem T d' (flat L k mid))) 1 (used L k) with
      | None => None
      | Some (inl mid) => let '(l, p) := first_leaf T d' (flat L k mid) in Some (l, p ++ [(k, mid)], true)
      | Some (inr r) => match find_leaf T d' (flat L k (r - 1)) b with
                        | None => None
                        | Some (l, p, f) => Some (l, p ++ [(k, r - 1)], f)
                        end
      end
  end.

(* the search inside the leaf *)
Definition leaf_search (T : list level) (k : nat) (b : bkey) : option (nat + nat) :=
  bsearch (used (lev T 0) k) (fun mid => cmp_to b (elem_at T k mid)) 0 (used (lev T 0) k).

(* 800-841 do_btree_find_insposi: true = ENGINE_ELEM_EEXISTS; leaf, index, path *)
Definition find_insposi (T : list level) (b : bkey) : option (bool * nat * nat * path) :=
  match find_leaf T (depth T) 0 b with
  | None => None
  | Some (k, p, true) => Some (true, k, 0, p)
  | Some (k, p, false) =>
      match leaf_search T k b with
      | None => None
      | Some (inl i) => Some (true, k, i, p)
      | Some (inr i) => Some (false, k, i, p)
      end
  end.

Inductive rtype := SIN | ASC | DSC.
(* bkey_range; r_to = None is to_nbkey == BKEY_NULL *)
Record range := mkR { r_from : bkey; r_to : option bkey }.

(* 693-704 do_btree_bkey_range_type *)
Definition range_type (r : range) : rtype :=
  match r_to r with
  | None => SIN
  | Some t => match bcomp (r_from r) t with Eq => SIN | Lt => ASC | Gt => DSC end
  end.
Definition r_end (r : range) : bkey := match r_to r with Some t => t | None => r_from r end.

(* 843-972 do_btree_find_first (bkrange == NULL: the argument None).  The path is the one of the
   element returned; it is of no use to the callers when there is no element (they only look at
   path[0]). *)
Definition find_first (T : list level) (rt : rtype) (rg : option range) : option (option elem * posi * path) :=
  match rg with
  | None =>
      match rt with
      | SIN => None
      | ASC => let '(l, p) := first_leaf T (depth T) 0 in
               match elem_at T l 0 with
               | Some e => Some (Some e, mkPosi (Some l) 0 false, p)
               | None => None
               end
      | DSC => let '(l, p) := last_leaf T (depth T) 0 in
               let i := used (lev T 0) l - 1 in
               match elem_at T l i with
               | Some e => Some (Some e, mkPosi (Some l) i false, p)
               | None => None
               end
      end
  | Some r =>
      match find_leaf T (depth T) 0 (r_from r) with
      | None => None
      | Some (k, p, true) =>
          match elem_at T k 0 with
          | Some e => Some (Some e, mkPosi (Some k) 0 true, p)
          | None => None
          end
      | Some (k, p, false) =>
          let L := lev T 0 in
          match leaf_search T k (r_from r) with
          | None => None
          | Some (inl i) =>
              match elem_at T k i with
              | Some e => Some (Some e, mkPosi (Some k) i true, p)
              | None => None
              end
          | Some (inr lf) =>
              let nxt := mkPosi (if Nat.ltb (S k) (length L) then Some (S k) else None) 0 false in
              let prv := match k with
                         | O => mkPosi None ITEM_COUNT false
                         | S k' => mkPosi (Some k') (used L k' - 1) false
                         end in
              match rt with
              | SIN =>
                  Some (None,
                        if Nat.ltb 0 lf && Nat.ltb lf (used L k) then mkPosi (Some k) lf false
                        else if Nat.leb (used L k) lf then nxt else prv, p)
              | ASC =>
                  let ps := if Nat.ltb lf (used L k) then mkPosi (Some k) lf false else nxt in
                  match pn ps with
                  | None => Some (None, ps, p)
                  | Some k1 =>
                      match elem_at T k1 (px ps) with
                      | None => None
                      | Some e =>
                          if b_isgt (bk e) (r_end r) then Some (None, ps, p)
                          else if Nat.eqb k1 k then Some (Some e, ps, p)
                          else match incr_path (tl T) p with
                               | None => None
                               | Some q => Some (Some e, ps, q)
                               end
                      end
                  end
              | DSC =>
                  let ps := match lf with S i => mkPosi (Some k) i false | O => prv end in
                  match pn ps with
                  | None => Some (None, ps, p)
                  | Some k1 =>
                      match elem_at T k1 (px ps) with
                      | None => None
                      | Some e =>
                          if b_islt (bk e) (r_end r) then Some (None, ps, p)
                          else if Nat.eqb k1 k then Some (Some e, ps, p)
                          else match decr_path (tl T) p with
                               | None => None
                               | Some q => Some (Some e, ps, q)
                               end
                      end
                  end
              end
          end
      end
  end.

(* 974-999 do_btree_find_next, 1001-1026 do_btree_find_prev *)
Definition find_step (T : list level) (fw : bool) (ps : posi) (rg : option range) : option (option elem * posi) :=
  match pn ps with
  | None => None
  | Some k =>
      match (if fw then incr_at (lev T 0) k (px ps) else decr_at (lev T 0) k (px ps)) with
      | (None, i) => Some (None, mkPosi None i false)
      | (Some k', i) =>
          match elem_at T k' i with
          | None => None
          | Some e =>
              match rg with
              | None => Some (Some e, mkPosi (Some k') i false)
              | Some r =>
                  match bcomp (bk e) (r_end r) with
                  | Eq => Some (Some e, mkPosi (Some k') i true)
                  | Gt => Some (if fw then None else Some e, mkPosi (Some k') i false)
                  | Lt => Some (if fw then Some e else None, mkPosi (Some k') i false)
                  end
              end
          end
      end
  end.

(* ---------- balancing after a split ---------- *)

Inductive dir := Next | Prev.

(* 1118-1170 do_btree_node_item_move: c slots of node k to its neighbour j *)
Definition item_move (L : level) (k j : nat) (dr : dir) (c : nat) : level :=
  match dr with
  | Next => set_nd (set_nd L j (skipn (used L k - c) (nd L k) ++ nd L j)) k (firstn (used L k - c) (nd L k))
  | Prev => set_nd (set_nd L j (nd L j ++ firstn c (nd L k))) k (skipn c (nd L k))
  end.

Definition sum_wt (n : node) : nat := fold_right (fun s a => wt s + a) 0 n.

(* 1229-1236, 1434-1441: the neighbour with fewer slots, or the only one *)
Definition choose (L : level) (nx pv : option nat) : option (dir * nat) :=
  match nx, pv with
  | Some a, Some b => if Nat.ltb (used L a) (used L b) then Some (Next, a) else Some (Prev, b)
  | Some a, None => Some (Next, a)
  | None, Some b => Some (Prev, b)
  | None, None => None
  end.
Definition next_of (L : level) (k : nat) : option nat := if Nat.ltb (S k) (length L) then Some (S k) else None.
Definition prev_of (k : nat) : option nat := match k with O => None | S k' => Some k' end.

(* 1172-1192 do_btree_ecnt_move_split *)
Fixpoint move_split (Us : list level) (p : path) (dr : dir) (c : nat) : option (list level) :=
  match Us, p with
  | U :: Us', (k, i) :: p' =>
      let U1 := set_cnt U k i (fun n => n - c) in
      match (match dr with Next => incr_at U1 k i | Prev => decr_at U1 k i end) with
      | (None, _) => None
      | (Some k', i') =>
          let U2 := set_cnt U1 k' i' (fun n => n + c) in
          if Nat.eqb k k' then Some (U2 :: Us')
          else match move_split Us' p' dr c with Some X => Some (U2 :: X) | None => None end
      end
  | _, _ => None
  end.

(* 1222-1303 do_btree_node_sbalance on node k of level L at position i; Us, p: the levels above
   and the path through them.  Returns the level, the levels above, position and path. *)
Definition sbalance (L : level) (Us : list level) (k i : nat) (p : path)
  : option (level * list level * nat * nat * path) :=
  match choose L (next_of L k) (prev_of k) with
  | None => None
  | Some (dr, j) =>
      let far := match dr with Next => next_of L j | Prev => prev_of j end in
      let c0 := if Nat.ltb 0 (used L j) then Nat.div (used L k - used L j) 2
                else match far with None => Nat.div (used L k) 10 | Some _ => Nat.div (used L k) 2 end in
      let c := if Nat.eqb c0 0 then 1 else c0 in
      let moved := match dr with Next => skipn (used L k - c) (nd L k) | Prev => firstn c (nd L k) end in
      let L' := item_move L k j dr c in
      match move_split Us p dr (sum_wt moved) with
      | None => None
      | Some Us' =>
          match dr with
          | Next =>
              if Nat.leb (used L' k) i then
                match incr_path Us' p with
                | None => None
                | Some q => Some (L', Us', j, i - used L' k, q)
                end
              else Some (L', Us', k, i, p)
          | Prev =>
              if Nat.ltb i c then
                match decr_path Us' p with
                | None => None
                | Some q => Some (L', Us', j, i + (used L' j - c), q)
                end
              else Some (L', Us', k, i - c, p)
          end
      end
  end.

Definition half_full (L : level) (o : option nat) : bool :=
  match o with Some j => Nat.ltb (used L j) (Nat.div ITEM_COUNT 2) | None => false end.

(* 1305-1357 do_btree_node_link with a parent, as used at 1398-1415: the new node goes before
   (Prev) or after (Next) node k, then the slots are balanced *)
Definition link_split (L : level) (Us : list level) (k i : nat) (p : path)
  : option (level * list level * nat * nat * path) :=
  let dr := match prev_of k, next_of L k with
            | None, None => if Nat.ltb i (Nat.div ITEM_COUNT 2) then Prev else Next
            | None, Some _ => Prev
            | Some _, _ => Next
            end in
  match Us, p with
  | U :: Us', (pk, pi) :: p' =>
      if Nat.leb pi (used U pk) then
        match dr with
        | Next => sbalance (ins_nth (S k) [] L) (set_nd U pk (ins_nth (S pi) (Cnt 0) (nd U pk)) :: Us') k i p
        | Prev => sbalance (ins_nth k [] L) (set_nd U pk (ins_nth pi (Cnt 0) (nd U pk)) :: Us') (S k) i
                           ((pk, S pi) :: p')
        end
      else None
  | _, _ => None
  end.

Inductive sres := SplitOk (T : list level) (k i : nat) (p : path) | SplitNoMem.

(* 1359-1428 do_btree_node_split on the full node k of depth d; T: this level and the levels above.
   The levels above are treated first (the loop 1398 runs from the top down).  mem: how many node
   allocations will succeed; cc: info->ccnt. *)
Fixpoint split (T : list level) (d k i : nat) (p : path) (mem cc : nat) : option sres :=
  match T with
  | [] => None
  | L :: Us =>
      if half_full L (next_of L k) || half_full L (prev_of k) then
        match sbalance L Us k i p with
        | None => None
        | Some (L', Us', k', i', p') => Some (SplitOk (L' :: Us') k' i' p')
        end
      else
        match mem with
        | O => Some SplitNoMem
        | S mem1 =>
            if Nat.ltb (S d) MAX_DEPTH then
              let above :=
                match Us with
                | [] => match mem1 with
                        | O => Some SplitNoMem
                        | S _ => Some (SplitOk [[[Cnt cc]]] 0 0 [])
                        end
                | U :: _ =>
                    match p with
                    | [] => None
                    | (pk, pi) :: p' =>
                        if Nat.leb ITEM_COUNT (used U pk) then split Us (S d) pk pi p' mem1 cc
                        else Some (SplitOk Us pk pi p')
                    end
                end in
              match above with
              | None => None
              | Some SplitNoMem => Some SplitNoMem
              | Some (SplitOk Us' pk pi p') =>
                  match link_split L Us' k i ((pk, pi) :: p') with
                  | None => None
                  | Some (L', Us2, k', i', q) => Some (SplitOk (L' :: Us2) k' i' q)
                  end
              end
            else None
        end
  end.

(* ---------- merging after a delete ---------- *)

Definition alive (L : level) (j : nat) : bool := negb (Nat.eqb (used L j) 0).
Definition next_alive (L : level) (k : nat) : option nat := find (alive L) (seq (S k) (length L - S k)).
Definition prev_alive (L : level) (k : nat) : option nat := find (alive L) (rev (seq 0 k)).

(* the loops of 1206-1215: step until a slot with a non-zero count.  (Stepping back through a node
   without slots takes 65536 steps in the code, because indx wraps around; here one.) *)
Fixpoint seek (fuel : nat) (U : level) (dr : dir) (k i : nat) : option (nat * nat) :=
  match fuel with
  | O => None
  | S fuel' =>
      match (match dr with Next => incr_at U k i | Prev => if Nat.eqb (used U k) 0 then decr_at U k 0 else decr_at U k i end) with
      | (None, _) => None
      | (Some k', i') => if Nat.eqb (used U k') 0 || Nat.eqb (slot_wt U k' i') 0 then seek fuel' U dr k' i'
                         else Some (k', i')
      end
  end.

(* 1194-1220 do_btree_ecnt_move_merge *)
Fixpoint move_merge (Us : list level) (p : path) (dr : dir) (c : nat) : option (list level) :=
  match Us, p with
  | U :: Us', (k, i) :: p' =>
      let U1 := set_cnt U k i (fun n => n - c) in
      match seek (S (length (concat U)) + length U) U1 dr k i with
      | None => None
      | Some (k', i') =>
          let U2 := set_cnt U1 k' i' (fun n => n + c) in
          if Nat.eqb k k' then Some (U2 :: Us')
          else match move_merge Us' p' dr c with Some X => Some (U2 :: X) | None => None end
      end
  | _, _ => None
  end.

(* 1430-1449 do_btree_node_mbalance: all slots of node k go to a neighbour *)
Definition mbalance (L : level) (Us : list level) (k : nat) (p : path) : option (level * list level) :=
  match choose L (next_alive L k) (prev_alive L k), Us, p with
  | Some (dr, j), U :: _, (pk, pi) :: _ =>
      match move_merge Us p dr (slot_wt U pk pi) with
      | None => None
      | Some Us' => Some (item_move L k j dr (used L k), Us')
      end
  | _, _, _ => None
  end.

Definition is_null (s : slot) : bool := match s with El None => true | Cnt 0 => true | _ => false end.

(* 1498-1529 do_btree_node_remove_null_items on node k, [start] = posi->indx if forward, else 0 *)
Definition remove_null (n : node) (start null_count : nat) : option node :=
  if Nat.ltb null_count (length n) then
    let rest := skipn start n in
    let keep := filter (fun s => negb (is_null s)) rest in
    if Nat.eqb (length rest - length keep) null_count then Some (firstn start n ++ keep) else None
  else if Nat.eqb null_count (length n) then Some [] else None.

Definition is_empty (n : node) : bool := match n with [] => true | _ => false end.

(* the same on an index node: its detached children leave their level *)
Definition remove_null_kids (L U : level) (k start null_count : nat) : option (level * level) :=
  match remove_null (nd U k) start null_count with
  | None => None
  | Some n =>
      let a := flat U k 0 in
      Some (firstn a L ++ filter (fun x => negb (is_empty x)) (firstn (used U k) (skipn a L)) ++ skipn (a + used U k) L,
            set_nd U k n)
  end.

Definition mergeable (L : level) (k : nat) : bool :=
  Nat.ltb (used L k) (Nat.div ITEM_COUNT 2) && (half_full L (prev_alive L k) || half_full L (next_alive L k)).

(* 1580-1599, the first loop for several nodes: detach the empty ones (see the head of the file);
   what remains is the assertion on ecnt and that the positions exist *)
Fixpoint detach_loop (n : nat) (fw : bool) (L U : level) (k i : nat) : bool :=
  match n with
  | O => true
  | S n' =>
      Nat.ltb i (used U k) &&
      (if Nat.eqb (used L (flat U k i)) 0 then Nat.eqb (slot_wt U k i) 0 else true) &&
      match n' with
      | O => true
      | _ => match (if fw then incr_at U k i else decr_at U k i) with
             | (None, _) => false
             | (Some k', i') => detach_loop n' fw L U k' i'
             end
      end
  end.

(* 1601-1634, the second loop; upth = up, s_posi = (sk, si), cu = cur_unlink_cnt,
   pc = par_node_count *)
Fixpoint merge_loop (n : nat) (fw : bool) (L : level) (Us : list level) (up : path) (sk si cu pc : nat)
  : option (level * list level * nat) :=
  match n, Us, up with
  | S n', U :: _, (k, i) :: _ =>
      let c := flat U k i in
      let step :=
        if Nat.eqb (used L c) 0 then Some (L, Us, S cu)
        else if mergeable L c then
          match mbalance L Us c up with
          | Some (L1, U1 :: Us1) => if Nat.eqb (slot_wt U1 k i) 0 then Some (L1, U1 :: Us1, S cu) else None
          | _ => None
          end
        else Some (L, Us, cu) in
      match step with
      | Some (L1, U1 :: Us1, cu1) =>
          let flush :=
            if Nat.ltb 0 cu1 then
              match remove_null_kids L1 U1 sk (if fw then si else 0) cu1 with
              | Some (L2, U2) => Some (L2, U2 :: Us1)
              | None => None
              end
            else Some (L1, U1 :: Us1) in
          match n' with
          | O => match flush with
                 | Some (L2, Us2) => Some (L2, Us2, if Nat.ltb 0 cu1 then S pc else pc)
                 | None => None
                 end
          | _ =>
              match (if fw then incr_path (U1 :: Us1) up else decr_path (U1 :: Us1) up) with
              | Some ((k', i') :: up') =>
                  if Nat.eqb sk k' then merge_loop n' fw L1 (U1 :: Us1) ((k', i') :: up') sk si cu1 pc
                  else match flush with
                       | Some (L2, Us2) => merge_loop n' fw L2 Us2 ((k', i') :: up') k' i' 0 (S pc)
                       | None => None
                       end
              | _ => None
              end
          end
      | _ => None
      end
  | _, _, _ => None
  end.

(* 1451-1486 do_btree_node_unlink of node k whose slot in the parent is (pk, pi) *)
Definition node_unlink (L U : level) (k pk pi : nat) : option (level * level) :=
  if Nat.eqb (slot_wt U pk pi) 0 then Some (del_nth k L, set_nd U pk (del_nth pi (nd U pk))) else None.

(* 1531-1653 do_btree_node_merge; k = path[d].node, p the path above.  true: the root was reached *)
Fixpoint merge (fuel : nat) (fw : bool) (cur k : nat) (L : level) (Us : list level) (p : path)
  : option (bool * list level) :=
  match fuel with
  | O => None
  | S fuel' =>
      match cur with
      | O => Some (false, L :: Us)
      | S O =>
          match Us with
          | [] => Some (true, [L])
          | U :: Us1 =>
              match p with
              | [] => None
              | (pk, pi) :: p' =>
                  let go (r : option (level * level)) (Us2 : list level) :=
                    match r with
                    | None => None
                    | Some (L1, U1) =>
                        match merge fuel' fw 1 pk U1 Us2 p' with
                        | Some (b, X) => Some (b, L1 :: X)
                        | None => None
                        end
                    end in
                  if Nat.eqb (used L k) 0 then go (node_unlink L U k pk pi) Us1
                  else if mergeable L k then
                    match mbalance L Us k p with
                    | Some (L1, U1 :: Us2) => go (node_unlink L1 U1 k pk pi) Us2
                    | _ => None
                    end
                  else Some (false, L :: Us)
              end
          end
      | _ =>
          match Us, p with
          | U :: _, (pk, pi) :: p' =>
              if detach_loop cur fw L U pk pi then
                match merge_loop cur fw L Us p pk pi 0 0 with
                | Some (L1, U1 :: Us1, pc) =>
                    match merge fuel' fw pc pk U1 Us1 p' with
                    | Some (b, X) => Some (b, L1 :: X)
                    | None => None
                    end
                | _ => None
                end
              else None
          | _, _ => None
          end
      end
  end.

(* 1551-1563: the root has been reached: free it if it is empty, replace it by its only child *)
Fixpoint collapse (fuel : nat) (T : list level) : list level :=
  match fuel with
  | O => T
  | S fuel' => if Nat.eqb (used (last T []) 0) 1 && Nat.ltb 1 (length T) then collapse fuel' (removelast T) else T
  end.
Definition node_merge (fw : bool) (cur k : nat) (T : list level) (p : path) : option (list level) :=
  match T with
  | [] => None
  | L :: Us =>
      match merge (S (length T)) fw cur k L Us p with
      | None => None
      | Some (false, X) => Some X
      | Some (true, X) => if Nat.eqb (used (last X []) 0) 0 then Some [] else Some (collapse (length X) X)
      end
  end.

(* path[i].node->ecnt[path[i].indx] changed by f for i = 1 .. root->ndepth *)
Fixpoint adj_path (Us : list level) (p : path) (f : nat -> nat) : list level :=
  match Us, p with
  | U :: Us', (k, i) :: p' => set_cnt U k i f :: adj_path Us' p' f
  | _, _ => Us
  end.
(* assert(ecnt >= c) along the path *)
Fixpoint path_ge (Us : list level) (p : path) (c : nat) : bool :=
  match Us, p with
  | U :: Us', (k, i) :: p' => Nat.leb c (slot_wt U k i) && path_ge Us' p' c
  | _, _ => true
  end.

(* 1655-1692 do_btree_elem_unlink of the element (k, i); the tree afterwards ([] = no root) *)
Definition elem_unlink (T : list level) (k i : nat) (p : path) : option (list level) :=
  match T with
  | [] => None
  | L :: Us =>
      let L1 := set_nd L k (del_nth i (nd L k)) in
      let T1 := L1 :: adj_path Us p pred in
      if Nat.ltb (used L1 k) (Nat.div ITEM_COUNT 2) then node_merge true 1 k T1 p else Some T1
  end.

(* ---------- walking over a range ---------- *)

(* the variables of the loops in do_btree_elem_get 2379-2419 and do_btree_elem_delete 1936-1985 *)
Record wk := mkW { wT : list level; wc : posi; wsk : nat; wsi : nat; wup : path;
                   wcur : nat; wtot : nat; wnodes : nat; wskip : nat; wacc : list elem }.

Definition null_slot (T : list level) (k i : nat) : list level :=
  match T with
  | [] => []
  | L :: Us => set_nd L k (upd_nth i (fun _ => El None) (nd L k)) :: Us
  end.

(* 2400-2411, 2422-2432 (1963-1974, 1986-1994): close the leaf (wsk, wsi) *)
Definition leave (w : wk) (fw del : bool) : option wk :=
  if Nat.ltb 0 (wcur w) then
    let w' T := mkW T (wc w) (wsk w) (wsi w) (wup w) 0 (wtot w + wcur w) (wnodes w) (wskip w) (wacc w) in
    if del then
      match wT w with
      | [] => None
      | L :: Us =>
          match remove_null (nd L (wsk w)) (if fw then wsi w else 0) (wcur w) with
          | None => None
          | Some n =>
              if path_ge Us (wup w) (wcur w) then
                Some (w' (set_nd L (wsk w) n :: adj_path Us (wup w) (fun x => x - wcur w)))
              else None
          end
      end
    else Some (w' (wT w))
  else Some w.

Fixpoint walk (fuel : nat) (fw : bool) (rg : option range) (fl : option efilter) (ofs cnt : nat) (del : bool)
         (w : wk) (e : elem) : option wk :=
  match fuel with
  | O => None
  | S fuel' =>
      let hit := passes fl e in
      let take := hit && negb (Nat.ltb (wskip w) ofs) in
      let w1 :=
        if take then
          mkW (if del then match pn (wc w) with Some k => null_slot (wT w) k (px (wc w)) | None => wT w end else wT w)
              (wc w) (wsk w) (wsi w) (wup w) (S (wcur w)) (wtot w) (wnodes w) (wskip w) (wacc w ++ [e])
        else if hit then
          mkW (wT w) (wc w) (wsk w) (wsi w) (wup w) (wcur w) (wtot w) (wnodes w) (S (wskip w)) (wacc w)
        else w in
      if take && Nat.ltb 0 cnt && Nat.leb cnt (wtot w1 + wcur w1) then Some w1
      else if peq (wc w1) then Some w1
      else
        match find_step (wT w1) fw (wc w1) rg with
        | None => None
        | Some (None, c) =>
            Some (mkW (wT w1) c (wsk w1) (wsi w1) (wup w1) (wcur w1) (wtot w1) (wnodes w1) (wskip w1) (wacc w1))
        | Some (Some e', c) =>
            match pn c with
            | None => None
            | Some k =>
                if Nat.eqb k (wsk w1) then
                  walk fuel' fw rg fl ofs cnt del
                    (mkW (wT w1) c (wsk w1) (wsi w1) (wup w1) (wcur w1) (wtot w1) (wnodes w1) (wskip w1) (wacc w1)) e'
                else
                  match leave w1 fw del with
                  | None => None
                  | Some w2 =>
                      match (if del && Nat.ltb 0 (depth (wT w2)) then
                               if fw then incr_path (tl (wT w2)) (wup w2) else decr_path (tl (wT w2)) (wup w2)
                             else Some (wup w2)) with
                      | None => None
                      | Some up =>
                          walk fuel' fw rg fl ofs cnt del
                            (mkW (wT w2) c k (px c) up (wcur w2) (wtot w2) (S (wnodes w2)) (wskip w2) (wacc w2)) e'
                      end
                  end
            end
        end
  end.

Inductive rc := SUCC | EEXISTS | ENOENT | ENOMEM | EOVERFLOW | EBKEYOOR | EBADBKEY | EBADEFLAG | EINVAL | EBADVALUE.
Inductive ovact := OvError | OvSmallest | OvLargest | OvSmallestSilent | OvLargestSilent.
Inductive btype := TUnknown | TU64 | TBin.

(* btree_meta_info; b_T = [] is root == NULL; b_max = (mcnt > 0 ? mcnt : config->max_btree_size) *)
Record bt := mkBt { b_T : list level; b_n : nat; b_max : nat; b_ovf : ovact; b_trim : bool; b_type : btype;
                    b_range : option bkey }.
Definition set_T (s : bt) (T : list level) (n : nat) : bt := mkBt T n (b_max s) (b_ovf s) (b_trim s) (b_type s) (b_range s).
Definition set_trim (s : bt) (t : bool) : bt := mkBt (b_T s) (b_n s) (b_max s) (b_ovf s) t (b_type s) (b_range s).

Definition smallest (o : ovact) : bool := match o with OvSmallest | OvSmallestSilent => true | _ => false end.
Definition largest (o : ovact) : bool := match o with OvLargest | OvLargestSilent => true | _ => false end.
Definition loud (o : ovact) : bool := match o with OvSmallest | OvLargest => true | _ => false end.

(* 2292-2321 do_btree_overlapped_with_trimmed_space *)
Definition overlapped (s : bt) (T : list level) (ps : posi) (rt : rtype) : bool :=
  let asc := match rt with ASC => true | _ => false end in
  let dsc := match rt with DSC => true | _ => false end in
  match b_ovf s with
  | OvSmallest =>
      match pn ps with
      | None => Nat.eqb (px ps) ITEM_COUNT
      | Some k => Nat.eqb k 0 && Nat.eqb (px ps) 0 && asc
      end
  | OvLargest =>
      match pn ps with
      | None => Nat.eqb (px ps) 0
      | Some k => Nat.eqb (S k) (length (lev T 0)) && Nat.eqb (S (px ps)) (used (lev T 0) k) && dsc
      end
  | _ => false
  end.

Definition total (T : list level) : nat := length (concat (lev T 0)).

(* 2323-2473 do_btree_elem_get: elements found, potentialbkeytrim, new tree and count.
   1892-2019 do_btree_elem_delete is the same code without elem_array and trim signals. *)
Definition elem_get (s : bt) (rt : rtype) (rg : option range) (fl : option efilter) (ofs cnt : nat) (del : bool)
  : option (list elem * bool * bt) :=
  let T := b_T s in
  match find_first T rt rg with
  | None => None
  | Some (None, ps, _) => Some ([], b_trim s && overlapped s T ps rt, s)
  | Some (Some e, ps, p) =>
      match pn ps with
      | None => None
      | Some k =>
          match rt with
          | SIN =>
              if peq ps then
                if Nat.eqb ofs 0 && passes fl e then
                  if del then
                    match elem_unlink T k (px ps) p with
                    | None => None
                    | Some T' => Some ([e], false, set_T s T' (pred (b_n s)))
                    end
                  else Some ([e], false, s)
                else Some ([], false, s)
              else None
          | _ =>
              let fw := match rt with ASC => true | _ => false end in
              let t1 := negb (peq ps) && b_trim s && overlapped s T ps rt in
              match walk (S (total T)) fw rg fl ofs cnt del
                         (mkW T (mkPosi (Some k) (px ps) false) k (px ps) p 0 0 1 0 []) e with
              | None => None
              | Some w =>
                  match leave w fw del with
                  | None => None
                  | Some w' =>
                      let t2 := match pn (wc w') with
                                | None => b_trim s && overlapped s T (wc w') rt
                                | Some _ => false
                                end in
                      if del && Nat.ltb 0 (wtot w') then
                        match node_merge fw (wnodes w') k (wT w') p with
                        | None => None
                        | Some T' => Some (wacc w', t1 || t2, set_T s T' (b_n s - wtot w'))
                        end
                      else Some (wacc w', t1 || t2, s)
                  end
              end
          end
      end
  end.

(* 1892-2019 do_btree_elem_delete *)
Definition elem_delete (s : bt) (rt : rtype) (rg : option range) (fl : option efilter) (ofs cnt : nat)
  : option (nat * bt) :=
  match b_T s with
  | [] => Some (0, s)
  | _ => match elem_get s rt rg fl ofs cnt true with
         | None => None
         | Some (l, _, s') => Some (length l, s')
         end
  end.

(* ---------- overflow ---------- *)

Inductive ovt := OvNone | OvCount | OvRange.

(* 2049-2122 do_btree_overflow_check (info->ccnt >= 1) *)
Definition overflow_check (s : bt) (T : list level) (e : elem) : option (rc * ovt * bt) :=
  match first_elem T (depth T) 0, last_elem T (depth T) 0 with
  | Some mn, Some mx =>
      let step1 :=
        match b_range s with
        | None => Some (SUCC, OvNone)
        | Some r =>
            if b_islt (bk e) (bk mn) then
              match b_diff r (bk mx) (bk e) with
              | None => None
              | Some x => if b_isgt x r then if largest (b_ovf s) then Some (SUCC, OvRange) else Some (EBKEYOOR, OvNone)
                          else Some (SUCC, OvNone)
              end
            else if b_isgt (bk e) (bk mx) then
              match b_diff r (bk e) (bk mn) with
              | None => None
              | Some x => if b_isgt x r then if smallest (b_ovf s) then Some (SUCC, OvRange) else Some (EBKEYOOR, OvNone)
                          else Some (SUCC, OvNone)
              end
            else Some (SUCC, OvNone)
        end in
      match step1 with
      | None => None
      | Some (SUCC, OvNone) =>
          if Nat.leb (b_max s) (b_n s) then
            match b_ovf s with
            | OvError => Some (EOVERFLOW, OvNone, s)
            | OvSmallest | OvSmallestSilent =>
                if b_islt (bk e) (bk mn) then Some (EBKEYOOR, OvNone, if loud (b_ovf s) then set_trim s true else s)
                else Some (SUCC, OvCount, s)
            | OvLargest | OvLargestSilent =>
                if b_isgt (bk e) (bk mx) then Some (EBKEYOOR, OvNone, if loud (b_ovf s) then set_trim s true else s)
                else Some (SUCC, OvCount, s)
            end
          else Some (SUCC, OvNone, s)
      | Some (c, t) => Some (c, t, s)
      end
  | _, _ => None
  end.

(* 2124-2201 do_btree_overflow_trim: the element trimmed by count, new state *)
Definition overflow_trim (s : bt) (e : elem) (t : ovt) : option (option elem * bt) :=
  let T := b_T s in
  match t with
  | OvNone => None
  | OvRange =>
      match b_range s, first_elem T (depth T) 0, last_elem T (depth T) 0 with
      | Some r, Some mn, Some mx =>
          let rg :=
            if smallest (b_ovf s) then
              match b_diff r (bk e) r with
              | Some x => match b_decr x with Some to => Some (mkR (bk mn) (Some to)) | None => None end
              | None => None
              end
            else
              match b_diff r (bk mx) (bk e) with
              | Some x1 =>
                  match b_diff r x1 r with
                  | Some x2 =>
                      match b_decr x2 with
                      | Some x3 => match b_diff r (bk mx) x3 with Some from => Some (mkR from (Some (bk mx))) | None => None end
                      | None => None
                      end
                  | None => None
                  end
              | None => None
              end in
          match rg with
          | None => None
          | Some g =>
              match elem_delete s (range_type g) (Some g) None 0 0 with
              | None => None
              | Some (c, s') =>
                  if Nat.ltb 0 c && Nat.ltb 0 (b_n s') then
                    Some (None, if loud (b_ovf s) then set_trim s' false else s')
                  else None
              end
          end
      | _, _, _ => None
      end
  | OvCount =>
      let '(k, p) := if smallest (b_ovf s) then first_leaf T (depth T) 0 else last_leaf T (depth T) 0 in
      let i := if smallest (b_ovf s) then 0 else used (lev T 0) k - 1 in
      match elem_at T k i with
      | None => None
      | Some x =>
          match elem_unlink T k i p with
          | None => None
          | Some T' => let s' := set_T s T' (pred (b_n s)) in
                       Some (Some x, if loud (b_ovf s) then set_trim s' true else s')
          end
      end
  end.

(* ---------- insert, replace ---------- *)

Definition set_elem (T : list level) (k i : nat) (e : elem) : list level :=
  match T with
  | [] => []
  | L :: Us => set_nd L k (upd_nth i (fun _ => El (Some e)) (nd L k)) :: Us
  end.
Definition ins_elem (T : list level) (k i : nat) (p : path) (e : elem) : list level :=
  match T with
  | [] => []
  | L :: Us => set_nd L k (ins_nth i (El (Some e)) (nd L k)) :: adj_path Us p S
  end.

Inductive ires := INew (trimmed : option elem) | IReplaced | IErr (c : rc).

(* 2203-2290 do_btree_elem_link.  sticky: the item is sticky and the sticky memory is used up *)
Definition elem_link (s : bt) (e : elem) (rep sticky : bool) (mem : nat) : option (ires * bt) :=
  match find_insposi (b_T s) (bk e) with
  | None => None
  | Some (true, k, i, _) =>
      if rep then
        match elem_at (b_T s) k i with
        | None => None
        | Some x =>
            if sticky && Nat.ltb (length (ef x) + length (va x)) (length (ef e) + length (va e))
            then Some (IErr ENOMEM, s)
            else Some (IReplaced, set_T s (set_elem (b_T s) k i e) (b_n s))
        end
      else Some (IErr EEXISTS, s)
  | Some (false, k, i, p) =>
      if sticky then Some (IErr ENOMEM, s)
      else
        match (if Nat.leb ITEM_COUNT (used (lev (b_T s) 0) k) then split (b_T s) 0 k i p mem (b_n s)
               else Some (SplitOk (b_T s) k i p)) with
        | None => None
        | Some SplitNoMem => Some (IErr ENOMEM, s)
        | Some (SplitOk T k i p) =>
            let s1 := set_T s T (b_n s) in
            match (if Nat.ltb 0 (b_n s) then overflow_check s1 T e
                   else Some (SUCC, OvNone, mkBt T (b_n s) (b_max s) (b_ovf s) (b_trim s)
                                                 (match bk e with U64 _ => TU64 | Bin _ => TBin end) (b_range s))) with
            | None => None
            | Some (SUCC, ot, s2) =>
                let s3 := set_T s2 (ins_elem T k i p e) (S (b_n s)) in
                match ot with
                | OvNone => Some (INew None, s3)
                | _ => match overflow_trim s3 e ot with
                       | None => None
                       | Some (x, s4) => Some (INew x, s4)
                       end
                end
            | Some (c, _, s2) => Some (IErr c, s2)
            end
        end
  end.

(* 2549-2555 and elsewhere: the type check of a bkey *)
Definition bad_type (s : bt) (b : bkey) : bool :=
  match b_type s, b with TU64, Bin _ => true | TBin, U64 _ => true | _, _ => false end.
Definition has_type (s : bt) : bool :=
  Nat.ltb 0 (b_n s) || match b_range s with Some _ => true | None => false end.

(* do_btree_node_alloc(0) and do_btree_node_link(info, r_node, NULL) *)
Definition new_root : list level := [[[]]].

(* 2543-2585 do_btree_elem_insert; mem_root: the allocation of the first root succeeds *)
Definition elem_insert (s : bt) (e : elem) (rep sticky mem_root : bool) (mem : nat) : option (ires * bt) :=
  if has_type s && bad_type s (bk e) then Some (IErr EBADBKEY, s)
  else
    match b_T s with
    | [] =>
        if mem_root then
          match elem_link (set_T s new_root (b_n s)) e rep sticky mem with
          | Some (IErr c, s') => Some (IErr c, set_T s' [] (b_n s'))
          | r => r
          end
        else Some (IErr ENOMEM, s)
    | _ => elem_link s e rep sticky mem
    end.

(* eflag_update: a new eflag, or bytes combined with a part of the eflag *)
Inductive eupd := ESet (v : bytes) | EBit (o : bitop) (ofs : nat) (v : bytes).

(* 1725-1825 do_btree_elem_update *)
Definition apply_eupd (u : option eupd) (f : bytes) : bytes :=
  match u with
  | None => f
  | Some (ESet v) => v
  | Some (EBit o ofs v) => firstn ofs f ++ bitwise o (firstn (length v) (skipn ofs f)) v ++ skipn (ofs + length v) f
  end.
Definition bad_eupd (u : option eupd) (f : bytes) : bool :=
  match u with
  | Some (EBit _ ofs v) => Nat.ltb 0 (length v) && (Nat.leb (length f) ofs || Nat.ltb (length f - ofs) (length v))
  | _ => false
  end.
Definition elem_update (s : bt) (b : bkey) (u : option eupd) (v : option bytes) (held sticky mem : bool) : option (rc * bt) :=
  match b_T s with
  | [] => Some (ENOENT, s)
  | T =>
      match find_first T SIN (Some (mkR b None)) with
      | None => None
      | Some (None, _, _) => Some (ENOENT, s)
      | Some (Some x, ps, _) =>
          match pn ps, peq ps with
          | Some k, true =>
              if bad_eupd u (ef x) then Some (EBADEFLAG, s)
              else
                let f := apply_eupd u (ef x) in
                let w := match v with Some w => w | None => va x end in
                let s' := set_T s (set_elem T k (px ps) (mkE (bk x) f w)) (b_n s) in
                if negb held && Nat.eqb (length (ef x) + length (va x)) (length f + length w) then Some (SUCC, s')
                else if sticky && Nat.ltb (length (ef x) + length (va x)) (length f + length w) then Some (ENOMEM, s)
                else if mem then Some (SUCC, s') else Some (ENOMEM, s)
          | _, _ => None
          end
      end
  end.

(* the bytes up to the first NUL *)
Fixpoint cstr (s : bytes) : bytes :=
  match s with [] => [] | c :: r => if (c =? 0)%N then [] else c :: cstr r end.
Definition num_val (n : N) : bytes := dec_text n ++ [13%N; 10%N].

Inductive ares := ANum (n : N) | AErr (c : rc).

(* 2587-2679 do_btree_elem_arithmetic and the part of btree_elem_arithmetic 3843-3892 inside the lock.
   tail: the memory after the value up to the next NUL (strchr in safe_strtoull may reach it) *)
Definition elem_arith (s : bt) (b : bkey) (incr create : bool) (delta initial : N) (f : bytes) (tail : bytes)
           (held sticky mem_root mem_elem : bool) (mem : nat) : option (ares * bt) :=
  if has_type s && bad_type s b then Some (AErr EBADBKEY, s)
  else
    let fresh := match b_T s with [] => true | _ => false end in
    if fresh && negb create then Some (AErr ENOENT, s)
    else if fresh && negb mem_root then Some (AErr ENOMEM, s)
    else
      let s1 := if fresh then set_T s new_root (b_n s) else s in
      let undo s' := if fresh then set_T s' [] (b_n s') else s' in
      match find_first (b_T s1) SIN (Some (mkR b None)) with
      | None => None
      | Some (None, _, _) =>
          if negb create then Some (AErr ENOENT, undo s1)
          else if negb mem_elem then Some (AErr ENOMEM, undo s1)
          else
            match elem_link s1 (mkE b f (num_val initial)) false sticky mem with
            | None => None
            | Some (IErr c, s2) => Some (AErr c, undo s2)
            | Some (_, s2) => Some (ANum initial, s2)
            end
      | Some (Some x, ps, _) =>
          match pn ps with
          | None => None
          | Some k =>
              match safe_strtoull (cstr (va x ++ tail)) with
              | None => Some (AErr EINVAL, s1)
              | Some v =>
                  if Nat.eqb (length (va x)) 2 then Some (AErr EINVAL, s1)
                  else
                    let v' := if incr then ((v + delta) mod two64)%N else if (v <=? delta)%N then 0%N else (v - delta)%N in
                    let s2 := set_T s1 (set_elem (b_T s1) k (px ps) (mkE (bk x) (ef x) (num_val v'))) (b_n s1) in
                    if (negb held && Nat.eqb (length (va x)) (length (num_val v'))) || mem_elem
                    then Some (ANum v', s2) else Some (AErr ENOMEM, s1)
              end
          end
      end.

(* ---------- count and positions ---------- *)

Fixpoint count_loop (fuel : nat) (T : list level) (fw : bool) (rg : range) (fl : option efilter) (ps : posi) (e : elem) (n : nat)
  : option nat :=
  match fuel with
  | O => None
  | S fuel' =>
      let n1 := if passes fl e then S n else n in
      if peq ps then Some n1
      else match find_step T fw ps (Some rg) with
           | None => None
           | Some (None, _) => Some n1
           | Some (Some e', ps') => count_loop fuel' T fw rg fl ps' e' n1
           end
  end.

(* 2475-2541 do_btree_elem_count *)
Definition elem_count (s : bt) (rg : range) (fl : option efilter) : option nat :=
  match b_T s with
  | [] => Some 0
  | T =>
      let rt := range_type rg in
      let full :=
        match rt, fl with
        | SIN, _ => Some false
        | _, Some _ => Some false
        | _, None =>
            match first_elem T (depth T) 0, last_elem T (depth T) 0 with
            | Some mn, Some mx =>
                let '(lo, hi) := match rt with ASC => (r_from rg, r_end rg) | _ => (r_end rg, r_from rg) end in
                Some (negb (match bcomp lo (bk mn) with Gt => true | _ => false end) &&
                      negb (match bcomp hi (bk mx) with Lt => true | _ => false end))
            | _, _ => None
            end
        end in
      match full with
      | None => None
      | Some true => Some (b_n s)
      | Some false =>
          match find_first T rt (Some rg) with
          | None => None
          | Some (None, _, _) => Some 0
          | Some (Some e, ps, _) =>
              match rt with
              | SIN => if peq ps then Some (if passes fl e then 1 else 0) else None
              | _ => count_loop (S (total T)) T (match rt with ASC => true | _ => false end) rg fl
                                (mkPosi (pn ps) (px ps) false) e 0
              end
          end
      end
  end.

(* 2681-2696 do_btree_posi_from_path *)
Fixpoint path_rank (Us : list level) (p : path) : nat :=
  match Us, p with
  | U :: Us', (k, i) :: p' => sum_wt (firstn i (nd U k)) + path_rank Us' p'
  | _, _ => 0
  end.
Definition posi_from_path (s : bt) (i : nat) (p : path) (asc : bool) : nat :=
  let r := i + path_rank (tl (b_T s)) p in
  if asc then r else b_n s - r - 1.

(* 2698-2717 do_btree_posi_find; inner None: not found *)
Definition posi_find (s : bt) (b : bkey) (asc : bool) : option (option (nat * elem * nat * nat)) :=
  match b_T s with
  | [] => Some None
  | T =>
      match find_first T SIN (Some (mkR b None)) with
      | None => None
      | Some (None, _, _) => Some None
      | Some (Some e, ps, p) =>
          match pn ps, peq ps with
          | Some k, true => Some (Some (posi_from_path s (px ps) p asc, e, k, px ps))
          | _, _ => None
          end
      end
  end.

(* 2719-2737 do_btree_elem_batch_get *)
Fixpoint batch_get (count : nat) (T : list level) (fw : bool) (k i : nat) : option (list elem) :=
  match count with
  | O => Some []
  | S c =>
      match (if fw then incr_at (lev T 0) k i else decr_at (lev T 0) k i) with
      | (None, _) => Some []
      | (Some k', i') =>
          match elem_at T k' i' with
          | None => None
          | Some e => match batch_get c T fw k' i' with Some l => Some (e :: l) | None => None end
          end
      end
  end.

(* 2739-2776 do_btree_posi_find_with_get: position, elements, index of the element asked for *)
Definition posi_find_with_get (s : bt) (b : bkey) (asc : bool) (count : nat) : option (option (nat * list elem * nat)) :=
  match posi_find s b asc with
  | None => None
  | Some None => Some None
  | Some (Some (pos, e, k, i)) =>
      let eidx := if Nat.ltb pos count then pos else count in
      match batch_get eidx (b_T s) (negb asc) k i, batch_get count (b_T s) asc k i with
      | Some a, Some c => if Nat.eqb (length a) eidx then Some (Some (pos, rev a ++ e :: c, eidx)) else None
      | _, _ => None
      end
  end.

(* 2793-2805: the leaf and index of the element with the given rank below node k of depth d *)
Fixpoint pick_slot (n : node) (i rank : nat) : option (nat * nat) :=
  match n with
  | [] => None
  | s :: r => if Nat.ltb 0 (wt s) then if Nat.ltb rank (wt s) then Some (i, rank) else pick_slot r (S i) (rank - wt s) else None
  end.
Fixpoint by_rank (T : list level) (d k rank : nat) : option (nat * nat) :=
  match d with
  | O => Some (k, rank)
  | S d' => match pick_slot (nd (lev T d) k) 0 rank with
            | None => None
            | Some (i, rank') => by_rank T d' (flat (lev T d) k i) rank'
            end
  end.

(* 2778-2818 do_btree_elem_get_by_posi *)
Definition elem_get_by_posi (s : bt) (index count : nat) (fw : bool) : option (list elem) :=
  match by_rank (b_T s) (depth (b_T s)) 0 index with
  | None => None
  | Some (k, i) =>
      match elem_at (b_T s) k i, batch_get (count - 1) (b_T s) fw k i with
      | Some e, Some l => Some (e :: l)
      | _, _ => None
      end
  end.

(* 4273-4292 btree_coll_getattr and 4294-4385 btree_coll_setattr of one attribute *)
Inductive attr := AMaxCount (n : nat) | AOvf (o : ovact) | ARange (r : option bkey).
Definition set_attr (s : bt) (a : attr) : option (rc * bt) :=
  match a with
  | AMaxCount n =>
      if Nat.ltb n (b_n s) then Some (EBADVALUE, s)
      else Some (SUCC, mkBt (b_T s) (b_n s) n (b_ovf s) (b_trim s) (b_type s) (b_range s))
  | AOvf o =>
      let same := match b_ovf s, o with
                  | OvError, OvError | OvSmallest, OvSmallest | OvLargest, OvLargest
                  | OvSmallestSilent, OvSmallestSilent | OvLargestSilent, OvLargestSilent => true
                  | _, _ => false
                  end in
      Some (SUCC, mkBt (b_T s) (b_n s) (b_max s) o (if same then b_trim s else false) (b_type s) (b_range s))
  | ARange None =>
      Some (SUCC, mkBt (b_T s) (b_n s) (b_max s) (b_ovf s) (b_trim s)
                       (match b_range s with
                        | Some _ => if Nat.eqb (b_n s) 0 then TUnknown else b_type s
                        | None => b_type s
                        end) None)
  | ARange (Some r) =>
      if Nat.ltb 0 (b_n s) then
        if bad_type s r then Some (EBADVALUE, s)
        else
          let fits :=
            if Nat.leb 2 (b_n s) && match b_range s with Some q => b_isne r q | None => true end then
              match first_elem (b_T s) (depth (b_T s)) 0, last_elem (b_T s) (depth (b_T s)) 0 with
              | Some mn, Some mx => match b_diff r (bk mx) (bk mn) with Some x => Some (negb (b_isgt x r)) | None => None end
              | _, _ => None
              end
            else Some true in
          match fits with
          | None => None
          | Some false => Some (EBADVALUE, s)
          | Some true => Some (SUCC, mkBt (b_T s) (b_n s) (b_max s) (b_ovf s) (b_trim s) (b_type s) (Some r))
          end
      else Some (SUCC, mkBt (b_T s) (b_n s) (b_max s) (b_ovf s) (b_trim s)
                            (match r with U64 _ => TU64 | Bin _ => TBin end) (Some r))
  end.

(* ---------- the commands ---------- *)

Inductive op :=
| Insert (e : elem) (rep sticky mem_root : bool) (mem : nat)
| Update (b : bkey) (u : option eupd) (v : option bytes) (held sticky mem : bool)
| Delete (r : range) (fl : option efilter) (count : nat)
| Arith (b : bkey) (incr create : bool) (delta initial : N) (f tail : bytes) (held sticky mem_root mem_elem : bool) (mem : nat)
| Get (r : range) (fl : option efilter) (ofs count : nat) (del : bool)
| Count (r : range) (fl : option efilter)
| Position (b : bkey) (asc : bool)
| PosGet (b : bkey) (asc : bool) (count : nat)
| GetByPos (asc : bool) (from to : nat)
| SetAttr (a : attr)
| GetAttr
| DeleteSome (count : nat).

Inductive out :=
| ORc (c : rc)
| OIns (trimmed : option elem)
| OReplaced
| ONum (n : N)
| OCnt (n : nat)
| OElems (l : list elem) (trim : bool)
| OPosGet (pos : nat) (l : list elem) (idx : nat)
| OAttr (count max : nat) (o : ovact) (trimmed : bool) (r : option bkey) (minmax : option (bkey * bkey)).

Definition lift_i (r : option (ires * bt)) : option (bt * out) :=
  match r with
  | None => None
  | Some (INew x, s) => Some (s, OIns x)
  | Some (IReplaced, s) => Some (s, OReplaced)
  | Some (IErr c, s) => Some (s, ORc c)
  end.

(* 3715-4136, one command under LOCK_CACHE on an existing B+tree *)
Definition step (s : bt) (o : op) : option (bt * out) :=
  match o with
  | Insert e rep sticky mem_root mem => lift_i (elem_insert s e rep sticky mem_root mem)
  | Update b u v held sticky mem =>
      if Nat.eqb (b_n s) 0 then Some (s, ORc ENOENT)
      else if bad_type s b then Some (s, ORc EBADBKEY)
      else match elem_update s b u v held sticky mem with Some (c, s') => Some (s', ORc c) | None => None end
  | Delete r fl count =>
      if Nat.eqb (b_n s) 0 then Some (s, ORc ENOENT)
      else if bad_type s (r_from r) then Some (s, ORc EBADBKEY)
      else match elem_delete s (range_type r) (Some r) fl 0 count with
           | None => None
           | Some (c, s') => Some (s', if Nat.ltb 0 c then OCnt c else ORc ENOENT)
           end
  | Arith b incr create delta initial f tail held sticky mem_root mem_elem mem =>
      match elem_arith s b incr create delta initial f tail held sticky mem_root mem_elem mem with
      | None => None
      | Some (ANum n, s') => Some (s', ONum n)
      | Some (AErr c, s') => Some (s', ORc c)
      end
  | Get r fl ofs count del =>
      if Nat.eqb (b_n s) 0 || Nat.leb (b_n s) ofs then Some (s, ORc ENOENT)
      else if bad_type s (r_from r) then Some (s, ORc EBADBKEY)
      else match elem_get s (range_type r) (Some r) fl ofs count del with
           | None => None
           | Some ([], trim, s') => Some (s', ORc (if trim then EBKEYOOR else ENOENT))
           | Some (l, trim, s') => Some (s', OElems l (if del then false else trim))
           end
  | Count r fl =>
      if bad_type s (r_from r) then Some (s, ORc EBADBKEY)
      else match elem_count s r fl with Some n => Some (s, OCnt n) | None => None end
  | Position b asc =>
      if Nat.eqb (b_n s) 0 then Some (s, ORc ENOENT)
      else if bad_type s b then Some (s, ORc EBADBKEY)
      else match posi_find s b asc with
           | None => None
           | Some None => Some (s, ORc ENOENT)
           | Some (Some (pos, _, _, _)) => Some (s, OCnt pos)
           end
  | PosGet b asc count =>
      if Nat.eqb (b_n s) 0 then Some (s, ORc ENOENT)
      else if bad_type s b then Some (s, ORc EBADBKEY)
      else match posi_find_with_get s b asc count with
           | None => None
           | Some None => Some (s, ORc ENOENT)
           | Some (Some (pos, l, idx)) => Some (s, OPosGet pos l idx)
           end
  | GetByPos asc from to =>
      if Nat.eqb (b_n s) 0 then Some (s, ORc ENOENT)
      else if Nat.leb (b_n s) from && Nat.leb (b_n s) to then Some (s, ORc ENOENT)
      else
        let f1 := if Nat.leb (b_n s) from then b_n s - 1 else from in
        let t1 := if Nat.leb (b_n s) to then b_n s - 1 else to in
        let f2 := if asc then f1 else b_n s - f1 - 1 in
        let t2 := if asc then t1 else b_n s - t1 - 1 in
        let r := if Nat.leb f2 t2 then elem_get_by_posi s f2 (t2 - f2 + 1) true
                 else elem_get_by_posi s f2 (f2 - t2 + 1) false in
        match r with Some l => Some (s, OElems l false) | None => None end
  | SetAttr a => match set_attr s a with Some (c, s') => Some (s', ORc c) | None => None end
  | GetAttr =>
      if Nat.ltb 0 (b_n s) then
        match first_elem (b_T s) (depth (b_T s)) 0, last_elem (b_T s) (depth (b_T s)) 0 with
        | Some mn, Some mx => Some (s, OAttr (b_n s) (b_max s) (b_ovf s) (b_trim s) (b_range s) (Some (bk mn, bk mx)))
        | _, _ => None
        end
      else Some (s, OAttr (b_n s) (b_max s) (b_ovf s) (b_trim s) (b_range s) None)
  | DeleteSome count =>
      match elem_delete s ASC None None 0 count with
      | None => None
      | Some (c, s') => Some (s', OCnt c)
      end
  end.

Fixpoint run (s : bt) (ops : list op) : option (bt * list out) :=
  match ops with
  | [] => Some (s, [])
  | o :: r => match step s o with
              | None => None
              | Some (s1, x) => match run s1 r with Some (s2, xs) => Some (s2, x :: xs) | None => None end
              end
  end.

Definition init (max : nat) (o : ovact) : bt := mkBt [] 0 max o false TUnknown None.
