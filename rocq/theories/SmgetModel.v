(* bop smget: engines/default/coll_btree.c 2821-2991 and 3190-3650 (new interface, modes duplicate
   and unique), btree_elem_smget (4183-4237).

   The trees are the ones of BtModel.  Simplifications: the LRU update and the reference counts of
   the items are left out; a scan of btree_scan_buf is a value instead of an index into the buffer
   (the free list of indexes always has an entry: the buffer has one slot more than the sort array);
   sort_sindx_buf is the list of its scans from first_idx on.  None: an assert of the code fails or a
   loop does not end. *)
From Verif Require Import Base UtilModel BtModel.
Local Open Scope nat_scope.

(* strncmp (used by 2822-2837): compares at most n bytes, stops at a common NUL *)
Fixpoint strncmp (n : nat) (a b : bytes) : comparison :=
  match n with
  | O => Eq
  | S n' =>
      let x := hd 0%N a in
      let y := hd 0%N b in
      match (x ?= y)%N with
      | Eq => if (x =? 0)%N then Eq else strncmp n' (tl a) (tl b)
      | c => c
      end
  end.

(* 2822-2837 do_btree_comp_hkey *)
Definition comp_hkey (a b : bytes) : comparison :=
  if Nat.eqb (length a) (length b) then strncmp (length a) a b
  else if Nat.ltb (length a) (length b) then
    match strncmp (length a) a b with Eq => Lt | c => c end
  else
    match strncmp (length b) a b with Eq => Gt | c => c end.

(* what the hash table holds for a key: nothing, an item of another type, a B+tree (readable mflag,
   client flags) *)
Inductive entry := Absent | Other | Tree (readable : bool) (flags : N) (t : bt).

Inductive missrc := MNoKey | MUnreadable | MOutOfRange.
Inductive smerr := EBadType | EBadBkey | EBadValue.

(* btree_scan_info: item (its key, flags and tree), position, key index *)
Record scan := mkSc { c_key : bytes; c_flags : N; c_t : bt; c_ps : posi; c_ix : nat }.
Definition set_ps (c : scan) (p : posi) : scan := mkSc (c_key c) (c_flags c) (c_t c) p (c_ix c).

(* BTREE_GET_ELEM_ITEM of the position of a scan *)
Definition c_elem (c : scan) : option elem :=
  match pn (c_ps c) with Some k => elem_at (b_T (c_t c)) k (px (c_ps c)) | None => None end.

(* smget_result_t; r_trim: the trimmed keys in the order they were added *)
Record smres := mkRes { r_el : list (elem * nat * N); r_miss : list (nat * missrc); r_trim : list (elem * nat); r_dup : bool }.
Definition no_res : smres := mkRes [] [] [] false.
(* 2870-2877 do_btree_smget_add_miss, 2879-2888 do_btree_smget_add_trim *)
Definition add_miss (r : smres) (ix : nat) (c : missrc) : smres := mkRes (r_el r) (r_miss r ++ [(ix, c)]) (r_trim r) (r_dup r).
Definition add_trim (r : smres) (ix : nat) (e : elem) : smres := mkRes (r_el r) (r_miss r) (r_trim r ++ [(e, ix)]) (r_dup r).

Definition ascending (rt : rtype) : bool := match rt with DSC => false | _ => true end.
Definition oriented (fw : bool) (c : comparison) : comparison := if fw then c else CompOpp c.

(* 2858-2868 do_btree_scan_next: nothing after the element that equals the end of the range *)
Definition scan_next (c : scan) (rt : rtype) (g : range) : option (option elem * posi) :=
  if peq (c_ps c) then Some (None, c_ps c)
  else find_step (b_T (c_t c)) (ascending rt) (c_ps c) (Some g).

(* the test after a scan ran out (3245-3250, 3585-3591): the elements that would follow were trimmed *)
Definition ran_into_trim (t : bt) (ps : posi) (rt : rtype) : bool :=
  match pn ps with None => b_trim t && overlapped t (b_T t) ps rt | Some _ => false end.

(* element e of a scan with key k against the current element of scan d: bkey, then key *)
Definition comp_scan (k : bytes) (e : elem) (d : scan) : option (comparison * comparison) :=
  match c_elem d with
  | None => None
  | Some x => Some (bcomp (bk e) (bk x), comp_hkey k (c_key d))
  end.
(* bkey first, key second *)
Definition both (p : comparison * comparison) : comparison := match p with (Eq, h) => h | (c, _) => c end.

Section Phase1.
Variables (rt : rtype) (g : range) (fl : option efilter) (req : nat) (unique : bool).
Let fw := ascending rt.

(* 3321-3345: the binary search of the sort array; stops at an entry with the same bkey if the keys
   are equal or only one element per bkey is wanted *)
Definition cmp1 (k : bytes) (e : elem) (q : list scan) (mid : nat) : option comparison :=
  match nth_error q mid with
  | None => None
  | Some d =>
      match comp_scan k e d with
      | None => None
      | Some (Eq, h) => if unique then Some Eq else Some (oriented fw h)
      | Some (c, _) => Some (oriented fw c)
      end
  end.

(* 3298-3319: the array is full and the element belongs behind its last entry *)
Definition past_last (k : bytes) (e : elem) (q : list scan) : option (smerr + bool) :=
  if Nat.leb req (length q) then
    match nth_error q (length q - 1) with
    | None => None
    | Some d =>
        match comp_scan k e d with
        | None => None
        | Some (Eq, Eq) => Some (inl EBadValue)
        | Some p => Some (inr (match oriented fw (both p) with Gt => true | _ => false end))
        end
    end
  else Some (inr false).

Inductive res1 := Ok1 (q : list scan) (r : smres) | Err1 (e : smerr).

(* 3236-3375 from scan_next on, for the scan c whose current element is e.  first: is_first.
   The search ends for this scan with a new sort array q and result r. *)
Fixpoint place (fuel : nat) (c : scan) (e : elem) (first : bool) (q : list scan) (r : smres) : option res1 :=
  match fuel with
  | O => None
  | S fuel' =>
      let cont c e :=
        if negb (passes fl e) then place fuel' c e false q r
        else
          match q with
          | [] => Some (Ok1 [c] r)
          | _ =>
              let full := Nat.leb req (length q) in
              match past_last (c_key c) e q with
              | None => None
              | Some (inl x) => Some (Err1 x)
              | Some (inr true) => Some (Ok1 q r)
              | Some (inr false) =>
                  match bsearch (length q) (cmp1 (c_key c) e q) 0 (length q) with
                  | None => None
                  | Some (inl mid) =>
                      match nth_error q mid with
                      | None => None
                      | Some d =>
                          match comp_hkey (c_key c) (c_key d) with
                          | Eq => Some (Err1 EBadValue)
                          | h =>
                              if negb unique then None
                              else if (match oriented fw h with Lt => true | _ => false end)
                              then (* the scan in the array makes room and is continued *)
                                   place fuel' d e false (firstn mid q ++ c :: skipn (S mid) q) r
                              else place fuel' c e false q r
                          end
                      end
                  | Some (inr i) =>
                      let q' := if full then firstn (length q - 1) q else q in
                      Some (Ok1 (firstn i q' ++ c :: skipn i q') r)
                  end
              end
          end in
      if first then cont c e
      else
        match scan_next c rt g with
        | None => None
        | Some (None, ps) =>
            Some (Ok1 q (if ran_into_trim (c_t c) ps rt then add_trim r (c_ix c) e else r))
        | Some (Some e', ps) => cont (set_ps c ps) e'
        end
  end.

(* 3213-3234: one key *)
Definition one_key (fuel : nat) (ix : nat) (k : bytes) (en : entry) (q : list scan) (r : smres) : option res1 :=
  match en with
  | Absent => Some (Ok1 q (add_miss r ix MNoKey))
  | Other => Some (Err1 EBadType)
  | Tree readable flags t =>
      if negb readable then Some (Ok1 q (add_miss r ix MUnreadable))
      else if Nat.eqb (b_n t) 0 then Some (Ok1 q r)
      else if bad_type t (r_from g) then Some (Err1 EBadBkey)
      else
        match find_first (b_T t) rt (Some g) with
        | None => None
        | Some (None, ps, _) =>
            Some (Ok1 q (if b_trim t && overlapped t (b_T t) ps rt then add_miss r ix MOutOfRange else r))
        | Some (Some e, ps, _) =>
            if negb (peq ps) && b_trim t && overlapped t (b_T t) ps rt then Some (Ok1 q (add_miss r ix MOutOfRange))
            else place fuel (mkSc k flags t (mkPosi (pn ps) (px ps) false) ix) e true q r
        end
  end.

(* 3212 the loop over the keys *)
Fixpoint keys1 (fuel : nat) (st : bytes -> entry) (ix : nat) (ks : list bytes) (q : list scan) (r : smres) : option res1 :=
  match ks with
  | [] => Some (Ok1 q r)
  | k :: ks' =>
      match one_key fuel ix k (st k) q r with
      | None => None
      | Some (Err1 e) => Some (Err1 e)
      | Some (Ok1 q' r') => keys1 fuel st (S ix) ks' q' r'
      end
  end.

(* ---------- second phase: 3512-3650 do_btree_smget_elem_sort ---------- *)

(* 3606-3622: the assert excludes equal bkeys with equal keys *)
Definition cmp2 (k : bytes) (e : elem) (q : list scan) (mid : nat) : option comparison :=
  match nth_error q mid with
  | None => None
  | Some d =>
      match comp_scan k e d with
      | None => None
      | Some (Eq, Eq) => None
      | Some p => Some (match oriented fw (both p) with Lt => Lt | _ => Gt end)
      end
  end.

(* 3576-3600: advance the scan to its next element that passes the filter *)
Fixpoint advance (fuel : nat) (c : scan) (e : elem) (r : smres) : option (option (scan * elem) * smres) :=
  match fuel with
  | O => None
  | S fuel' =>
      match scan_next c rt g with
      | None => None
      | Some (None, ps) => Some (None, if ran_into_trim (c_t c) ps rt then add_trim r (c_ix c) e else r)
      | Some (Some e', ps) =>
          if passes fl e' then Some (Some (set_ps c ps, e'), r) else advance fuel' (set_ps c ps) e' r
      end
  end.

(* prev: bkey of the previous element; skip: skip_count *)
Fixpoint merge (fuel afuel : nat) (ofs cnt : nat) (q : list scan) (prev : option bkey) (skip : nat) (r : smres) : option smres :=
  match q with
  | [] => Some r
  | c :: rest =>
      match fuel with
      | O => None
      | S fuel' =>
          match c_elem c with
          | None => None
          | Some e =>
              let dup := match prev with Some b => match bcomp b (bk e) with Eq => true | _ => false end | None => false end in
              let give_up := unique && dup in
              let taken := negb give_up && negb (Nat.ltb skip ofs) in
              let skip' := if negb give_up && Nat.ltb skip ofs then S skip else skip in
              let r' := if taken then
                          mkRes (r_el r ++ [(e, c_ix c, c_flags c)]) (r_miss r) (r_trim r)
                                (r_dup r || Nat.ltb 0 (length (r_el r)) && dup)
                        else r in
              if taken && Nat.leb cnt (length (r_el r')) then Some r'
              else
                match advance afuel c e r' with
                | None => None
                | Some (None, r2) => merge fuel' afuel ofs cnt rest (Some (bk e)) skip' r2
                | Some (Some (c', e'), r2) =>
                    match bsearch (length rest) (cmp2 (c_key c') e' rest) 0 (length rest) with
                    | None | Some (inl _) => None
                    | Some (inr i) =>
                        merge fuel' afuel ofs cnt (firstn i rest ++ c' :: skipn i rest) (Some (bk e)) skip' r2
                    end
                end
          end
      end
  end.
End Phase1.

(* 2920-2991 do_btree_smget_adjust_trim: with all the requested elements found only the keys that
   were cut before the last of them stay; sorted by bkey, an equal bkey behind the one met *)
Definition cmp3 (fw : bool) (e : elem) (l : list (elem * nat)) (mid : nat) : option comparison :=
  match nth_error l mid with
  | None => None
  | Some (x, _) => Some (oriented fw (bcomp (bk e) (bk x)))
  end.
Fixpoint adjust (fw : bool) (tail : option elem) (tr acc : list (elem * nat)) : option (list (elem * nat)) :=
  match tr with
  | [] => Some acc
  | (e, ix) :: tr' =>
      let valid := match tail with
                   | None => true
                   | Some t => match oriented fw (bcomp (bk e) (bk t)) with Lt => true | _ => false end
                   end in
      if valid then
        match bsearch (length acc) (cmp3 fw e acc) 0 (length acc) with
        | None => None
        | Some (inl mid) => adjust fw tail tr' (firstn (S mid) acc ++ (e, ix) :: skipn (S mid) acc)
        | Some (inr i) => adjust fw tail tr' (firstn i acc ++ (e, ix) :: skipn i acc)
        end
      else adjust fw tail tr' acc
  end.

Inductive answer := Found (r : smres) | Failed (e : smerr).

Definition size_of (en : entry) : nat := match en with Tree _ _ t => total (b_T t) | _ => 0 end.
Definition fuel_of (st : bytes -> entry) (ks : list bytes) : nat :=
  S (list_sum (map (fun k => size_of (st k)) ks)).

(* 4183-4237 btree_elem_smget.  The adjusted trim list is read from the end of the list of added
   keys (2942).  A range without an end arrives with the end set to its start (memcached.c
   2893-2897), which is the reading of r_end and range_type. *)
Definition smget (st : bytes -> entry) (ks : list bytes) (g : range) (fl : option efilter) (ofs cnt : nat)
           (unique : bool) : option answer :=
  let rt := range_type g in
  let n := fuel_of st ks in
  match keys1 rt g fl (ofs + cnt) unique n st 0 ks [] no_res with
  | None => None
  | Some (Err1 e) => Some (Failed e)
  | Some (Ok1 q r) =>
      match merge rt g fl unique n n ofs cnt q None 0 r with
      | None => None
      | Some r2 =>
          let tail := if Nat.eqb (length (r_el r2)) cnt
                      then match rev (r_el r2) with (e, _, _) :: _ => Some e | [] => None end else None in
          match adjust (ascending rt) tail (rev (r_trim r2)) [] with
          | None => None
          | Some tr => Some (Found (mkRes (r_el r2) (r_miss r2) tr (r_dup r2)))
          end
      end
  end.

(* memcached.c 13068-13098 and 6220-6222: the request is let through; uint32 arithmetic *)
Definition admitted (ofs cnt : N) : bool := negb (cnt =? 0)%N && negb (2000 <? (ofs + cnt) mod 2 ^ 32)%N.
