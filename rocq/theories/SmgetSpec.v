(* What a user may expect of bop smget, stated on the ordered-list view of the B+trees (BtSpec). *)
From Verif Require Import Base UtilModel BtModel BtSpec SmgetModel.
Local Open Scope nat_scope.

(* what the server holds for a key *)
Inductive content := NoKey | Foreign | Unreadable | Elements (flags : N) (s : sp).

(* an element found: with the index, the flags and the name of its key *)
Record hit := mkHit { h_e : elem; h_ix : nat; h_fl : N; h_key : bytes }.

(* the elements of one key inside the range, in the order of the request *)
Definition walk_of (g : range) (l : list elem) : list elem := let m := filter (in_rg g) l in if desc g then rev m else m.

(* elements at the near end of the range were trimmed; the key is then left out and reported as
   missed (also if nothing is left inside the range) *)
Definition out_of_range (s : sp) (g : range) : bool :=
  let l := s_el s in
  let none := match walk_of g l with [] => true | _ => false end in
  s_trim s &&
  match s_ovf s with
  | OvSmallest => (negb (desc g) || none) && low_out g l
  | OvLargest => (desc g || single g || none) && high_out g l
  | _ => false
  end.

(* elements at the far end were trimmed.  The second alternative is a corner of the code: the only
   element in the range is the outermost one and equals the far end *)
Definition at_edge (far : bkey) (edge : option elem) (w : list elem) : bool :=
  match w, edge with [x], Some y => keq (bk x) far && keq (bk y) far | _, _ => false end.
Definition cut (s : sp) (g : range) : bool :=
  let l := s_el s in
  s_trim s &&
  match s_ovf s with
  | OvSmallest => desc g && (low_out g l || at_edge (lo_of g) (s_first l) (walk_of g l))
  | OvLargest => negb (desc g) && (high_out g l || at_edge (hi_of g) (s_last l) (walk_of g l))
  | _ => false
  end.

(* order of the answer: bkey, then key *)
Definition before (dsc : bool) (a b : hit) : bool :=
  let x := bk (h_e a) in let y := bk (h_e b) in
  if keq x y then (if dsc then lex (h_key b) (h_key a) else lex (h_key a) (h_key b))
  else (if dsc then klt y x else klt x y).
Fixpoint sort_in (dsc : bool) (x : hit) (l : list hit) : list hit :=
  match l with [] => [x] | y :: r => if before dsc x y then x :: l else y :: sort_in dsc x r end.
Definition sort (dsc : bool) (l : list hit) : list hit := fold_right (sort_in dsc) [] l.
(* the first hit of every bkey *)
Fixpoint firsts (l : list hit) : list hit :=
  match l with
  | [] => []
  | x :: r => x :: filter (fun y => negb (keq (bk (h_e x)) (bk (h_e y)))) (firsts r)
  end.

Definition key_hits (g : range) (fl : option efilter) (ix : nat) (k : bytes) (c : content) : list hit :=
  match c with
  | Elements f s => if out_of_range s g then [] else map (fun e => mkHit e ix f k) (hits g fl (s_el s))
  | _ => []
  end.
Fixpoint all_hits (sv : bytes -> content) (g : range) (fl : option efilter) (ix : nat) (ks : list bytes) : list hit :=
  match ks with [] => [] | k :: r => key_hits g fl ix k (sv k) ++ all_hits sv g fl (S ix) r end.

(* the answer *)
Definition wanted (sv : bytes -> content) (ks : list bytes) (g : range) (fl : option efilter) (ofs cnt : nat) (unique : bool)
  : list hit :=
  let m := sort (desc g) (all_hits sv g fl 0 ks) in
  firstn cnt (skipn ofs (if unique then firsts m else m)).

(* keys left out, with the reason *)
Definition key_miss (g : range) (ix : nat) (c : content) : list (nat * missrc) :=
  match c with
  | NoKey => [(ix, MNoKey)]
  | Unreadable => [(ix, MUnreadable)]
  | Elements _ s => if out_of_range s g then [(ix, MOutOfRange)] else []
  | Foreign => []
  end.
Fixpoint misses (sv : bytes -> content) (g : range) (ix : nat) (ks : list bytes) : list (nat * missrc) :=
  match ks with [] => [] | k :: r => key_miss g ix (sv k) ++ misses sv g (S ix) r end.

(* keys whose trimmed part begins before the end of the answer: index and last bkey present.
   tail: the last bkey of the answer if the answer is complete *)
Definition key_trim (g : range) (tail : option bkey) (ix : nat) (c : content) : list (bkey * nat) :=
  match c with
  | Elements _ s =>
      if out_of_range s g then []
      else match rev (walk_of g (s_el s)) with
           | x :: _ =>
               let early := match tail with
                            | None => true
                            | Some t => if desc g then klt t (bk x) else klt (bk x) t
                            end in
               if cut s g && early then [(bk x, ix)] else []
           | [] => []
           end
  | _ => []
  end.
Fixpoint trims (sv : bytes -> content) (g : range) (tail : option bkey) (ix : nat) (ks : list bytes) : list (bkey * nat) :=
  match ks with [] => [] | k :: r => key_trim g tail ix (sv k) ++ trims sv g tail (S ix) r end.
(* in the order of the request *)
Fixpoint ordered_keys (dsc : bool) (l : list (bkey * nat)) : Prop :=
  match l with
  | [] => True
  | x :: r => (forall y, In y r -> (if dsc then kle (fst y) (fst x) else kle (fst x) (fst y)) = true) /\ ordered_keys dsc r
  end.

(* two neighbours with the same bkey *)
Fixpoint doubled (l : list hit) : bool :=
  match l with
  | x :: (y :: _) as r => keq (bk (h_e x)) (bk (h_e y)) || doubled r
  | _ => false
  end.

(* a key that makes the request fail *)
Definition key_error (g : range) (c : content) : option smerr :=
  match c with
  | Foreign => Some EBadType
  | Elements _ s => match s_el s with [] => None | _ => if s_bad_type s (r_from g) then Some EBadBkey else None end
  | _ => None
  end.
Fixpoint first_error (sv : bytes -> content) (g : range) (ks : list bytes) : option smerr :=
  match ks with
  | [] => None
  | k :: r => match key_error g (sv k) with Some e => Some e | None => first_error sv g r end
  end.

(* the last bkey of the answer, if the answer is complete *)
Definition tail_of (cnt : nat) (l : list hit) : option bkey :=
  if Nat.eqb (length l) cnt then match rev l with x :: _ => Some (bk (h_e x)) | [] => None end else None.
