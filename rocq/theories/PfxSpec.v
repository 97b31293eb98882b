(* What the prefix and item statistics have to report: the items that are stored, and per prefix how
   many there are of each type and how large they are. *)
From Verif Require Import Base UtilModel KvModel KvSpec PfxModel.
Local Open Scope N_scope.

(* the part of a key before its first ':', a ':' at the very beginning not counted *)
Fixpoint upto (k : bytes) : option bytes :=
  match k with
  | [] => None
  | c :: r => if c =? 58 then Some [] else match upto r with Some q => Some (c :: q) | None => None end
  end.
Definition prefix_of (k : bytes) : option bytes :=
  match k with
  | [] => None
  | c :: r => match upto r with Some q => Some (c :: q) | None => None end
  end.
Definition long_prefix (k : bytes) : Prop :=
  match prefix_of k with Some q => (256 <= length q)%nat | None => False end.

(* a stored item *)
Record sitem := mkSi { s_key : bytes; s_type : ity; s_size : N; s_sticky : bool }.
Definition store := list (N * sitem).

Definition swap (l : store) (i : N) (f : N * sitem -> N * sitem) : store :=
  map (fun e => if fst e =? i then f e else e) l.

(* the effect of an operation and its answer on what is stored *)
Definition effect (l : store) (o : pop) (x : pout) : store :=
  match o, x with
  | PLink i k t z st _, PDone => (i, mkSi k t z st) :: l
  | PUnlink i, _ => filter (fun e => negb (fst e =? i)) l
  | PReplace i j z st, _ =>
      flat_map (fun e => if fst e =? i then [(j, mkSi (s_key (snd e)) (s_type (snd e)) z st)] else []) l
        ++ filter (fun e => negb (fst e =? i)) l
  | PGrow i n, _ =>
      swap l i (fun e => (i, mkSi (s_key (snd e)) (s_type (snd e)) (s_size (snd e) + n) (s_sticky (snd e))))
  | PShrink i n, _ =>
      swap l i (fun e => (i, mkSi (s_key (snd e)) (s_type (snd e)) (s_size (snd e) - n) (s_sticky (snd e))))
  | _, _ => l
  end.
Fixpoint stored (l : store) (ops : list pop) (outs : list pout) : store :=
  match ops, outs with
  | o :: r, x :: xs => stored (effect l o x) r xs
  | _, _ => l
  end.

Definition sum (f : sitem -> N) (l : store) : N := fold_right (fun e a => f (snd e) + a) 0 l.
Definition number (l : store) : N := N.of_nat (length l).

Definition under (p : option bytes) (l : store) : store := filter (fun e => obeqb (prefix_of (s_key (snd e))) p) l.
Definition of_type (t : ity) (l : store) : store := filter (fun e => ity_eqb (s_type (snd e)) t) l.
Definition all_types := [TKv; TList; TSet; TMap; TBtree].

(* the line reported for prefix p *)
Definition summary (p : option bytes) (l : store) : line :=
  let u := under p l in
  mkLine p (number u) (map (fun t => number (of_type t u)) all_types)
         (sum s_size u) (map (fun t => sum s_size (of_type t u)) all_types).

(* the scans still holding a prefix: every prefix returned has to be released once *)
Definition holds (hd : list N) (o : pop) (x : pout) : list N :=
  match o, x with
  | PScan _ _ _, PNames (PScanned _ l) => l ++ hd
  | PRelease p, _ => (fix rm l := match l with [] => [] | q :: r => if q =? p then r else q :: rm r end) hd
  | _, _ => hd
  end.

(* domain: prefixes are shorter than 256 bytes, no item reaches 4 GiB, the sums fit in the counters,
   only prefixes returned by a scan are released *)
Definition fits (l : store) : Prop :=
  Forall (fun e => s_size (snd e) < 2 ^ 32) l /\ sum s_size l < 2 ^ 64 /\ number l < 2 ^ 32.
Fixpoint legal (l : store) (hd : list N) (ops : list pop) (outs : list pout) : Prop :=
  match ops, outs with
  | o :: r, x :: xs =>
      match o with
      | PLink _ k _ _ _ _ => ~ long_prefix k
      | PRelease p => In p hd
      | _ => True
      end /\ fits (effect l o x) /\ legal (effect l o x) (holds hd o x) r xs
  | _, _ => True
  end.

(* the prefixes still held at the end of a history *)
Fixpoint held (hd : list N) (ops : list pop) (outs : list pout) : list N :=
  match ops, outs with
  | o :: r, x :: xs => held (holds hd o x) r xs
  | _, _ => hd
  end.

(* a replacement does not change whether the item is sticky *)
Definition same_sticky (l : store) (o : pop) : Prop :=
  match o with
  | PReplace i _ _ st => forall e, In e l -> fst e = i -> s_sticky (snd e) = st
  | _ => True
  end.
Fixpoint never_turns (l : store) (ops : list pop) (outs : list pout) : Prop :=
  match ops, outs with
  | o :: r, x :: xs => same_sticky l o /\ never_turns (effect l o x) r xs
  | _, _ => True
  end.

(* what the scan never shows *)
Definition hidden : bytes := [97; 114; 99; 117; 115]. (* arcus *)
