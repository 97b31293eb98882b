(* What a user may expect of a B+tree: a strictly sorted list of elements with attributes.
   Independent of the node structure of BtModel; only the types of keys, elements, commands and
   answers are shared. *)
From Verif Require Import Base UtilModel UtilSpec BtModel.
Local Open Scope nat_scope.

(* ---------- order of bkeys ---------- *)

(* byte strings: lexicographic, a proper prefix first *)
Fixpoint lex (a b : bytes) : bool :=
  match a, b with
  | _, [] => false
  | [], _ :: _ => true
  | x :: a', y :: b' => (x <? y)%N || (x =? y)%N && lex a' b'
  end.
Definition klt (a b : bkey) : bool :=
  match a, b with
  | U64 x, U64 y => (x <? y)%N
  | Bin x, Bin y => lex x y
  | U64 _, Bin _ => true
  | Bin _, U64 _ => false
  end.
Definition kle (a b : bkey) : bool := negb (klt b a).
Definition keq (a b : bkey) : bool := kle a b && kle b a.

Fixpoint sorted (l : list elem) : Prop :=
  match l with
  | [] => True
  | e :: r => (forall x, In x r -> klt (bk e) (bk x) = true) /\ sorted r
  end.

(* ---------- eflag filter ---------- *)

Definition bytes_eqb (a b : bytes) : bool := if list_eq_dec N.eq_dec a b then true else false.
Definition op_holds (o : cmpop) (a b : bytes) : bool :=
  match o with
  | OpEq => bytes_eqb a b
  | OpNe => negb (bytes_eqb a b)
  | OpLt => lex a b
  | OpLe => negb (lex b a)
  | OpGt => lex b a
  | OpGe => negb (lex a b)
  end.
Fixpoint map2 (f : N -> N -> N) (a b : bytes) : bytes :=
  match a, b with x :: a', y :: b' => f x y :: map2 f a' b' | _, _ => [] end.
Definition bit_of (o : bitop) : N -> N -> N := match o with OpAnd => N.land | OpOr => N.lor | OpXor => N.lxor end.

(* the addressed part of the eflag, None if the eflag does not reach that far *)
Definition slice (ofs n : nat) (f : bytes) : option bytes :=
  if Nat.ltb ofs (length f) && Nat.leb (ofs + n) (length f) then Some (firstn n (skipn ofs f)) else None.
Definition f_len (f : efilter) : nat := match f_vals f with v :: _ => length v | [] => 0 end.
Definition f_matches (f : efilter) (e : elem) : bool :=
  match slice (f_ofs f) (f_len f) (ef e) with
  | None => match f_op f with OpNe => true | _ => false end
  | Some x =>
      let y := match f_bit f with Some (o, v) => map2 (bit_of o) x v | None => x end in
      match f_op f, f_vals f with
      | OpEq, vs => existsb (bytes_eqb y) vs
      | OpNe, vs => negb (existsb (bytes_eqb y) vs)
      | o, v :: _ => op_holds o y v
      | _, [] => false
      end
  end.
Definition matches (fl : option efilter) (e : elem) : bool := match fl with None => true | Some f => f_matches f e end.

(* ---------- ranges ---------- *)

Definition lo_of (r : range) : bkey :=
  match r_to r with None => r_from r | Some t => if klt (r_from r) t then r_from r else t end.
Definition hi_of (r : range) : bkey :=
  match r_to r with None => r_from r | Some t => if klt (r_from r) t then t else r_from r end.
Definition desc (r : range) : bool := match r_to r with None => false | Some t => klt t (r_from r) end.
Definition single (r : range) : bool := match r_to r with None => true | Some t => keq (r_from r) t end.
Definition inside (lo hi k : bkey) : bool := kle lo k && kle k hi.
Definition in_rg (r : range) (e : elem) : bool := inside (lo_of r) (hi_of r) (bk e).

Definition take (n : nat) {A} (l : list A) : list A := match n with O => l | _ => firstn n l end.
(* the elements a query selects, in the order of the answer *)
Definition hits (r : range) (fl : option efilter) (l : list elem) : list elem :=
  let m := filter (fun e => in_rg r e && matches fl e) l in if desc r then rev m else m.
Definition select (r : range) (fl : option efilter) (ofs cnt : nat) (l : list elem) : list elem :=
  take cnt (skipn ofs (hits r fl l)).
Definition has_key (k : bkey) (l : list elem) : bool := existsb (fun e => keq k (bk e)) l.
Definition without (d : list elem) (l : list elem) : list elem := filter (fun e => negb (has_key (bk e) d)) l.

Fixpoint ins (e : elem) (l : list elem) : list elem :=
  match l with
  | [] => [e]
  | x :: r => if klt (bk e) (bk x) then e :: l else x :: ins e r
  end.
Definition lookup (k : bkey) (l : list elem) : option elem := find (fun e => keq k (bk e)) l.
Definition put (e : elem) (l : list elem) : list elem := map (fun x => if keq (bk e) (bk x) then e else x) l.

(* ---------- arithmetic on bkeys (maxbkeyrange) ---------- *)

(* big-endian value of the first n bytes, missing bytes being 0, and back *)
Fixpoint num (n : nat) (l : bytes) : N :=
  match n with
  | O => 0
  | S n' => (hd 0 l * 256 ^ N.of_nat n' + num n' (tl l))%N
  end.
Fixpoint unnum (n : nat) (v : N) : bytes :=
  match n with
  | O => []
  | S n' => (v / 256 ^ N.of_nat n' mod 256)%N :: unnum n' v
  end.
(* the number a bkey stands for when it is measured against the maxbkeyrange r *)
Definition measure (r k : bkey) : N :=
  match r, k with
  | U64 _, U64 x => x
  | Bin l, Bin x => num (length l) x
  | _, _ => 0%N
  end.
Definition key_of (r : bkey) (v : N) : bkey :=
  match r with U64 _ => U64 v | Bin l => Bin (unnum (length l) v) end.

(* ---------- state and commands ---------- *)

Record sp := mkSp { s_el : list elem; s_max : nat; s_ovf : ovact; s_trim : bool; s_type : btype; s_range : option bkey }.
Definition with_el (s : sp) (l : list elem) : sp := mkSp l (s_max s) (s_ovf s) (s_trim s) (s_type s) (s_range s).
Definition with_trim (s : sp) (b : bool) : sp := mkSp (s_el s) (s_max s) (s_ovf s) b (s_type s) (s_range s).

Definition s_first (l : list elem) : option elem := hd_error l.
Definition s_last (l : list elem) : option elem := hd_error (rev l).

Definition drops_low (o : ovact) : bool := match o with OvSmallest | OvSmallestSilent => true | _ => false end.
Definition drops_high (o : ovact) : bool := match o with OvLargest | OvLargestSilent => true | _ => false end.
Definition signals (o : ovact) : bool := match o with OvSmallest | OvLargest => true | _ => false end.

(* an insert of a new bkey below the smallest / above the largest element that would make the span
   exceed maxbkeyrange: the bkeys to drop, from .. to, if the overflow action allows to drop them *)
Inductive rverdict := RFits | RRefused | RDrop (a b : bkey).
Definition range_verdict (s : sp) (k : bkey) : rverdict :=
  match s_range s, s_first (s_el s), s_last (s_el s) with
  | Some r, Some mn, Some mx =>
      let m := measure r in
      if klt k (bk mn) && (m r <? m (bk mx) - m k)%N then
        if drops_high (s_ovf s) then RDrop (key_of r (m k + m r + 1)) (bk mx) else RRefused
      else if klt (bk mx) k && (m r <? m k - m (bk mn))%N then
        if drops_low (s_ovf s) then RDrop (bk mn) (key_of r (m k - m r - 1)) else RRefused
      else RFits
  | _, _, _ => RFits
  end.

Definition type_of (k : bkey) : btype := match k with U64 _ => TU64 | Bin _ => TBin end.
Definition s_bad_type (s : sp) (k : bkey) : bool :=
  match s_type s, k with TU64, Bin _ | TBin, U64 _ => true | _, _ => false end.

(* insert of an element whose bkey is not present *)
Definition s_new (s : sp) (e : elem) : ires * sp :=
  match s_el s with
  | [] => (INew None, mkSp [e] (s_max s) (s_ovf s) (s_trim s) (type_of (bk e)) (s_range s))
  | _ =>
      let l' := ins e (s_el s) in
      match range_verdict s (bk e) with
      | RRefused => (IErr EBKEYOOR, s)
      | RDrop a b =>
          (INew None, mkSp (filter (fun x => negb (in_rg (mkR a (Some b)) x)) l') (s_max s) (s_ovf s)
                           (if signals (s_ovf s) then false else s_trim s) (s_type s) (s_range s))
      | RFits =>
          if Nat.ltb (length (s_el s)) (s_max s) then (INew None, with_el s l')
          else
            let mark x := if signals (s_ovf s) then with_trim x true else x in
            if drops_low (s_ovf s) then
              match s_first (s_el s) with
              | Some mn => if klt (bk e) (bk mn) then (IErr EBKEYOOR, mark s)
                           else (INew (Some mn), mark (with_el s (tl l')))
              | None => (IErr EOVERFLOW, s)
              end
            else if drops_high (s_ovf s) then
              match s_last (s_el s) with
              | Some mx => if klt (bk mx) (bk e) then (IErr EBKEYOOR, mark s)
                           else (INew (Some mx), mark (with_el s (removelast l')))
              | None => (IErr EOVERFLOW, s)
              end
            else (IErr EOVERFLOW, s)
      end
  end.

Definition s_has_type (s : sp) : bool :=
  negb (Nat.eqb (length (s_el s)) 0) || match s_range s with Some _ => true | None => false end.

(* memory failures: an insert may be refused with ENOMEM, then nothing changes *)
Definition size (e : elem) : nat := length (ef e) + length (va e).

(* TRIMMED: a query reaches beyond the end at which elements were dropped *)
Definition low_out (r : range) (l : list elem) : bool :=
  match s_first l with Some mn => klt (lo_of r) (bk mn) | None => false end.
Definition high_out (r : range) (l : list elem) : bool :=
  match s_last l with Some mx => klt (bk mx) (hi_of r) | None => false end.
(* fewer hits than asked for: the walk went to the end of the range *)
Definition exhausted (r : range) (fl : option efilter) (ofs cnt : nat) (l : list elem) : bool :=
  Nat.eqb cnt 0 || Nat.ltb (length (skipn ofs (hits r fl l))) cnt.
(* the only element in the range is the outermost one and equals the far end of the range *)
Definition lone_edge (far : bkey) (edge : option elem) (r : range) (l : list elem) : bool :=
  match filter (in_rg r) l, edge with
  | [x], Some y => keq (bk x) far && keq (bk y) far && negb (keq (bk x) (r_from r))
  | _, _ => false
  end.
Definition trim_signal (s : sp) (r : range) (fl : option efilter) (ofs cnt : nat) : bool :=
  let l := s_el s in
  s_trim s &&
  match s_ovf s with
  | OvSmallest =>
      if negb (desc r) then low_out r l
      else exhausted r fl ofs cnt l && (low_out r l || lone_edge (lo_of r) (s_first l) r l)
  | OvLargest =>
      if desc r || single r then high_out r l
      else exhausted r fl ofs cnt l && (high_out r l || lone_edge (hi_of r) (s_last l) r l)
  | _ => false
  end.

Definition pos_of (k : bkey) (l : list elem) : nat := length (filter (fun e => klt (bk e) k) l).
Definition ordered (asc : bool) (l : list elem) : list elem := if asc then l else rev l.

Definition s_eflag (u : option eupd) (f : bytes) : option bytes :=
  match u with
  | None => Some f
  | Some (ESet v) => Some v
  | Some (EBit o ofs v) =>
      match v with
      | [] => Some f
      | _ => match slice ofs (length v) f with
             | None => None
             | Some x => Some (firstn ofs f ++ map2 (bit_of o) x v ++ skipn (ofs + length v) f)
             end
      end
  end.

Definition s_num (n : N) : bytes := dec_text n ++ [13%N; 10%N].

(* one command; nomem: the server reports lack of memory (allowed only where the command may need
   memory, see may_nomem) *)
Definition s_step (s : sp) (o : op) : sp * out :=
  let l := s_el s in
  match o with
  | Insert e rep _ _ _ =>
      if s_has_type s && s_bad_type s (bk e) then (s, ORc EBADBKEY)
      else match lookup (bk e) l with
           | Some _ => if rep then (with_el s (put e l), OReplaced) else (s, ORc EEXISTS)
           | None => match s_new s e with
                     | (INew x, s') => (s', OIns x)
                     | (IReplaced, s') => (s', OReplaced)
                     | (IErr c, s') => (s', ORc c)
                     end
           end
  | Update b u v _ _ _ =>
      match l with
      | [] => (s, ORc ENOENT)
      | _ =>
          if s_bad_type s b then (s, ORc EBADBKEY)
          else match lookup b l with
               | None => (s, ORc ENOENT)
               | Some x =>
                   match s_eflag u (ef x) with
                   | None => (s, ORc EBADEFLAG)
                   | Some f => (with_el s (put (mkE (bk x) f (match v with Some w => w | None => va x end)) l), ORc SUCC)
                   end
               end
      end
  | Delete r fl count =>
      match l with
      | [] => (s, ORc ENOENT)
      | _ =>
          if s_bad_type s (r_from r) then (s, ORc EBADBKEY)
          else match select r fl 0 count l with
               | [] => (s, ORc ENOENT)
               | d => (with_el s (without d l), OCnt (length d))
               end
      end
  | Arith b incr create delta initial f tail _ _ _ _ _ =>
      if s_has_type s && s_bad_type s b then (s, ORc EBADBKEY)
      else match lookup b l with
           | None =>
               if create then
                 match s_new s (mkE b f (s_num initial)) with
                 | (IErr c, s') => (s', ORc c)
                 | (_, s') => (s', ONum initial)
                 end
               else (s, ORc ENOENT)
           | Some x =>
               match safe_strtoull (cstr (va x ++ tail)) with
               | None => (s, ORc EINVAL)
               | Some v =>
                   if Nat.eqb (length (va x)) 2 then (s, ORc EINVAL)
                   else let v' := if incr then ((v + delta) mod 2 ^ 64)%N else (v - delta)%N in
                        (with_el s (put (mkE (bk x) (ef x) (s_num v')) l), ONum v')
               end
           end
  | Get r fl ofs count del =>
      if Nat.leb (length l) ofs then (s, ORc ENOENT)
      else if s_bad_type s (r_from r) then (s, ORc EBADBKEY)
      else match select r fl ofs count l with
           | [] => (s, ORc (if trim_signal s r fl ofs count then EBKEYOOR else ENOENT))
           | d => (if del then with_el s (without d l) else s,
                   OElems d (if del then false else trim_signal s r fl ofs count))
           end
  | Count r fl =>
      if s_bad_type s (r_from r) then (s, ORc EBADBKEY)
      else (s, OCnt (length (hits r fl l)))
  | Position b asc =>
      match l with
      | [] => (s, ORc ENOENT)
      | _ =>
          if s_bad_type s b then (s, ORc EBADBKEY)
          else match lookup b l with
               | None => (s, ORc ENOENT)
               | Some _ => (s, OCnt (if asc then pos_of b l else length l - pos_of b l - 1))
               end
      end
  | PosGet b asc count =>
      match l with
      | [] => (s, ORc ENOENT)
      | _ =>
          if s_bad_type s b then (s, ORc EBADBKEY)
          else match lookup b l with
               | None => (s, ORc ENOENT)
               | Some _ =>
                   let p := if asc then pos_of b l else length l - pos_of b l - 1 in
                   (s, OPosGet p (firstn (Nat.min p count + 1 + count) (skipn (p - count) (ordered asc l))) (Nat.min p count))
               end
      end
  | GetByPos asc from to =>
      if Nat.leb (length l) from && Nat.leb (length l) to then (s, ORc ENOENT)
      else
        let n := length l in
        let a := Nat.min from (n - 1) in
        let b := Nat.min to (n - 1) in
        let x := ordered asc l in
        (s, OElems (if Nat.leb a b then firstn (b - a + 1) (skipn a x)
                    else rev (firstn (a - b + 1) (skipn b x))) false)
  | SetAttr a =>
      match a with
      | AMaxCount n => if Nat.ltb n (length l) then (s, ORc EBADVALUE)
                       else (mkSp l n (s_ovf s) (s_trim s) (s_type s) (s_range s), ORc SUCC)
      | AOvf o => (mkSp l (s_max s) o (match s_ovf s, o with
                                       | OvError, OvError | OvSmallest, OvSmallest | OvLargest, OvLargest
                                       | OvSmallestSilent, OvSmallestSilent | OvLargestSilent, OvLargestSilent => s_trim s
                                       | _, _ => false
                                       end) (s_type s) (s_range s), ORc SUCC)
      | ARange None => (mkSp l (s_max s) (s_ovf s) (s_trim s)
                             (match l, s_range s with [], Some _ => TUnknown | _, _ => s_type s end) None, ORc SUCC)
      | ARange (Some r) =>
          match s_first l, s_last l with
          | Some mn, Some mx =>
              if s_bad_type s r then (s, ORc EBADVALUE)
              else if negb (match s_range s with Some q => keq r q | None => false end) &&
                      (measure r r <? measure r (bk mx) - measure r (bk mn))%N
                   then (s, ORc EBADVALUE)
                   else (mkSp l (s_max s) (s_ovf s) (s_trim s) (s_type s) (Some r), ORc SUCC)
          | _, _ => (mkSp l (s_max s) (s_ovf s) (s_trim s) (type_of r) (Some r), ORc SUCC)
          end
      end
  | GetAttr => (s, OAttr (length l) (s_max s) (s_ovf s) (s_trim s) (s_range s)
                         (match s_first l, s_last l with Some a, Some b => Some (bk a, bk b) | _, _ => None end))
  | DeleteSome count => (with_el s (without (take count l) l), OCnt (length (take count l)))
  end.

(* commands that may be refused for lack of memory, the state then being unchanged *)
Definition may_nomem (o : op) : bool :=
  match o with Insert _ _ _ _ _ | Update _ _ _ _ _ _ | Arith _ _ _ _ _ _ _ _ _ _ _ _ => true | _ => false end.

Definition sp_init (max : nat) (o : ovact) : sp := mkSp [] max o false TUnknown None.
