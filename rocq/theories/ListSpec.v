(* Specification of a list collection: a plain sequence of values with a size limit. *)
From Verif Require Import Base ListModel.
Open Scope Z_scope.
(* Only the types of requests and answers are taken from ListModel.v. *)

Record slist := { elems : list bytes; limit : option Z; action : ovflact; shown : bool; flags : N }.
Inductive sslot := NoItem | OtherItem | AList (l : slist).
Record sstate := { sl : sslot; server_max : Z }.

Definition size (l : list bytes) : Z := Z.of_nat (length l).
Definition cap (s : sstate) (l : slist) : Z := match limit l with Some n => n | None => server_max s end.

(* the maximum element count a client asks for: negative = the server's limit, 0 = 4000 *)
Definition want_limit (server_max mc : Z) : option Z :=
  if mc <? 0 then None else if mc =? 0 then Some 4000 else Some (Z.min mc server_max).

(* sequence with v put at position p *)
Definition put_at (p : Z) (v : bytes) (l : list bytes) : list bytes :=
  firstn (Z.to_nat p) l ++ v :: skipn (Z.to_nat p) l.

(* index i >= 0 counts from the head, i < 0 counts from the tail: the position of the new
   element in the grown sequence *)
Definition position (i : Z) (n : Z) : Z := if 0 <=? i then i else n + 1 + i.

(* the elements at positions lo..hi, and the rest; i is the position of the first element *)
Fixpoint between (i lo hi : Z) (l : list bytes) : list bytes :=
  match l with
  | [] => []
  | x :: r => if (lo <=? i) && (i <=? hi) then x :: between (i + 1) lo hi r else between (i + 1) lo hi r
  end.
Fixpoint outside (i lo hi : Z) (l : list bytes) : list bytes :=
  match l with
  | [] => []
  | x :: r => if (lo <=? i) && (i <=? hi) then outside (i + 1) lo hi r else x :: outside (i + 1) lo hi r
  end.

Definition from_head (i n : Z) : Z := if i <? 0 then i + n else i.

Definition with_elems (l : slist) (e : list bytes) : slist :=
  {| elems := e; limit := limit l; action := action l; shown := shown l; flags := flags l |}.

(* insertion into a sequence bounded by c *)
Definition insert_result (c : Z) (act : ovflact) (i : Z) (v : bytes) (l : list bytes) : code * list bytes :=
  let n := size l in
  let p := position i n in
  if (p <? 0) || (n <? p) || (if 0 <=? i then c <=? i else c <? - i) then (EIndexOOR, l)
  else if n <? c then (Success, put_at p v l)
  else match act with
       | OvError => (EOverflow, l)
       | _ => if i =? 0 then (Success, removelast (put_at p v l))         (* at the head: lose the tail *)
              else if i =? -1 then (Success, tl (put_at p v l))           (* at the tail: lose the head *)
              else match act with
                   | OvHeadTrim => (Success, tl (put_at p v l))
                   | _ => (Success, removelast (put_at p v l))
                   end
       end.

Definition fresh_list (smax : Z) (a : attrs) : slist :=
  {| elems := []; limit := want_limit smax (a_maxcount a);
     action := match a_ovfl a with None => OvTailTrim | Some o => o end;
     shown := a_readable a; flags := a_flags a |}.

Definition put (s : sstate) (x : sslot) : sstate := {| sl := x; server_max := server_max s |}.

Definition spec_step (s : sstate) (o : op) : sstate * out :=
  match o with
  | Create a =>
      match sl s with
      | NoItem => (put s (AList (fresh_list (server_max s) a)), OCode Success)
      | _ => (s, OCode KeyEEXISTS)
      end
  | Insert i v a =>
      match sl s with
      | OtherItem => (s, OInsert EBadType false)
      | NoItem =>
          match a with
          | None => (s, OInsert KeyENOENT false)
          | Some a' =>
              let l := fresh_list (server_max s) a' in
              let '(c, e) := insert_result (cap s l) (action l) i v [] in
              match c with
              | Success => (put s (AList (with_elems l e)), OInsert Success true)
              | _ => (s, OInsert c false)
              end
          end
      | AList l =>
          let '(c, e) := insert_result (cap s l) (action l) i v (elems l) in
          (put s (AList (with_elems l e)), OInsert c false)
      end
  | Delete f t drop =>
      match sl s with
      | NoItem => (s, ODelete KeyENOENT 0 false)
      | OtherItem => (s, ODelete EBadType 0 false)
      | AList l =>
          let n := size (elems l) in
          let f' := from_head f n in let t' := from_head t n in
          let lo := Z.min f' t' in let hi := Z.max f' t' in
          match between 0 lo hi (elems l) with
          | [] => (s, ODelete ElemENOENT 0 false)
          | sel =>
              match outside 0 lo hi (elems l), drop with
              | [], true => (put s NoItem, ODelete Success (size sel) true)
              | rest, _ => (put s (AList (with_elems l rest)), ODelete Success (size sel) false)
              end
          end
      end
  | Get f t del drop =>
      match sl s with
      | NoItem => (s, OGet KeyENOENT 0 [] false)
      | OtherItem => (s, OGet EBadType 0 [] false)
      | AList l =>
          if shown l then
            let n := size (elems l) in
            let f' := from_head f n in let t' := from_head t n in
            let lo := Z.min f' t' in let hi := Z.max f' t' in
            match between 0 lo hi (elems l) with
            | [] => (s, OGet ElemENOENT 0 [] false)
            | sel =>
                let answer := if f' <=? t' then sel else rev sel in
                if del then
                  match outside 0 lo hi (elems l), drop with
                  | [], true => (put s NoItem, OGet Success (flags l) answer true)
                  | rest, _ => (put s (AList (with_elems l rest)), OGet Success (flags l) answer false)
                  end
                else (s, OGet Success (flags l) answer false)
            end
          else (s, OGet Unreadable 0 [] false)
      end
  | SetAttr mc ov rd =>
      match sl s with
      | NoItem => (s, OCode KeyENOENT)
      | OtherItem => (s, OCode EBadType)
      | AList l =>
          let lim := match mc with None => limit l | Some x => want_limit (server_max s) x end in
          let fits := match mc, lim with Some _, Some c => size (elems l) <=? c | _, _ => true end in
          let ov_ok := match ov with Some OvOther => false | _ => true end in
          let rd_ok := match rd with Some false => false | _ => true end in
          if fits && ov_ok && rd_ok then
            (put s (AList {| elems := elems l; limit := lim;
                             action := match ov with None => action l | Some o => o end;
                             shown := match rd with None => shown l | Some _ => true end;
                             flags := flags l |}), OCode Success)
          else (s, OCode EBadValue)
      end
  | GetAttr =>
      match sl s with
      | NoItem => (s, OCode KeyENOENT)
      | OtherItem => (s, OCode EBadType)
      | AList l => (s, OAttr (size (elems l)) (cap s l) (action l) (shown l))
      end
  | Release _ => (s, ONone)
  | DeleteKey => (put s NoItem, OCode (match sl s with NoItem => KeyENOENT | _ => Success end))
  | SetKV => (put s OtherItem, OCode Success)
  | Config n =>
      let n' := if (n <? 0) || (1000000 <? n) then 1000000 else n in
      if server_max s <? n' then ({| sl := sl s; server_max := n' |}, OCode Success)
      else (s, OCode EBadValue)
  end.

Fixpoint spec_run (s : sstate) (ops : list op) : sstate * list out :=
  match ops with
  | [] => (s, [])
  | o :: r => let '(s1, x) := spec_step s o in let '(s2, xs) := spec_run s1 r in (s2, x :: xs)
  end.

Definition spec_init (smax : Z) : sstate := {| sl := NoItem; server_max := smax |}.
