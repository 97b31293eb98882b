(* Model of the map collection: engines/default/coll_map.c (see HtModel.v).
   A node counts the elements of its own chains (nt = cur_elem_cnt, a uint16_t) and its child
   nodes (nh = cur_hash_cnt). *)
From Verif Require Import Base HtModel.

Inductive rc := SUCC | EEXISTS | ENOENT | ENOMEM | EOVERFLOW.
Inductive lres := LNew | LReplaced | LErr (c : rc).

(* map_meta_info; [maxc] is info->mcnt > 0 ? info->mcnt : config->max_map_size *)
Record map_info := mkMap { root : option node; ccnt : nat; maxc : nat }.

(* fits an uint16_t *)
Definition cnt_ok (n : nat) : bool := (Z.of_nat n <=? 65535)%Z.

(* coll_map.c 291-330 do_map_elem_replace: the element takes the place of the old one in its chain *)
Fixpoint chain_replace (e : elem) (l : list elem) : list elem :=
  match l with
  | [] => []
  | x :: r => if same (eh e) (ek e) x then e :: r else x :: chain_replace e r
  end.

(* 332-425 do_map_elem_link.  [room]: info->ccnt < maximum; [sticky]: the item is sticky and
   the sticky memory is used up; [mem]: the node allocation succeeds. *)
Fixpoint m_link (n : node) (e : elem) (rep room sticky mem : bool) : option (lres * node) :=
  match n with Node d t z tab =>
    match hidx (eh e) d with
    | None => None
    | Some i =>
        match tab i with
        | Child m =>
            match m_link m e rep room sticky mem with
            | Some (LErr c, _) => Some (LErr c, n)
            | Some (r, m') => Some (r, Node d t z (upd tab i (Child m')))
            | None => None
            end
        | Chain l =>
            match find (same (eh e) (ek e)) l with
            | Some x =>
                if rep then
                  if sticky && Nat.ltb (length (ev x)) (length (ev e)) then Some (LErr ENOMEM, n)
                  else Some (LReplaced, Node d t z (upd tab i (Chain (chain_replace e l))))
                else Some (LErr EEXISTS, n)
            | None =>
                if sticky then Some (LErr ENOMEM, n)
                else if negb room then Some (LErr EOVERFLOW, n)
                else if Nat.leb 64 (length l) then
                  if negb mem then Some (LErr ENOMEM, n) else
                  match move (S d) l empty_tab with
                  | None => None
                  | Some tab' =>
                      match hidx (eh e) (S d) with
                      | None => None
                      | Some j =>
                          match tab' j with
                          | Child _ => None
                          | Chain c =>
                              if chain_ok (S (length c)) then
                                Some (LNew, Node d (t - length l) (S z) (upd tab i (Child
                                  (Node (S d) (S (length l)) 0 (upd tab' j (Chain (e :: c)))))))
                              else None
                          end
                      end
                  end
                else if chain_ok (S (length l)) && cnt_ok (S t) then Some (LNew, Node d (S t) z (upd tab i (Chain (e :: l))))
                else None
            end
        end
    end
  end.

(* 239-289 do_map_node_unlink of the child in slot i, when it has no child nodes and fewer
   than 32 elements *)
Definition m_after (d t z : nat) (tab : nat -> slot) (i : nat) (m : node) : option node :=
  if Nat.eqb (nhsh m) 0 && Nat.ltb (ntot m) 32 then
    match gather slots (ntab m) [] with
    | Some l => if Nat.eqb (length l) (ntot m) && cnt_ok (t + length l)
                then Some (Node d (t + length l) (pred z) (upd tab i (Chain l))) else None
    | None => None
    end
  else Some (Node d t z (upd tab i (Child m))).

(* 451-491 do_map_elem_traverse_dfs_byfield *)
Fixpoint m_byfield (del : bool) (n : node) (h : Z) (k : bytes) : option (option elem * node) :=
  match n with Node d t z tab =>
    match hidx h d with
    | None => None
    | Some i =>
        match tab i with
        | Child m =>
            match m_byfield del m h k with
            | None => None
            | Some (None, _) => Some (None, n)
            | Some (Some e, m') =>
                if del then
                  match m_after d t z tab i m' with
                  | Some n' => Some (Some e, n')
                  | None => None
                  end
                else Some (Some e, n)
            end
        | Chain l =>
            match chain_del h k l with
            | Some (e, r) => if del then Some (Some e, Node d (pred t) z (upd tab i (Chain r))) else Some (Some e, n)
            | None => Some (None, n)
            end
        end
    end
  end.

(* 493-528 do_map_elem_traverse_dfs_bycnt *)
Definition m_dfs_slots (rec : node -> nat -> option (list elem * node)) (del : bool) (count d : nat)
    (tab0 : nat -> slot) :=
  fix go (is : list nat) (t z : nat) (tab : nat -> slot) (acc : list elem) : option (list elem * node) :=
    match is with
    | [] => Some (acc, Node d t z tab)
    | i :: r =>
        let cont := fun t z tab acc =>
          if full count (length acc) then Some (acc, Node d t z tab) else go r t z tab acc in
        match tab0 i with
        | Child m =>
            match rec m (rest count (length acc)) with
            | None => None
            | Some (l, m') =>
                if del then
                  match m_after d t z tab i m' with
                  | None => None
                  | Some (Node _ t' z' tab') => cont t' z' tab' (acc ++ l)
                  end
                else cont t z tab (acc ++ l)
            end
        | Chain c =>
            let '(a, b) := take_chain count (length acc) c in
            if del then cont (t - length a) z (upd tab i (Chain b)) (acc ++ a)
            else cont t z tab (acc ++ a)
        end
    end.
Fixpoint m_dfs (del : bool) (n : node) (count : nat) : option (list elem * node) :=
  match n with Node d t z tab => m_dfs_slots (m_dfs del) del count d tab slots t z tab [] end.

(* the write of do_map_elem_update (601-605 in place, or 617-628 through replace): the element
   found gets the new value *)
Fixpoint m_put (n : node) (e : elem) : option node :=
  match n with Node d t z tab =>
    match hidx (eh e) d with
    | None => None
    | Some i => match tab i with
                | Child m => match m_put m e with
                             | Some m' => Some (Node d t z (upd tab i (Child m')))
                             | None => None
                             end
                | Chain l => Some (Node d t z (upd tab i (Chain (chain_replace e l))))
                end
    end
  end.

Section Map_.
Variable hash : bytes -> Z.      (* genhash_string_hash, any function *)

(* the loops over the field list in do_map_elem_get and do_map_elem_delete_with_field *)
Fixpoint by_fields (del : bool) (n : node) (fl : list bytes) : option (list elem * node) :=
  match fl with
  | [] => Some ([], n)
  | k :: r =>
      match m_byfield del n (hash k) k with
      | None => None
      | Some (x, n1) =>
          match by_fields del n1 r with
          | None => None
          | Some (l, n2) => Some (match x with Some e => e :: l | None => l end, n2)
          end
      end
  end.

(* do_map_node_unlink(info, NULL, 0) when the root is empty *)
Definition drop_root (n : node) : option node :=
  if Nat.eqb (nhsh n) 0 && Nat.eqb (ntot n) 0 then None else Some n.

Inductive op :=
| Insert (f v : bytes) (rep : bool) (sticky mem_root mem_node : bool)
| Update (f v : bytes) (held sticky mem : bool)
| Delete (fl : list bytes)
| Get (fl : list bytes) (del : bool)
| DeleteSome (count : nat).

Inductive out := ORc (c : rc) | OIns (replaced : bool) | ONum (n : nat) | OElems (l : list (bytes * bytes)).

Definition pair_of (e : elem) : bytes * bytes := (ek e, ev e).

(* map_elem_delete: assert(info->root == NULL) when the last element is gone *)
Definition root_gone (c : nat) (r : option node) : bool :=
  match r with Some _ => negb (Nat.eqb c 0) | None => true end.

(* 679-710 do_map_elem_insert, 584-632 do_map_elem_update, 831-864 map_elem_delete with
   530-554 do_map_elem_delete_with_field, 866-923 map_elem_get with 648-677 do_map_elem_get,
   634-646 do_map_elem_delete.  An empty field list is "all fields". *)
Definition step (s : map_info) (o : op) : option (map_info * out) :=
  match o with
  | Insert f v rep sticky mem_root mem_node =>
      let e := mkElem (hash f) f v in
      let room := Nat.ltb (ccnt s) (maxc s) in
      match root s with
      | None =>
          if negb mem_root then Some (s, ORc ENOMEM)
          else match m_link (Node 0 0 0 empty_tab) e rep room sticky mem_node with
               | Some (LNew, n') => Some (mkMap (Some n') (S (ccnt s)) (maxc s), OIns false)
               | Some (LReplaced, _) => None
               | Some (LErr c, n') => match drop_root n' with None => Some (s, ORc c) | Some _ => None end
               | None => None
               end
      | Some n =>
          match m_link n e rep room sticky mem_node with
          | Some (LNew, n') => Some (mkMap (Some n') (S (ccnt s)) (maxc s), OIns false)
          | Some (LReplaced, n') => Some (mkMap (Some n') (ccnt s) (maxc s), OIns true)
          | Some (LErr c, _) => Some (s, ORc c)
          | None => None
          end
      end
  | Update f v held sticky mem =>
      match root s with
      | None => Some (s, ORc ENOENT)
      | Some n =>
          match find_elem n (hash f) f with
          | None => None
          | Some None => Some (s, ORc ENOENT)
          | Some (Some x) =>
              let put :=
                match m_put n (mkElem (eh x) (ek x) v) with
                | Some n' => Some (mkMap (Some n') (ccnt s) (maxc s), ORc SUCC)
                | None => None
                end in
              if negb held && Nat.eqb (length (ev x)) (length v) then put
              else if sticky && Nat.ltb (length (ev x)) (length v) then Some (s, ORc ENOMEM)
              else if negb mem then Some (s, ORc ENOMEM)
              else put
          end
      end
  | Delete fl =>
      match root s with
      | None => Some (s, ORc ENOENT)
      | Some n =>
          match (match fl with [] => m_dfs true n 0 | _ => by_fields true n fl end) with
          | None => None
          | Some (l, n') =>
              let s' := mkMap (drop_root n') (ccnt s - length l) (maxc s) in
              if negb (root_gone (ccnt s') (root s')) then None
              else match l with [] => Some (s', ORc ENOENT) | _ => Some (s', ONum (length l)) end
          end
      end
  | Get fl del =>
      if Nat.eqb (ccnt s) 0 then Some (s, ORc ENOENT)
      else
        let cap := if Nat.eqb (length fl) 0 || Nat.ltb (ccnt s) (length fl) then ccnt s else length fl in
        match root s with
        | None => None
        | Some n =>
            match (match fl with [] => m_dfs del n 0 | _ => by_fields del n fl end) with
            | None => None
            | Some (l, n') =>
                let s' := if del then mkMap (drop_root n') (ccnt s - length l) (maxc s) else s in
                if Nat.ltb cap (length l) then None   (* written past the end of elem_array *)
                else match l with [] => Some (s', ORc ENOENT) | _ => Some (s', OElems (map pair_of l)) end
            end
        end
  | DeleteSome count =>
      match root s with
      | None => Some (s, ONum 0)
      | Some n =>
          match m_dfs true n count with
          | None => None
          | Some (l, n') => Some (mkMap (drop_root n') (ccnt s - length l) (maxc s), ONum (length l))
          end
      end
  end.

Fixpoint run (s : map_info) (ops : list op) : option (map_info * list out) :=
  match ops with
  | [] => Some (s, [])
  | o :: r => match step s o with
              | None => None
              | Some (s1, x) => match run s1 r with
                                | Some (s2, xs) => Some (s2, x :: xs)
                                | None => None
                                end
              end
  end.
End Map_.
