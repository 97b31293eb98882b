(* Hash trees of the set and map collections: the parts coll_set.c and coll_map.c have in
   common.  engines/default/item_base.h 231-242 and 255-267.

   Simplifications: a node or element is a value instead of an address; a hash chain is the
   list of its elements from the head, hcnt[i] is its length (or -1 for a child node), and a
   chain longer than an int16_t can count is an error (None); the memory accounting
   (do_coll_space_incr/decr), reference counts of elements and the persistence hooks are left
   out.  A result None means: assertion failure, index out of the array, or counter overflow. *)
From Verif Require Import Base.

(* set_elem_item (value = ek, ev empty) and map_elem_item (field = ek, value = ev) *)
Record elem := mkElem { eh : Z; ek : bytes; ev : bytes }.

(* set_hash_node: hdepth, tot_elem_cnt (nt); map_hash_node: hdepth, cur_elem_cnt (nt),
   cur_hash_cnt (nh, 0 for sets).  hdepth is a uint8_t; only hdepth mod 8 is ever used. *)
Inductive node := Node (nd nt nh : nat) (tab : nat -> slot)
with slot := Chain (l : list elem) | Child (n : node).

Scheme node_mut := Induction for node Sort Prop
with slot_mut := Induction for slot Sort Prop.

Definition ntab (n : node) := match n with Node _ _ _ tab => tab end.
Definition ndep (n : node) := match n with Node d _ _ _ => d end.
Definition ntot (n : node) := match n with Node _ t _ _ => t end.
Definition nhsh (n : node) := match n with Node _ _ h _ => h end.

(* SET_GET_HASHIDX / MAP_GET_HASHIDX: coll_set.c 105-106, coll_map.c.  hval is a signed int:
   at depth 7 the mask is 0xF0000000 and the shift right is arithmetic, so a negative hash
   gives a negative index.  At depth 8 and more the shift count is >= 32, which is undefined
   in C; modelled as x86 does it (count modulo 32). *)
Definition hidx (h : Z) (d : nat) : option nat :=
  let e := Nat.modulo d 8 in
  let i := if Nat.eqb e 7 then Z.shiftr h 28 else Z.land (Z.shiftr h (4 * Z.of_nat e)) 15 in
  if (i <? 0)%Z then None else Some (Z.to_nat i).

Definition slots : list nat := seq 0 16.
Definition upd (tab : nat -> slot) (i : nat) (s : slot) : nat -> slot := fun j => if Nat.eqb j i then s else tab j.
Definition empty_tab : nat -> slot := fun _ => Chain [].

(* set_hash_eq / map_hash_eq *)
Definition same (h : Z) (k : bytes) (e : elem) : bool := Z.eqb h (eh e) && beqb k (ek e).

(* INT16_MAX *)
Definition max_chain : nat := Z.to_nat 32767.
Definition chain_ok (n : nat) : bool := (Z.of_nat n <=? 32767)%Z.

(* do_set_elem_find (coll_set.c 412-435), do_map_elem_find (coll_map.c) *)
Fixpoint find_elem (n : node) (h : Z) (k : bytes) : option (option elem) :=
  match n with Node d _ _ tab =>
    match hidx h d with
    | None => None
    | Some i => match tab i with
                | Chain l => Some (find (same h k) l)
                | Child m => find_elem m h k
                end
    end
  end.

(* the loop of do_set_node_link / do_map_node_link: move a chain into a new node *)
Fixpoint move (d : nat) (l : list elem) (tab : nat -> slot) : option (nat -> slot) :=
  match l with
  | [] => Some tab
  | e :: r =>
      match hidx (eh e) d with
      | None => None
      | Some i => match tab i with
                  | Chain c => move d r (upd tab i (Chain (e :: c)))
                  | Child _ => None
                  end
      end
  end.

(* is_leaf_node *)
Definition is_leaf (n : node) : bool :=
  forallb (fun i => match ntab n i with Chain _ => true | Child _ => false end) slots.

(* the loop of do_set_node_unlink / do_map_node_unlink: gather all chains, each reversed *)
Fixpoint gather (is : list nat) (tab : nat -> slot) (head : list elem) : option (list elem) :=
  match is with
  | [] => Some head
  | i :: r => match tab i with
              | Chain l => gather r tab (rev_append l head)
              | Child _ => None
              end
  end.

(* remove the first element with this hash and key from a chain *)
Fixpoint chain_del (h : Z) (k : bytes) (l : list elem) : option (elem * list elem) :=
  match l with
  | [] => None
  | e :: r => if same h k e then Some (e, r)
              else match chain_del h k r with
                   | Some (x, r') => Some (x, e :: r')
                   | None => None
                   end
  end.

(* the inner loop of the dfs functions: take elements from the head of a chain, stop when
   the count is reached (count 0 = no limit); fcnt elements were found before *)
Fixpoint take_chain (count fcnt : nat) (l : list elem) : list elem * list elem :=
  match l with
  | [] => ([], [])
  | e :: r => if negb (Nat.eqb count 0) && Nat.leb count (S fcnt) then ([e], r)
              else let '(a, b) := take_chain count (S fcnt) r in (e :: a, b)
  end.

(* reached: count > 0 && fcnt >= count *)
Definition full (count fcnt : nat) : bool := negb (Nat.eqb count 0) && Nat.leb count fcnt.
(* rcnt = (count > 0 ? count - fcnt : 0) *)
Definition rest (count fcnt : nat) : nat := if Nat.eqb count 0 then 0 else count - fcnt.
