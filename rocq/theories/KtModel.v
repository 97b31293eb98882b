(* Which server of a cluster is responsible for a key (cluster_config.c): the hash ring, its reconfiguration when servers
   join and leave, and the question whether a key is mine, which "scrub stale" asks for every item (items.c 1155-1175).
   Simplified: md5 is any function; malloc and realloc fail as an argument says; the arrays of node pointers and of ring
   pointers, which alternate between two memory areas, are lists; qsort is insertion sort (elements that compare equal
   are hash points of one node); reference counts (uint16_t) do not wrap; node names have no NUL. *)
From Coq Require Import String Ascii.
From Verif Require Import Base UtilModel.
From Coq Require Import List.
Local Open Scope nat_scope.
Local Open Scope list_scope.

(* qsort *)
Section Sort.
Context {A : Type}.
Variable le : A -> A -> bool.
Fixpoint ins (a : A) (l : list A) : list A :=
  match l with [] => [a] | b :: r => if le a b then a :: l else b :: ins a r end.
Fixpoint isort (l : list A) : list A := match l with [] => [] | a :: r => ins a (isort r) end.
End Sort.

(* strcmp on strings without NUL *)
Fixpoint strcmp (a b : bytes) : comparison :=
  match a, b with
  | [], [] => Eq
  | [], _ => Lt
  | _, [] => Gt
  | x :: a', y :: b' => match (x ?= y)%N with Eq => strcmp a' b' | c => c end
  end.

Section Ketama.
Variable md5 : bytes -> bytes.

(* four bytes of a digest, 97-106, 142-147 *)
Definition word (d : bytes) (nn : nat) : N :=
  let b i := (nth (i + nn * 4) d 0 mod 256)%N in
  N.lor (N.lor (N.lor (N.shiftl (b 3) 24) (N.shiftl (b 2) 16)) (N.shiftl (b 1) 8)) (b 0).
Definition hash_ketama (key : bytes) : N := word (md5 key) 0.
(* 129-165 gen_node_continuum; buffer has room for the longest name (127 + 3 characters) *)
Definition gen_points (name : bytes) : list N :=
  flat_map (fun hh => map (word (md5 (name ++ [45]%N ++ dec_text (N.of_nat hh)))) (seq 0 4)) (seq 0 40).
Definition gen_node (name : bytes) : list N := isort N.leb (gen_points name).

(* struct node_item: ndname, refcnt, nindex of its slices, hpoint of its slices *)
Record node := mkN { n_name : bytes; n_ref : nat; n_idx : N; n_hs : list N }.
(* struct cluster_config: the nodes by address, 0 is self_node and n those obtained with malloc lie below k_next;
   k_cont: pointers to slices (node, index); None: never configured.  k_pend: a ring that is built but not in use *)
Record ring := mkR { r_arr : list nat; r_cont : list (nat * nat); r_self : Z }.
Record cfg := mkK { k_node : nat -> node; k_next : nat; k_free : list nat; k_ring : option ring; k_valid : bool; k_pend : option ring }.

Definition put {A} (f : nat -> A) (i : nat) (v : A) : nat -> A := fun j => if Nat.eqb j i then v else f j.
Definition with_node (c : cfg) (f : nat -> node) : cfg := mkK f (k_next c) (k_free c) (k_ring c) (k_valid c) (k_pend c).
Definition with_free (c : cfg) (n : nat) (l : list nat) : cfg := mkK (k_node c) n l (k_ring c) (k_valid c) (k_pend c).
Definition with_ref (n : node) (r : nat) : node := mkN (n_name n) r (n_idx n) (n_hs n).
Definition with_idx (n : node) (i : N) : node := mkN (n_name n) (n_ref n) i (n_hs n).
Definition arr (c : cfg) : list nat := match k_ring c with Some r => r_arr r | None => [] end.
Definition name (c : cfg) (i : nat) : bytes := n_name (k_node c i).

(* 245-253 do_node_item_init *)
Definition node_init (nm : bytes) : node := let nm := firstn 127 nm in mkN nm 0 0 (gen_node nm).
(* 560-592 cluster_config_init with 283-320: ten nodes on the free list *)
Definition init (self : bytes) : cfg :=
  mkK (fun _ => with_ref (node_init self) 1) 11 (rev (seq 1 10)) None false None.

(* 169-181 do_node_string_check: strtok_r(s, "-"); None: no token *)
Fixpoint until (l : bytes) : bytes := match l with [] => [] | b :: r => if (b =? 45)%N then [] else b :: until r end.
Fixpoint strip (l : bytes) : option bytes :=
  match l with
  | [] => None
  | b :: r => if (b =? 45)%N then match strip r with Some s => Some (b :: s) | None => None end else Some (b :: until r)
  end.
Fixpoint strips (l : list bytes) : option (list bytes) :=
  match l with
  | [] => Some []
  | s :: r => match strip s, strips r with Some a, Some b => Some (a :: b) | _, _ => None end
  end.

(* 203-222 do_node_free_list_prepare; m: how many calls of malloc succeed *)
Definition prepare (c : cfg) (count m : nat) : cfg * bool :=
  let add := count - (length (k_free c) + length (arr c)) in
  let n := Nat.min add m in
  (with_free c (k_next c + n) (rev (seq (k_next c) n) ++ k_free c), Nat.leb add m).

(* while (left <= right) ...: inl: broke out at mid, inr: left at the end; None: out of fuel *)
Fixpoint search (fuel : nat) (cmp : Z -> comparison) (left right : Z) : option (Z + Z) :=
  match fuel with
  | O => None
  | S f =>
      if (left <=? right)%Z then
        let mid := ((left + right) / 2)%Z in
        match cmp mid with
        | Eq => Some (inl mid)
        | Lt => search f cmp left (mid - 1)
        | Gt => search f cmp (mid + 1) right
        end
      else Some (inr left)
  end.
Definition bsearch (n : nat) (cmp : Z -> comparison) : option (Z + Z) := search (S n) cmp 0 (Z.of_nat n - 1).

(* 352-369 do_nodearray_find *)
Definition array_find (c : cfg) (a : list nat) (nm : bytes) : Z :=
  match bsearch (length a) (fun mid => strcmp nm (name c (nth (Z.to_nat mid) a 0))) with
  | Some (inl mid) => mid
  | _ => (-1)%Z
  end.
(* 371-380 do_nodearray_release *)
Fixpoint release (c : cfg) (a : list nat) : cfg :=
  match a with
  | [] => c
  | i :: r =>
      let n := n_ref (k_node c i) - 1 in
      let c1 := with_node c (put (k_node c) i (with_ref (k_node c i) n)) in
      release (if Nat.eqb n 0 then with_free c1 (k_next c1) (i :: k_free c1) else c1) r
  end.
(* 404-430, the loop over the names; None: assertion failed *)
Fixpoint build (c : cfg) (strs : list bytes) : option (cfg * list nat * nat) :=
  match strs with
  | [] => Some (c, [], 0)
  | s :: r =>
      let id := if Nat.ltb 0 (length (arr c)) then array_find c (arr c) s else (-1)%Z in
      let got :=
        if (0 <=? id)%Z then Some (c, nth (Z.to_nat id) (arr c) 0, 1)
        else if beqb s (name c 0) then Some (c, 0, 0)
        else match k_free c with
             | [] => None
             | i :: fr => Some (with_free (with_node c (put (k_node c) i (node_init s))) (k_next c) fr, i, 0)
             end in
      match got with
      | None => None
      | Some (c1, i, k) =>
          let c2 := with_node c1 (put (k_node c1) i (with_ref (k_node c1 i) (n_ref (k_node c1 i) + 1))) in
          match build c2 r with
          | None => None
          | Some (c3, l, n) => Some (c3, i :: l, k + n)
          end
      end
  end.

Definition hpoint (f : nat -> node) (p : nat * nat) : N := nth (snd p) (n_hs (f (fst p))) 0%N.
(* 113-123 compare_cont_item_ptr *)
Definition cont_le (f : nat -> node) (p q : nat * nat) : bool :=
  (hpoint f p <? hpoint f q)%N || (hpoint f p =? hpoint f q)%N && (n_idx (f (fst p)) <=? n_idx (f (fst q)))%N.
(* 460-473 do_continuum_build: nindex is a uint16_t *)
Fixpoint number (f : nat -> node) (i : N) (a : list nat) : nat -> node :=
  match a with [] => f | x :: r => number (put f x (with_idx (f x) (i mod 65536))) (i + 1) r end.
Definition pointers (a : list nat) : list (nat * nat) := flat_map (fun i => map (fun j => (i, j)) (seq 0 160)) a.

Inductive rres := RInvalid | RFail | RSame (added removed : nat) | RNew (added removed : nat).
Definition name_le (c : cfg) (i j : nat) : bool := match strcmp (name c i) (name c j) with Gt => false | _ => true end.
(* 624-672 cluster_config_reconfigure up to do_hashring_replace, 382-444 do_nodearray_build_for_replace.  strs: what the
   caller passes; m, ok: success of malloc and realloc.  None: assertion failed *)
Definition begin (c : cfg) (raw : list bytes) (m : nat) (ok : bool) : option (cfg * rres) :=
  match raw with
  | [] => Some (mkK (k_node c) (k_next c) (k_free c) (k_ring c) (k_valid c) (Some (mkR [] [] (-1))), RNew 0 (length (arr c)))
  | _ =>
      match strips raw with
      | None => Some (c, RInvalid)
      | Some strs =>
          let n := length strs in
          let fail c := Some (mkK (k_node c) (k_next c) (k_free c) (k_ring c) false (k_pend c), RFail) in
          match prepare c n m with
          | (c1, false) => fail c1
          | (c1, true) =>
              if negb ok then fail c1
              else match build c1 strs with
                   | None => None
                   | Some (c2, l, nf) =>
                       let added := n - nf in
                       let removed := length (arr c) - nf in
                       if Nat.eqb n (length (arr c)) && Nat.eqb n nf then Some (release c2 l, RSame added removed)
                       else
                         let a := isort (name_le c2) l in
                         let f := number (k_node c2) 0 a in
                         Some (mkK f (k_next c2) (k_free c2) (k_ring c2) (k_valid c2)
                                   (Some (mkR a (isort (cont_le f) (pointers a)) (array_find c2 a (name c2 0)))),
                               RNew added removed)
                   end
          end
      end
  end.
(* 491-530 do_hashring_replace *)
Definition finish (c : cfg) : cfg :=
  match k_pend c with
  | None => c
  | Some r => release (mkK (k_node c) (k_next c) (k_free c) (Some r) true None) (arr c)
  end.

(* 532-558 do_continuum_find; the index of the slice *)
Fixpoint back (f : nat -> node) (l : list (nat * nat)) (h : N) (mid : nat) : nat :=
  match mid with
  | O => O
  | S k => if (hpoint f (nth k l (0, 0)%nat) =? h)%N then back f l h k else mid
  end.
Definition cont_find (f : nat -> node) (l : list (nat * nat)) (h : N) : option nat :=
  match bsearch (length l) (fun mid => (h ?= hpoint f (nth (Z.to_nat mid) l (0, 0)%nat))%N) with
  | Some (inl mid) => Some (back f l h (Z.to_nat mid))
  | Some (inr lf) => Some (if (lf <? Z.of_nat (length l))%Z then Z.to_nat lf else 0)
  | None => None
  end.
Inductive ans := Mine (mine : bool) (key_id : N) (self_id : Z) | Unknown | Bad.
(* 680-699 cluster_config_key_is_mine; Bad: assertion, or the ring is empty and its first element is read *)
Definition key_is_mine (c : cfg) (key : bytes) : ans :=
  match k_ring c with
  | None => Bad
  | Some r =>
      if k_valid c then
        match cont_find (k_node c) (r_cont r) (hash_ketama key) with
        | Some i => match nth_error (r_cont r) i with
                    | Some p => let x := n_idx (k_node c (fst p)) in Mine (Z.of_N x =? r_self r)%Z x (r_self r)
                    | None => Bad
                    end
        | None => Bad
        end
      else Unknown
  end.
(* items.c 1155-1175 with memcached.c 15329-15341 is_my_key: an item is stale if its key is known not to be mine *)
Definition stale (c : cfg) (key : bytes) : bool := match key_is_mine c key with Mine m _ _ => negb m | _ => false end.
End Ketama.
