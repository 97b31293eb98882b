(* Model of the pools of memory blocks (mc_util.c 27-162): chains of blocks linked by pointers.  A worker thread owns a
   pool; requests take lists of blocks from it for values and keys that follow as data, merge them and give them back.
   A block is a number, malloc gives a new one; the heap holds the next pointers.  None: an assertion fails or a null
   pointer is followed.  Simplified: counts do not wrap at 2^32, and the memory behind the next pointer is left out. *)
From Verif Require Import Base.
From Coq Require Import List NArith ZArith Bool Arith.
Local Open Scope list_scope.
Local Open Scope nat_scope.

Definition heap := nat -> option nat.
Definition set_next (h : heap) (a : nat) (v : option nat) : heap := fun x => if Nat.eqb x a then v else h x.
(* mc_util.h mblck_pool_t, mblck_list_t *)
Record pool := mkP { p_head : option nat; p_tail : option nat; p_body : N; p_used : Z; p_free : Z }.
Record lst := mkL { l_owned : bool; l_head : option nat; l_tail : option nat; l_cnt : nat; l_items : N; l_len : N; l_body : N }.
Record state := mkS { hp : heap; brk : nat; pl : pool; slots : list lst }.
Definition w_pool (s : state) (h : heap) (p : pool) := mkS h (brk s) p (slots s).

(* 30-38 *)
Definition do_mblck_pool_init (blck_len : N) : state := mkS (fun _ => None) 0 (mkP None None (blck_len - 8) 0 0) [].
(* 40-59: the first [avail] calls of malloc succeed *)
Definition grow_one (s : state) : state :=
  let b := brk s in let p := pl s in
  let h := set_next (hp s) b None in
  mkS (match p_tail p with Some t => set_next h t (Some b) | None => h end) (S b)
      (mkP (match p_tail p with Some _ => p_head p | None => Some b end) (Some b) (p_body p) (p_used p) (p_free p)) (slots s).
Fixpoint grow_loop (s : state) (n avail : nat) : state * nat :=
  match n, avail with
  | S n', S a' => let '(s', c) := grow_loop (grow_one s) n' a' in (s', S c)
  | _, _ => (s, 0)
  end.
Definition do_mblck_pool_grow (s : state) (n avail : nat) : state * nat :=
  let '(s', c) := grow_loop s n avail in
  let p := pl s' in
  (mkS (hp s') (brk s') (mkP (p_head p) (p_tail p) (p_body p) (p_used p) (p_free p + Z.of_nat c)) (slots s'), c).
(* 61-75, for mblck_pool_destroy 90-94: number of blocks given back *)
Fixpoint final_loop (fuel : nat) (h : heap) (a : option nat) (freed : list nat) : option (list nat) :=
  match a with
  | None => Some freed
  | Some x => match fuel with 0 => None | S f => final_loop f h (h x) (x :: freed) end
  end.
Definition mblck_pool_destroy (s : state) : option (list nat) :=
  if Z.eqb (p_used (pl s)) 0 then
    match final_loop (S (brk s)) (hp s) (p_head (pl s)) [] with
    | Some freed => if Z.eqb (p_free (pl s) - Z.of_nat (List.length freed)) 0 then Some freed else None
    | None => None
    end
  else None.

(* 113-117 *)
Fixpoint walk (h : heap) (a : nat) (n : nat) : option nat :=
  match n with 0 => Some a | S n' => match h a with Some b => walk h b n' | None => None end end.
Definition per_block (body item_len : N) : N := (body / item_len)%N.
Definition blocks_for (body item_len item_cnt : N) : nat := N.to_nat (((item_cnt + 2 ^ 32 - 1) mod 2 ^ 32) / per_block body item_len + 1).
Inductive out := Got (slot : nat) | NoMem | Done.
(* 96-132 *)
Definition mblck_list_alloc (s : state) (item_len item_cnt : N) (avail : nat) : option (state * out) :=
  let body := p_body (pl s) in
  if N.eqb item_len 0 then None else if N.eqb (per_block body item_len) 0 then None else
  let n := blocks_for body item_len item_cnt in
  let need := Z.to_nat (Z.of_nat n - p_free (pl s)) in
  let '(s1, c) := if Z.ltb (p_free (pl s)) (Z.of_nat n) then do_mblck_pool_grow s need avail else (s, need) in
  if Nat.ltb c need then Some (s1, NoMem) else
  let p := pl s1 in
  if Z.ltb (p_free p) (Z.of_nat n) then None else
  match p_head p with
  | None => None
  | Some a =>
      match walk (hp s1) a (n - 1) with
      | None => None
      | Some t =>
          let hd := hp s1 t in
          let p' := mkP hd (match hd with None => None | Some _ => p_tail p end) (p_body p) (p_used p + Z.of_nat n) (p_free p - Z.of_nat n) in
          Some (mkS (set_next (hp s1) t None) (brk s1) p' (slots s1 ++ [mkL true (Some a) (Some t) n item_cnt item_len (per_block body item_len * item_len)%N]), Got (List.length (slots s1)))
      end
  end.
Fixpoint upd {A} (l : list A) (i : nat) (x : A) : list A :=
  match l, i with [], _ => [] | _ :: r, 0 => x :: r | y :: r, S j => y :: upd r j x end.
(* 134-146 *)
Definition mblck_list_merge (s : state) (i j : nat) : option (state * out) :=
  match nth_error (slots s) i, nth_error (slots s) j with
  | Some a, Some b =>
      if (l_owned a && l_owned b)%bool then
        match l_tail a with
        | None => None
        | Some t =>
            let a' := mkL (l_owned a) (l_head a) (l_tail b) (l_cnt a + l_cnt b) (l_items a) (l_len a) (l_body a) in
            let b' := mkL (l_owned b) None None 0 (l_items b) (l_len b) (l_body b) in
            Some (mkS (set_next (hp s) t (l_head b)) (brk s) (pl s) (upd (upd (slots s) j b') i a'), Done)
        end
      else None
  | _, _ => None
  end.
(* 148-167 *)
Definition mblck_list_free (s : state) (i : nat) : option (state * out) :=
  match nth_error (slots s) i with
  | Some a =>
      if l_owned a then
        if Nat.ltb 0 (l_cnt a) then
          match l_tail a with
          | None => None
          | Some t =>
              let p := pl s in
              Some (mkS (set_next (hp s) t (p_head p)) (brk s)
                        (mkP (l_head a) (match p_tail p with None => l_tail a | Some x => Some x end) (p_body p) (p_used p - Z.of_nat (l_cnt a)) (p_free p + Z.of_nat (l_cnt a)))
                        (upd (slots s) i (mkL false None None 0 (l_items a) (l_len a) (l_body a))), Done)
          end
        else Some (mkS (hp s) (brk s) (pl s) (upd (slots s) i (mkL false (l_head a) (l_tail a) 0 (l_items a) (l_len a) (l_body a))), Done)
      else None
  | None => None
  end.

Inductive op := Alloc (item_len item_cnt : N) (avail : nat) | Merge (i j : nat) | Free (i : nat).
Definition step (s : state) (o : op) : option (state * out) :=
  match o with
  | Alloc len cnt av => mblck_list_alloc s len cnt av
  | Merge i j => mblck_list_merge s i j
  | Free i => mblck_list_free s i
  end.
Fixpoint run (s : state) (l : list op) : option (state * list out) :=
  match l with
  | [] => Some (s, [])
  | o :: r => match step s o with
              | None => None
              | Some (s1, x) => match run s1 r with Some (s2, xs) => Some (s2, x :: xs) | None => None end
              end
  end.
(* 80-88 *)
Definition mblck_pool_create (blck_len : N) (n avail : nat) : option state :=
  let '(s, c) := do_mblck_pool_grow (do_mblck_pool_init blck_len) n avail in
  if Nat.ltb c n then None else Some s.
