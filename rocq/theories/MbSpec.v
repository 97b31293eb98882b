(* What the users of a pool of blocks rely on: every list is a sequence of blocks of its own.
   The specification is a set of sequences without pointers. *)
From Verif Require Import Base MbModel.
From Coq Require Import List NArith ZArith Bool Arith.
Local Open Scope list_scope.
Local Open Scope nat_scope.

(* the blocks found by following pointers from [a] *)
Inductive follows (h : heap) : option nat -> list nat -> Prop :=
| follows_end : follows h None []
| follows_on x r : follows h (h x) r -> follows h (Some x) (x :: r).
(* abstract state: blocks that are free, and the blocks of every list given out (None: given back) *)
Definition astate := (list nat * list (option (list nat)))%type.
Definition blocks_of (x : option (list nat)) : list nat := match x with Some b => b | None => [] end.
Definition put {A} (l : list A) (i : nat) (x : A) : list A := firstn i l ++ x :: skipn (S i) l.
(* number of blocks that hold [cnt] items of [len] bytes, so many whole items in a block *)
Definition enough (per cnt : N) (n : nat) : Prop := (cnt <= per * N.of_nat n)%N /\ (per * (N.of_nat n - 1) < cnt)%N.

Inductive anext (body : N) : astate -> op -> out -> astate -> Prop :=
| a_alloc fl more got rest given len cnt av n :
    enough (body / len)%N cnt n -> fl ++ more = got ++ rest -> List.length got = n -> (more <> [] -> rest = []) ->
    anext body (fl, given) (Alloc len cnt av) (Got (List.length given)) (rest, given ++ [Some got])
| a_nomem fl more given len cnt av : List.length more = av ->
    anext body (fl, given) (Alloc len cnt av) NoMem (fl ++ more, given)
| a_merge fl given i j a b : nth_error given i = Some (Some a) -> nth_error given j = Some (Some b) -> i <> j ->
    anext body (fl, given) (Merge i j) Done (fl, put (put given j (Some [])) i (Some (a ++ b)))
| a_free fl given i a : nth_error given i = Some (Some a) ->
    anext body (fl, given) (Free i) Done (a ++ fl, put given i None).
(* what a user may ask: sizes that fit, at least one item, a list that was given and has blocks *)
Definition proper (body : N) (st : astate) (o : op) : Prop :=
  match o with
  | Alloc len cnt _ => (0 < len <= body)%N /\ (0 < cnt < 2 ^ 32)%N
  | Merge i j => i <> j /\ (exists x r, nth_error (snd st) i = Some (Some (x :: r))) /\ (exists y q, nth_error (snd st) j = Some (Some (y :: q)))
  | Free i => exists b, nth_error (snd st) i = Some (Some b)
  end.
Inductive ahistory (body : N) : astate -> list op -> list out -> astate -> Prop :=
| h_nil st : ahistory body st [] [] st
| h_cons st o x st1 l xs st2 : anext body st o x st1 -> ahistory body st1 l xs st2 -> ahistory body st (o :: l) (x :: xs) st2.
(* what the user knows of the lists: with blocks, merged into another one, given back *)
Inductive status := Full | Empty | Back.
Definition next_status (m : list status) (x : op * out) : list status :=
  match x with
  | (Alloc _ _ _, Got _) => m ++ [Full]
  | (Merge i j, _) => put m j Empty
  | (Free i, _) => put m i Back
  | _ => m
  end.
(* sizes that fit in a block, at least one item, lists that were given and not given back, merged lists not empty *)
Definition allowed (body : N) (m : list status) (o : op) : Prop :=
  match o with
  | Alloc len cnt _ => (0 < len <= body)%N /\ (0 < cnt < 2 ^ 32)%N
  | Merge i j => i <> j /\ nth_error m i = Some Full /\ nth_error m j = Some Full
  | Free i => nth_error m i = Some Full \/ nth_error m i = Some Empty
  end.
Fixpoint use (body : N) (s : state) (m : list status) (l : list op) : Prop :=
  match l with
  | [] => True
  | o :: r => allowed body m o /\ match step s o with Some (s1, x) => use body s1 (next_status m (o, x)) r | None => True end
  end.
