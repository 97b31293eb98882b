(* What the detection of long queries shows: per command the number of long requests since the start and
   the first twenty that differ. *)
From Coq Require Import String.
From Coq Require Import List NArith Bool Arith.
From Verif Require Import Base UtilModel ArgTypes LqModel.
Import ListNotations.
Local Open Scope list_scope.
Local Open Scope nat_scope.

Record noted := mkN { n_ask : ask; n_key : bytes; n_line : bytes }.
Record book := mkBook { total : nat -> N; kept : nat -> list noted; on : bool; limit : N }.
Definition empty : book := mkBook (fun _ => 0%N) (fun _ => []) false 0.
Definition change {A} (f : nat -> A) (c : nat) (x : A) : nat -> A := fun y => if Nat.eqb y c then x else f y.
(* sop get, mop delete, mop get without a number of elements are told apart by the key; all else by the query only *)
Definition repeats (c : nat) (a : ask) (key : bytes) (n : noted) : Prop :=
  n_ask n = a /\ (c < 3 -> (exists r, a = Counted 0 r) -> n_key n = key).
(* a key of more than 250 bytes is shown by its ends *)
Definition shortened (key k : bytes) : Prop :=
  (List.length key <= 250 /\ k = key) \/
  (250 < List.length key /\ exists a m z, key = a ++ m ++ z /\ List.length a = 124 /\ List.length z = 123 /\ k = a ++ txt "..." ++ z).
Definition names : list bytes :=
  map txt ["sop get"; "mop delete"; "mop get"; "lop insert"; "lop delete"; "lop get"; "bop delete"; "bop get"; "bop count"; "bop gbp"]%string.
Definition asked (a : ask) : bytes := match a with Counted n r => dec_text n ++ r | Plain t => t end.
(* time address <cost> command key query *)
Definition shown (c : nat) (time ip key : bytes) (a : ask) (cost : N) : bytes :=
  time ++ [32%N] ++ ip ++ [32%N; 60%N] ++ dec_text cost ++ [62%N; 32%N] ++ nth c names [] ++ [32%N] ++ key ++ [32%N] ++ asked a ++ [10%N].
Inductive bnext : book -> event -> out -> book -> Prop :=
| b_start t bk : on bk = false -> bnext bk (Start t) Started (mkBook (fun _ => 0%N) (fun _ => []) true (if N.eqb t 0 then 4000%N else t))
| b_again t bk : on bk = true -> bnext bk (Start t) Already bk
| b_stop bk : on bk = true -> bnext bk Stop Stopped (mkBook (total bk) (kept bk) false (limit bk))
| b_off bk : on bk = false -> bnext bk Stop Already bk
| b_short bk c time ip key a ov old : on bk = false \/ (ov < limit bk)%N -> bnext bk (Long c time ip key a ov old) Nothing bk
| b_repeat bk c time ip key k a ov old : on bk = true -> (limit bk <= ov)%N -> shortened key k ->
    20 <= List.length (kept bk c) \/ Exists (repeats c a k) (kept bk c) ->
    bnext bk (Long c time ip key a ov old) Nothing (mkBook (change (total bk) c (total bk c + 1)%N) (kept bk) true (limit bk))
| b_new bk c time ip key k a ov old kept' : on bk = true -> (limit bk <= ov)%N -> shortened key k ->
    List.length (kept bk c) < 20 -> ~ Exists (repeats c a k) (kept bk c) ->
    kept' = change (kept bk) c (kept bk c ++ [mkN a k (shown c time ip k a ov)]) ->
    bnext bk (Long c time ip key a ov old) Nothing
      (mkBook (change (total bk) c (total bk c + 1)%N) kept' (negb (forallb (fun d => Nat.leb 20 (List.length (kept' d))) (seq 0 10))) (limit bk))
| b_show bk : bnext bk Show (Text (List.concat (map (fun c => nth c names [] ++ txt " : " ++ dec_text (total bk c) ++ [10%N] ++ List.concat (map n_line (kept bk c))) (seq 0 10)))) bk.
Inductive books : book -> list event -> list out -> book -> Prop :=
| bs_nil bk : books bk [] [] bk
| bs_cons bk e o bk1 l os bk2 : bnext bk e o bk1 -> books bk1 l os bk2 -> books bk (e :: l) (o :: os) bk2.
(* what the server passes: ten commands, a time of 15 bytes, an address of at most 15, a query text of at most 191;
   a number of elements and "", " delete" or " drop" for sets and maps *)
Definition sane (e : event) : Prop :=
  match e with
  | Long c time ip key a ov old =>
      c < 10 /\ List.length time <= 15 /\ List.length ip <= 15 /\ (ov < 2 ^ 32)%N /\
      match a with
      | Counted n r => c < 3 /\ (n < 2 ^ 32)%N /\ In r [[]; txt " delete"; txt " drop"]
      | Plain t => 3 <= c /\ List.length t <= 191
      end
  | _ => True
  end.
