(* What a user of a set relies on: the set is a finite mathematical set of values, written as
   a list without repetition; the order of the list has no meaning.  [cap] is the maximum
   number of elements. *)
From Verif Require Import Base SetModel.

Definition size_wanted (count have : nat) : nat := if Nat.eqb count 0 then have else Nat.min count have.

Inductive spec_step (cap : nat) : list bytes -> op -> out -> list bytes -> Prop :=
| sp_inserted A A' v st mr mn : ~ In v A -> length A < cap -> Permutation A' (v :: A) ->
    spec_step cap A (Insert v st mr mn) (ORc SUCC) A'
| sp_duplicate A v st mr mn : In v A -> length A < cap ->
    spec_step cap A (Insert v st mr mn) (ORc EEXISTS) A
| sp_overflow A v st mr mn : cap <= length A ->
    spec_step cap A (Insert v st mr mn) (ORc EOVERFLOW) A
| sp_nomem A v st mr mn : st = true \/ mr = false \/ mn = false ->
    spec_step cap A (Insert v st mr mn) (ORc ENOMEM) A
| sp_deleted A A' v : Permutation A (v :: A') ->
    spec_step cap A (Delete v) (ORc SUCC) A'
| sp_absent A v : ~ In v A ->
    spec_step cap A (Delete v) (ORc ENOENT) A
| sp_exist A v b : (b = true <-> In v A) ->
    spec_step cap A (Exist v) (OBool b) A
| sp_some A A' D count : Permutation A (D ++ A') -> length D = size_wanted count (length A) ->
    spec_step cap A (DeleteSome count) (ONum (length D)) A'
| sp_empty count del rnd :
    spec_step cap [] (Get count del rnd) (ORc ENOENT) []
| sp_get A R l count rnd : A <> [] -> Permutation A (l ++ R) -> length l = size_wanted count (length A) ->
    spec_step cap A (Get count false rnd) (OElems l) A
| sp_get_del A A' l count rnd : A <> [] -> Permutation A (l ++ A') -> length l = size_wanted count (length A) ->
    spec_step cap A (Get count true rnd) (OElems l) A'.

Inductive spec_run (cap : nat) : list bytes -> list op -> list out -> list bytes -> Prop :=
| sr_nil A : spec_run cap A [] [] A
| sr_cons A A1 A2 o x ops xs : NoDup A -> spec_step cap A o x A1 -> spec_run cap A1 ops xs A2 ->
    spec_run cap A (o :: ops) (x :: xs) A2.
