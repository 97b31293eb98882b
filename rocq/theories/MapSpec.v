(* What a user of a map relies on: a finite function from fields to values, written as a list
   of pairs with distinct fields; the order of the list has no meaning. *)
From Verif Require Import Base MapModel.

Definition keys (A : list (bytes * bytes)) : list bytes := map fst A.

Definition size_wanted (count have : nat) : nat := if Nat.eqb count 0 then have else Nat.min count have.

(* looking up fields one after the other; with del a field found is removed *)
Fixpoint picks (del : bool) (A : list (bytes * bytes)) (fl : list bytes) : list (bytes * bytes) * list (bytes * bytes) :=
  match fl with
  | [] => ([], A)
  | f :: r =>
      let hit := filter (fun p => beqb f (fst p)) A in
      let A1 := if del then filter (fun p => negb (beqb f (fst p))) A else A in
      let '(l, A2) := picks del A1 r in (hit ++ l, A2)
  end.

Inductive spec_step (cap : nat) : list (bytes * bytes) -> op -> out -> list (bytes * bytes) -> Prop :=
| sp_inserted A A' f v rep st mr mn : ~ In f (keys A) -> length A < cap -> st = false -> Permutation A' ((f, v) :: A) ->
    spec_step cap A (Insert f v rep st mr mn) (OIns false) A'
| sp_replaced A A' R f v w st mr mn : Permutation A ((f, w) :: R) -> Permutation A' ((f, v) :: R) ->
    (st = true -> length v <= length w) ->
    spec_step cap A (Insert f v true st mr mn) (OIns true) A'
| sp_duplicate A f v st mr mn : In f (keys A) ->
    spec_step cap A (Insert f v false st mr mn) (ORc EEXISTS) A
| sp_overflow A f v rep st mr mn : ~ In f (keys A) -> cap <= length A ->
    spec_step cap A (Insert f v rep st mr mn) (ORc EOVERFLOW) A
| sp_nomem A f v rep st mr mn : st = true \/ mr = false \/ mn = false ->
    spec_step cap A (Insert f v rep st mr mn) (ORc ENOMEM) A
| sp_updated A A' R f v w held st mem : Permutation A ((f, w) :: R) -> Permutation A' ((f, v) :: R) ->
    spec_step cap A (Update f v held st mem) (ORc SUCC) A'
| sp_upd_absent A f v held st mem : ~ In f (keys A) ->
    spec_step cap A (Update f v held st mem) (ORc ENOENT) A
| sp_upd_nomem A f v held st mem : In f (keys A) -> st = true \/ mem = false ->
    spec_step cap A (Update f v held st mem) (ORc ENOMEM) A
| sp_deleted_all A : A <> [] -> spec_step cap A (Delete []) (ONum (length A)) []
| sp_deleted A A' D fl : fl <> [] -> Permutation A (D ++ A') -> D <> [] ->
    (forall p, In p D -> In (fst p) fl) -> (forall p, In p A' -> ~ In (fst p) fl) ->
    spec_step cap A (Delete fl) (ONum (length D)) A'
| sp_del_none A fl : (A = [] \/ fl <> []) -> (forall p, In p A -> ~ In (fst p) fl) ->
    spec_step cap A (Delete fl) (ORc ENOENT) A
| sp_get_all A l : A <> [] -> Permutation l A ->
    spec_step cap A (Get [] false) (OElems l) A
| sp_get_del_all A l : A <> [] -> Permutation l A ->
    spec_step cap A (Get [] true) (OElems l) []
| sp_get A fl : fst (picks false A fl) <> [] ->
    spec_step cap A (Get fl false) (OElems (fst (picks false A fl))) A
| sp_get_del A A' fl : fst (picks true A fl) <> [] -> Permutation A' (snd (picks true A fl)) ->
    spec_step cap A (Get fl true) (OElems (fst (picks true A fl))) A'
| sp_get_none A fl del : (A = [] \/ fl <> []) -> (forall p, In p A -> ~ In (fst p) fl) ->
    spec_step cap A (Get fl del) (ORc ENOENT) A
| sp_some A A' D count : Permutation A (D ++ A') -> length D = size_wanted count (length A) ->
    spec_step cap A (DeleteSome count) (ONum (length D)) A'.

Inductive spec_run (cap : nat) : list (bytes * bytes) -> list op -> list out -> list (bytes * bytes) -> Prop :=
| sr_nil A : spec_run cap A [] [] A
| sr_cons A A1 A2 o x ops xs : NoDup (keys A) -> spec_step cap A o x A1 -> spec_run cap A1 ops xs A2 ->
    spec_run cap A (o :: ops) (x :: xs) A2.
