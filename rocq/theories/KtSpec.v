(* Consistent hashing, as clients and servers of a cluster understand it: each server has 160 points on a circle of 2^32
   positions, and a key belongs to the server that owns the next point clockwise. *)
From Coq Require Import String Ascii.
From Verif Require Import Base UtilModel.
From Coq Require Import List Permutation.
Local Open Scope N_scope.
Local Open Scope list_scope.

Section Spec.
Variable md5 : bytes -> bytes.

Definition le32 (b : bytes) : N :=
  match b with
  | [a0; a1; a2; a3] => a0 + 256 * a1 + 65536 * a2 + 16777216 * a3
  | _ => 0
  end.
(* the i-th quarter of a digest, as a number *)
Definition quarter (d : bytes) (i : nat) : N := le32 (firstn 4 (skipn (4 * i) d)).
Definition position (key : bytes) : N := quarter (md5 key) 0.
(* the points of a server: the quarters of the digests of name-0 ... name-39 *)
Definition point_of (name : bytes) (p : N) : Prop :=
  exists h i, (h < 40)%nat /\ (i < 4)%nat /\ p = quarter (md5 (name ++ [45] ++ dec_text (N.of_nat h))) i.
(* how far clockwise from h *)
Definition ahead (h p : N) : N := (p + 2 ^ 32 - h) mod 2 ^ 32.
(* order of names *)
Inductive before : bytes -> bytes -> Prop :=
| bf_nil l : before [] l
| bf_lt a b x y : a < b -> before (a :: x) (b :: y)
| bf_eq a x y : before x y -> before (a :: x) (a :: y).
(* n is responsible for the key: it has the nearest point; for equal points the first name counts *)
Definition owner (names : list bytes) (key n : bytes) : Prop :=
  In n names /\ exists p, point_of n p /\
    forall m q, In m names -> point_of m q ->
      ahead (position key) p < ahead (position key) q \/ ahead (position key) p = ahead (position key) q /\ before n m.

(* what md5 and names are like *)
Definition digest_ok : Prop := forall s, length (md5 s) = 16%nat /\ Forall (fun b => b < 256) (md5 s).
(* a list of servers as the coordinator gives it: distinct names of up to 127 characters without '-' *)
Definition proper (l : list bytes) : Prop :=
  NoDup l /\ Forall (fun n => n <> [] /\ (length n <= 127)%nat /\ ~ In 45 n) l /\ N.of_nat (length l) <= 65536.
(* the name may be followed by '-' and a host name, which does not count *)
Inductive entry : bytes -> bytes -> Prop :=
| en_bare n : entry n n
| en_host n h : entry n (n ++ 45 :: h).
End Spec.

(* from the servers L to the servers M: how many joined and how many left *)
Definition change (L M : list bytes) (added removed : nat) : Prop :=
  exists kept A R, Permutation M (kept ++ A) /\ Permutation L (kept ++ R) /\
    (forall x, In x A -> ~ In x L) /\ (forall x, In x R -> ~ In x M) /\ added = length A /\ removed = length R.
