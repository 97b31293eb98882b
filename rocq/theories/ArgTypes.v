(* The requests which a line with a collection command can stand for: lop, sop, mop and bop
   commands of the text protocol.  Shared by the model of the parser (ArgModel.v) and by the
   grammar it is compared with (ArgSpec.v). *)
From Coq Require Import String Ascii.
From Verif Require Import Base.
From Coq Require Import List ZArith NArith.
Local Open Scope nat_scope.
Local Open Scope list_scope.

(* the bytes of a string literal *)
Fixpoint txt (s : string) : bytes :=
  match s with
  | EmptyString => []
  | String c r => N_of_ascii c :: txt r
  end.

(* In a filter and in an eflag update operations are numbers: bitwise 0 & 1 | 2 ^, compare
   0 EQ 1 NE 2 LT 3 LE 4 GT 5 GE (include/memcached/types.h 195-211).  The fields: offset,
   bitwise operation with its operand, comparison, values to compare with. *)
Inductive ctype := TList | TSet | TMap | TBtree.
Inductive ovfl := OError | OHeadTrim | OTailTrim | OSmallest | OLargest | OSmallestSilent | OLargestSilent.
Record attr := { a_flags : N; a_exptime : Z; a_maxcount : Z; a_ovfl : option ovfl; a_readable : bool }.
Inductive bkey := BInt (n : N) | BHex (b : bytes).
Inductive range := Single (b : bkey) | Range (b1 b2 : bkey).
Record filt := { f_off : N; f_bitw : option (N * bytes); f_cmp : N; f_vals : list bytes }.
Record eupd := { u_part : option (N * N); u_flag : bytes }.
Inductive mode := Reply | NoReply | Pipe.
Inductive take := Keep | Delete | Drop.
Inductive order := Asc | Desc.
Inductive smode := OldMode | Duplicate | Unique.

Inductive req :=
| LInsert (key : bytes) (index vlen : Z) (cr : option attr) (m : mode)
| Create (t : ctype) (key : bytes) (a : attr) (m : mode)
| LDelete (key : bytes) (from to : Z) (drop : bool) (m : mode)
| LGet (key : bytes) (from to : Z) (t : take)
| SInsert (key : bytes) (vlen : Z) (cr : option attr) (m : mode)
| SDelete (key : bytes) (vlen : Z) (drop : bool) (m : mode)
| SExist (key : bytes) (vlen : Z) (m : mode)
| SGet (key : bytes) (count : N) (t : take)
| MInsert (upsert : bool) (key field : bytes) (vlen : Z) (cr : option attr) (m : mode)
| MUpdate (key field : bytes) (vlen : Z) (m : mode)
| MDelete (key : bytes) (lenfields numfields : N) (drop : bool) (m : mode)
| MGet (key : bytes) (lenfields numfields : N) (t : take)
| BInsert (upsert : bool) (key : bytes) (bk : bkey) (eflag : bytes) (vlen : Z)
    (cr : option attr) (getrim : bool) (m : mode)
| BUpdate (key : bytes) (bk : bkey) (u : option eupd) (vlen : Z) (m : mode)
| BDelete (key : bytes) (r : range) (f : option filt) (count : N) (drop : bool) (m : mode)
| BArith (incr : bool) (key : bytes) (bk : bkey) (delta : N) (init : option (N * option bytes)) (m : mode)
| BGet (key : bytes) (r : range) (f : option filt) (offset count : N) (t : take)
| BCount (key : bytes) (r : range) (f : option filt)
| BMget (lenkeys numkeys : N) (r : range) (f : option filt) (offset count : N)
| BSmget (lenkeys numkeys : N) (r : range) (f : option filt) (offset count : N) (s : smode)
| BPosition (key : bytes) (bk : bkey) (o : order)
| BPwg (key : bytes) (bk : bkey) (o : order) (count : N)
| BGbp (key : bytes) (o : order) (from to : N).
