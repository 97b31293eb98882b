(* What a user of the memory allocator sees (independent of the model): areas are handed out and
   given back, words are written into areas in use. *)
From Coq Require Import ZArith List Bool Permutation.
Import ListNotations.
Open Scope Z_scope.

(* an area: address and requested size *)
Definition area : Type := (Z * Z)%type.
Definition word : Type := (Z * Z)%type.

(* k is an address of the area *)
Definition inside (x : area) (k : Z) : Prop := fst x <= k < fst x + snd x.
(* no address belongs to both *)
Definition apart (x y : area) : Prop := forall k, ~ (inside x k /\ inside y k).
Definition all_apart (l : list area) : Prop :=
  forall l1 x l2 y l3, l = l1 ++ x :: l2 ++ y :: l3 -> apart x y.
Definition within (x y : area) : Prop := forall k, inside x k -> inside y k.

(* what happened, in terms of calls and results *)
Inductive event : Type :=
| Got (a size : Z)                       (* an allocation was answered with address a *)
| Refused (size : Z)                     (* an allocation was answered with NULL *)
| Gave (a size : Z)                      (* an area was given back *)
| Wrote (a size off : Z) (w : word)      (* a word was written into an area in use *)
| Nothing.

Definition same (x y : area) : bool := (fst x =? fst y) && (snd x =? snd y).

(* the areas in use after a history: handed out and not given back, latest first *)
Fixpoint drop_one (x : area) (l : list area) : list area :=
  match l with
  | [] => []
  | y :: r => if same x y then r else y :: drop_one x r
  end.
Fixpoint in_use (evs : list event) (l : list area) : list area :=
  match evs with
  | [] => l
  | Got a n :: r => in_use r ((a, n) :: l)
  | Gave a n :: r => in_use r (drop_one (a, n) l)
  | _ :: r => in_use r l
  end.

(* the word last written at an offset of an area since the area was handed out *)
Fixpoint last_written (evs : list event) (x : area) (off : Z) (acc : option word) : option word :=
  match evs with
  | [] => acc
  | Got a n :: r => last_written r x off (if same (a, n) x then None else acc)
  | Wrote a n o w :: r => last_written r x off (if same (a, n) x && (o =? off) then Some w else acc)
  | _ :: r => last_written r x off acc
  end.

(* The space a small area takes: 4 more bytes, rounded up to a multiple of 8, at least 32. *)
Definition need (size : Z) : Z := Z.max 32 (8 * ((size + 11) / 8)).
(* sizes served from shared blocks *)
Definition is_small (x : area) : bool := snd x <=? 49148.

(* A block of 262144 bytes has a header of 32 bytes; behind it are pieces, each in use or free. *)
Definition piece : Type := (Z * bool)%type.        (* length, in use *)
Fixpoint place (a : Z) (l : list piece) : list (Z * piece) :=
  match l with
  | [] => []
  | p :: r => (a, p) :: place (a + fst p) r
  end.
Fixpoint total (f : piece -> bool) (l : list piece) : Z :=
  match l with
  | [] => 0
  | p :: r => (if f p then fst p else 0) + total f r
  end.
Definition used_piece (p : piece) : bool := snd p.
Definition free_piece (p : piece) : bool := negb (snd p).
Definition block : Type := (Z * list piece)%type.  (* address, pieces *)
Definition pieces (L : list block) : list piece := concat (map snd L).
Definition used_areas (L : list block) : list area :=
  concat (map (fun b => map (fun x => (fst x, fst (snd x)))
                            (filter (fun x => snd (snd x)) (place (fst b + 32) (snd b)))) L).

Record layout (blocks : list Z) (live : list area) (L : list block) : Prop := mkLayout
  { lay_blocks : map fst L = blocks;
    lay_full : forall b, In b L -> total (fun _ => true) (snd b) = 262112;
    lay_unit : forall b p, In b L -> In p (snd b) -> 0 < fst p /\ fst p mod 8 = 0;
    (* freed neighbours are merged *)
    lay_merged : forall b l1 p q l2, In b L -> snd b = l1 ++ p :: q :: l2 -> snd p = true \/ snd q = true;
    (* no block without an area in use is kept *)
    lay_some : forall b, In b L -> exists p, In p (snd b) /\ snd p = true;
    (* the pieces in use are the small areas in use *)
    lay_used : Permutation (used_areas L) (map (fun x => (fst x, need (snd x))) (filter is_small live)) }.

Fixpoint sum (l : list Z) : Z := match l with [] => 0 | x :: r => x + sum r end.

(* larger areas: the first class whose chunks are long enough, counted from 1; 0 if none is *)
Fixpoint first_fit (l : list Z) (size : Z) (i : Z) : Z :=
  match l with
  | [] => 0
  | z :: r => if size <=? z then i else first_fit r size (i + 1)
  end.
Definition chunk_class (imax : Z) (sizes : list Z) (size : Z) : Z := first_fit (sizes ++ [imax]) size 1.
Definition large_in (imax : Z) (sizes : list Z) (i : Z) (x : area) : bool :=
  negb (is_small x) && (chunk_class imax sizes (snd x) =? i).

(* slabs a class may take beyond the memory limit: at least 4 slabs and at least 6 chunks *)
Definition reserve (perslab : Z) : Z := Z.max 4 ((6 + perslab - 1) / perslab).
(* the most that all classes of larger areas may take beyond the limit *)
Definition extra (imax : Z) (sizes : list Z) : Z :=
  sum (map (fun z => reserve (imax / z) * (z * (imax / z))) sizes) + 6 * imax.
