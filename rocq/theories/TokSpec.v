(* What the tokenizers are for, stated on plain byte strings. *)
From Verif Require Import Base.
Open Scope nat_scope.

(* the fields of a text between the occurrences of a delimiter *)
Fixpoint fields (d : N) (s : bytes) : list bytes :=
  match s with
  | [] => [[]]
  | x :: r =>
      if N.eqb x d then [] :: fields d r
      else match fields d r with
           | w :: l => (x :: w) :: l
           | [] => [[x]]
           end
  end.

Definition nonempty (w : bytes) : bool := match w with [] => false | _ => true end.

(* the words of a command line: runs of characters other than the blank *)
Definition words (line : bytes) : list bytes := filter nonempty (fields 32%N line).

(* an acceptable list of exactly cnt keys, none longer than maxk *)
Definition key_ok (maxk : nat) (w : bytes) : Prop :=
  w <> [] /\ ~ In 32%N w /\ length w <= maxk.
Definition key_list (d : N) (cnt maxk : nat) (text : bytes) (keys : list bytes) : Prop :=
  fields d text = keys /\ length keys = cnt /\ Forall (key_ok maxk) keys.

(* The keys that fit before the first one that does not *)
Fixpoint fitting (maxk : nat) (ws : list bytes) : list bytes :=
  match ws with
  | [] => []
  | w :: r => if length w <=? maxk then w :: fitting maxk r else []
  end.

(* A memory of blocks of B bytes holds a text: the blocks are just large enough *)
Definition holds (B : nat) (blks : list bytes) (text : bytes) : Prop :=
  Forall (fun b => length b = B) blks /\
  length blks = (length text - 1) / B + 1 /\
  exists junk, concat blks = text ++ junk.

(* A proper part q of the text that ends at a block boundary, where the delimiter is the
   last byte of a block (and more text follows) or the first byte of one *)
Definition boundary_part (d : N) (B : nat) (text q : bytes) : Prop :=
  exists r, text = q ++ d :: r /\
    ((length q mod B = 0 /\ q <> []) \/ ((length q + 1) mod B = 0 /\ r <> [])).
