(* What the command log must contain.  Only events and answers are taken from the model. *)
From Verif Require Import Base ClModel.
From Coq Require Import List ZArith NArith Bool.
Local Open Scope nat_scope.
Local Open Scope list_scope.

(* the text of a command in the log: "<time> <ip> <command>" and a line feed; what is longer than 399 bytes is cut and marked *)
Definition entry (full : bytes) : bytes := if Nat.leb (List.length full) 399 then full else firstn 396 full ++ [46%N; 46%N; 10%N].
(* what the server does: 400 bytes exactly are cut without a mark *)
Definition shown (full : bytes) : bytes := if Nat.eqb (List.length full) 400 then firstn 399 full else entry full.

(* the texts taken since the log was started *)
Definition next_log (acc : bytes) (x : event * out) : bytes :=
  match x with
  | (Start _, OK) | (Start _, NoFile) => []
  | (Write full, Taken) => acc ++ shown full
  | _ => acc
  end.
Definition logged (l : list (event * out)) : bytes := fold_left next_log l [].
(* numbers of commands entered and left out since then *)
Definition next_count (c : nat * nat) (x : event * out) : nat * nat :=
  match x with
  | (Start _, OK) | (Start _, NoFile) => (0, 0)
  | (Write _, Taken) => (S (fst c), snd c)
  | (Write _, Skip) => (S (fst c), S (snd c))
  | _ => c
  end.
Definition counted (l : list (event * out)) : nat * nat := fold_left next_count l (0, 0).
(* the files, one after the other *)
Definition written (s : state) : bytes := List.concat (rev (files s)).
(* bytes taken but not in a file yet *)
Definition waiting (s : state) (l : list (event * out)) : Z := (Z.of_nat (List.length (logged l)) - Z.of_nat (List.length (written s)))%Z.

(* commands are written to the log while it is in use *)
Fixpoint polite (s : state) (l : list event) : Prop :=
  match l with
  | [] => True
  | e :: r => (match e with Write _ => in_use s = true | _ => True end) /\
              match step s e with Some (s1, _) => polite s1 r | None => True end
  end.
