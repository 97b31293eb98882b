(* Common imports, byte type and small list helpers shared by all models. *)
From Coq Require Export List Arith NArith ZArith Lia Bool Permutation.
From Coq Require Export ZifyBool ZifyNat ZifyN.
Export ListNotations.

(* A byte of memory; models that need it state  b < 256. *)
Definition byte := N.
Definition bytes := list N.

Fixpoint beqb (a b : bytes) : bool :=
  match a, b with
  | [], [] => true
  | x :: a', y :: b' => (N.eqb x y && beqb a' b')%bool
  | _, _ => false
  end.

Lemma beqb_eq a b : beqb a b = true <-> a = b.
Proof.
  revert b; induction a as [|x a IH]; intros [|y b]; cbn [beqb]; split; intro H;
    try reflexivity; try discriminate.
  - apply andb_true_iff in H as [H1 H2]. apply N.eqb_eq in H1. apply IH in H2. congruence.
  - inversion H; subst. rewrite N.eqb_refl. cbn. apply IH. reflexivity.
Qed.

Lemma beqb_refl a : beqb a a = true.
Proof. apply beqb_eq; reflexivity. Qed.

Lemma beqb_neq a b : beqb a b = false <-> a <> b.
Proof.
  rewrite <- not_true_iff_false, beqb_eq. tauto.
Qed.

Lemma beqb_spec a b : reflect (a = b) (beqb a b).
Proof.
  destruct (beqb a b) eqn:E; constructor.
  - apply beqb_eq; assumption.
  - apply beqb_neq; assumption.
Qed.

Lemma beqb_sym a b : beqb a b = beqb b a.
Proof.
  destruct (beqb_spec a b), (beqb_spec b a); congruence.
Qed.

Definition is_byte (b : N) : Prop := (b < 256)%N.
Definition all_bytes (l : bytes) : Prop := Forall is_byte l.

(* computations with an undefined outcome (None) *)
Definition bindo {A B} (a : option A) (f : A -> option B) : option B :=
  match a with Some x => f x | None => None end.
Notation "'let*' x := a 'in' b" := (bindo a (fun x => b)) (at level 200, x pattern, b at level 200).
