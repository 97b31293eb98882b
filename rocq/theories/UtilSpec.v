(* Specifications for the text utilities, independent of UtilModel.v. *)
From Verif Require Import Base.
Open Scope N_scope.

(* ---- decimal numbers ---- *)
Definition is_space (c : N) : Prop := 9 <= c <= 13 \/ c = 32.
Definition is_digit (c : N) : Prop := 48 <= c <= 57.

Inductive decimal_value : bytes -> N -> Prop :=
| dv_nil : decimal_value [] 0
| dv_snoc ds d n : decimal_value ds n -> is_digit d -> decimal_value (ds ++ [d]) (10 * n + (d - 48)).

(* [s] begins with optional white space, optional sign, at least one digit, and [rest]
   is what follows the longest run of digits. *)
Definition reads_number (s : bytes) (neg : bool) (m : N) (rest : bytes) : Prop :=
  exists w sg ds, s = w ++ sg ++ ds ++ rest /\ Forall is_space w /\
    (neg = true /\ sg = [45] \/ neg = false /\ (sg = [] \/ sg = [43])) /\
    ds <> [] /\ decimal_value ds m /\
    (forall c r, rest = c :: r -> ~ is_digit c).

(* the number is followed by white space or the end of the text *)
Definition terminated (rest : bytes) : Prop :=
  rest = [] \/ exists c r, rest = c :: r /\ is_space c.

(* a text of digits only *)
Definition plain_number (s : bytes) (n : N) : Prop := s <> [] /\ decimal_value s n.

(* ---- hexadecimal ---- *)
Inductive hex_digit : N -> N -> Prop :=
| hd_num c : 48 <= c <= 57 -> hex_digit c (c - 48)
| hd_up c : 65 <= c <= 70 -> hex_digit c (c - 55)
| hd_lo c : 97 <= c <= 102 -> hex_digit c (c - 87).

Inductive hex_text : bytes -> bytes -> Prop :=
| ht_nil : hex_text [] []
| ht_cons c1 c2 h l s b : hex_digit c1 h -> hex_digit c2 l -> hex_text s b ->
    hex_text (c1 :: c2 :: s) (16 * h + l :: b).

(* ---- glob patterns: * any string, ? any character, \c the character c ---- *)
Inductive glob : bytes -> bytes -> Prop :=
| g_nil : glob [] []
| g_star0 p t : glob p t -> glob (42 :: p) t
| g_star1 p c t : glob (42 :: p) t -> glob (42 :: p) (c :: t)
| g_any p c t : glob p t -> glob (63 :: p) (c :: t)
| g_esc p c t : glob p t -> glob (92 :: c :: p) (c :: t)
| g_lit p c t : c <> 42 -> c <> 63 -> c <> 92 -> glob p t -> glob (c :: p) (c :: t).

(* every backslash is followed by one of * ? \ *)
Inductive valid_pattern : bytes -> nat -> Prop :=   (* number of (unescaped) stars *)
| vp_nil : valid_pattern [] 0
| vp_star p n : valid_pattern p n -> valid_pattern (42 :: p) (S n)
| vp_esc p c n : (c = 42 \/ c = 63 \/ c = 92) -> valid_pattern p n -> valid_pattern (92 :: c :: p) n
| vp_other p c n : c <> 42 -> c <> 92 -> valid_pattern p n -> valid_pattern (c :: p) n.
