(* Property theorems about the text utilities (C33, C34, C35 and helpers). *)
From Verif Require Import Base UtilModel UtilSpec UtilProofs.
Open Scope N_scope.

(* ===== C33 decimal parsing ===== *)

(* Every text consisting of digits and followed by white space or the end of the text (the
   shape of every numeric command argument and of every numeric value followed by CR LF)
   is accepted exactly when the number fits into 64 bits, and then yields that number. *)
Theorem C33_digits_accepted_iff_in_range : forall s n r,
  plain_number s n -> terminated r -> ~ In 45 r ->
  safe_strtoull (s ++ r) = if n <? 2 ^ 64 then Some n else None.
Proof. exact safe_strtoull_plain. Qed.
Print Assumptions C33_digits_accepted_iff_in_range.

Example C33_digits_case :
  plain_number [49; 50; 55] 127 /\ terminated [13; 10] /\ ~ In 45 [13; 10] /\
  safe_strtoull ([49; 50; 55] ++ [13; 10]) = Some 127.
Proof.
  split; [|split; [apply crlf_terminated|split; [cbn; intuition discriminate|reflexivity]]].
  split; [discriminate|]. apply decimal_value_fold. split; [|reflexivity].
  repeat constructor; unfold is_digit; lia.
Qed.

(* Exact acceptance for all texts, unsigned 64 bit. The second disjunct is the deviation
   from the English property (see C33_refuted). *)
Theorem C33_strtoull_exact_partial : forall s v,
  safe_strtoull s = Some v <->
  (exists neg m rest, reads_number s neg m rest /\ terminated rest /\ m < 2 ^ 64 /\
     v = (if neg then (2 ^ 64 - m) mod 2 ^ 64 else m) /\ (2 ^ 63 <= v -> ~ In 45 s))
  \/ ((forall neg m rest, ~ reads_number s neg m rest) /\ (exists c r, s = c :: r /\ is_space c) /\ v = 0).
Proof. exact safe_strtoull_char. Qed.
Print Assumptions C33_strtoull_exact_partial.

Theorem C33_strtoll_exact_partial : forall s v,
  safe_strtoll s = Some v <->
  (exists neg m rest, reads_number s neg m rest /\ terminated rest /\
     v = (if neg then - Z.of_N m else Z.of_N m)%Z /\ (- 2 ^ 63 <= v < 2 ^ 63)%Z)
  \/ ((forall neg m rest, ~ reads_number s neg m rest) /\ (exists c r, s = c :: r /\ is_space c) /\ v = 0%Z).
Proof. exact safe_strtoll_char. Qed.
Print Assumptions C33_strtoll_exact_partial.

Theorem C33_strtol_exact_partial : forall s v,
  safe_strtol s = Some v <->
  (exists neg m rest, reads_number s neg m rest /\ terminated rest /\
     v = (if neg then - Z.of_N m else Z.of_N m)%Z /\ (- 2 ^ 31 <= v < 2 ^ 31)%Z)
  \/ ((forall neg m rest, ~ reads_number s neg m rest) /\ (exists c r, s = c :: r /\ is_space c) /\ v = 0%Z).
Proof. exact safe_strtol_char. Qed.
Print Assumptions C33_strtol_exact_partial.

Theorem C33_strtoul_exact_partial : forall s v,
  safe_strtoul s = Some v <->
  (exists neg m rest, reads_number s neg m rest /\ terminated rest /\ m < 2 ^ 64 /\
     v = (if neg then (2 ^ 64 - m) mod 2 ^ 64 else m) /\ v < 2 ^ 32)
  \/ ((forall neg m rest, ~ reads_number s neg m rest) /\ (exists c r, s = c :: r /\ is_space c) /\ v = 0).
Proof. exact safe_strtoul_char. Qed.
Print Assumptions C33_strtoul_exact_partial.

(* The English property is false: a text that contains no number at all is accepted
   (as 0) when it begins with white space, and "-18446744073709551615" is accepted as 1. *)
Theorem C33_refuted :
  (exists s v, safe_strtoull s = Some v /\ forall neg m rest, ~ reads_number s neg m rest) /\
  (exists s m v rest, reads_number s true m rest /\ 0 < m /\ safe_strtoull s = Some v /\ v <> 0).
Proof.
  split.
  - exists [32; 97; 98; 99], 0. split; [reflexivity|].
    intros neg m rest R. apply strto_spec in R. discriminate R.
  - exists ([45;49;56;52;52;54;55;52;52;48;55;51;55;48;57;53;53;49;54;49;53]),
      18446744073709551615, 1, [].
    split; [apply strto_spec; reflexivity|]. split; [reflexivity|]. split; [reflexivity|discriminate].
Qed.
Print Assumptions C33_refuted.

(* printing a 64 bit number and reading the stored value back (incr/decr values) *)
Theorem C33_print_read_roundtrip : forall n, n < 2 ^ 64 ->
  plain_number (dec_text n) n /\ safe_strtoull (dec_text n ++ [13; 10]) = Some n.
Proof. intros n H. split; [exact (dec_text_plain n)|exact (strtoull_dec_text n H)]. Qed.
Print Assumptions C33_print_read_roundtrip.

Example C33_print_case : dec_text 18446744073709551615 =
  [49;56;52;52;54;55;52;52;48;55;51;55;48;57;53;53;49;54;49;53].
Proof. reflexivity. Qed.

(* ===== C34 hexadecimal ===== *)
Theorem C34_hex_parse_exact : forall s size b,
  safe_strtohexa s size = Some b <-> s <> [] /\ N.of_nat (length b) <= size /\ hex_text s b.
Proof. exact strtohexa_char. Qed.
Print Assumptions C34_hex_parse_exact.

Theorem C34_hex_roundtrip : forall b size, all_bytes b -> b <> [] -> N.of_nat (length b) <= size ->
  safe_strtohexa (safe_hexatostr b) size = Some b.
Proof. exact hexa_roundtrip. Qed.
Print Assumptions C34_hex_roundtrip.

Theorem C34_hex_print_exact : forall b, all_bytes b -> hex_text (safe_hexatostr b) b.
Proof. exact hexatostr_text. Qed.
Print Assumptions C34_hex_print_exact.

Example C34_case : all_bytes [0; 255; 18; 171] /\
  safe_hexatostr [0; 255; 18; 171] = [48;48;70;70;49;50;65;66] /\
  safe_strtohexa [48;48;102;102;49;50;65;98] 31 = Some [0; 255; 18; 171] /\
  safe_strtohexa [48;48;102] 31 = None /\ safe_strtohexa [48;71] 31 = None.
Proof. repeat split; try reflexivity; repeat constructor. Qed.

(* network byte order conversion reverses the 8 bytes *)
Theorem swap64_reverses_bytes : forall x, x < 2 ^ 64 -> le_bytes 8 (mc_swap64 x) = rev (le_bytes 8 x).
Proof. exact mc_swap64_reverses. Qed.
Print Assumptions swap64_reverses_bytes.

(* prefix / attribute names *)
Theorem name_check_exact : forall s, mc_isvalidname s = true <->
  (forall r, s <> 45 :: r) /\
  Forall (fun c => 97 <= c <= 122 \/ 65 <= c <= 90 \/ 48 <= c <= 57 \/ c = 95 \/ c = 45 \/ c = 43 \/ c = 46) s.
Proof. exact mc_isvalidname_iff. Qed.
Print Assumptions name_check_exact.

(* ===== C35 glob patterns ===== *)

(* the patterns admitted by the command: 1..64 bytes, at most 4 stars, backslash only
   before * ? \ *)
Theorem C35_accepted_patterns : forall p,
  scan_validate_pattern p = true <->
  p <> [] /\ (length p <= 64)%nat /\ exists n, valid_pattern p n /\ (n <= 4)%nat.
Proof. exact scan_validate_pattern_iff. Qed.
Print Assumptions C35_accepted_patterns.

(* For every pattern the command admits and every key without backslash and NUL bytes the
   match terminates, never reads outside the pattern, and decides the glob relation.
   Missing for the full property: keys that contain a backslash (C35_refuted). *)
Theorem C35_glob_match_partial : forall t p n,
  valid_pattern p n -> ~ In 0 t -> ~ In 92 t ->
  (string_pattern_match t p = GlobYes <-> glob p t) /\
  (string_pattern_match t p = GlobNo <-> ~ glob p t).
Proof.
  intros t p n H H0 H1.
  exact (string_pattern_match_esc_ok t p (valid_esc_ok p n H) (conj H0 H1)).
Qed.
Print Assumptions C35_glob_match_partial.

Example C35_case :                                        (* pattern  a*b?\*  text  axxbbc*  *)
  valid_pattern [97;42;98;63;92;42] 1 /\ ~ In 0 [97;120;98;98;99;42] /\ ~ In 92 [97;120;98;98;99;42] /\
  string_pattern_match [97;120;98;98;99;42] [97;42;98;63;92;42] = GlobYes /\
  string_pattern_match [97;120;98;98;99;99] [97;42;98;63;92;42] = GlobNo.
Proof.
  split.
  - repeat first [apply vp_star | apply vp_esc; [lia|] | apply vp_other; [lia|lia|]]. constructor.
  - repeat split; try (cbn; lia); reflexivity.
Qed.

(* The accepted pattern  \*  (which should match only the key "*") also matches  \foo ,
   and a key that contains a NUL byte makes the matcher run past the pattern. *)
Theorem C35_refuted :
  (exists p t, scan_validate_pattern p = true /\ ~ glob p t /\ string_pattern_match t p = GlobYes) /\
  (exists p t, scan_validate_pattern p = true /\ string_pattern_match t p = GlobUB).
Proof.
  split.
  - exists [92; 42], [92; 102; 111; 111]. split; [reflexivity|]. split; [|reflexivity].
    intro H. inversion H; subst; congruence.
  - exists [97], [97; 0]. split; reflexivity.
Qed.
Print Assumptions C35_refuted.
