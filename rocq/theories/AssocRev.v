(* Bit reversal: reverse_bits of the code and the order in which a SCAN visits the tables. *)
From Verif Require Import Base AssocModel.
Local Open Scope N_scope.

(* the number whose n low bits are those of v in reverse order *)
Fixpoint revn (n : nat) (v : N) : N :=
  match n with
  | O => 0
  | S n' => 2 ^ N.of_nat n' * (v mod 2) + revn n' (v / 2)
  end.

Lemma revn_lt n v : revn n v < 2 ^ N.of_nat n.
Proof.
  revert v; induction n as [|n IH]; intro v; cbn [revn]; [cbn; lia|].
  rewrite Nat2N.inj_succ, N.pow_succ_r'. specialize (IH (v / 2)).
  pose proof (N.mod_upper_bound v 2 ltac:(lia)). nia.
Qed.

Lemma revn_app a b x y : x < 2 ^ N.of_nat a ->
  revn (a + b) (x + 2 ^ N.of_nat a * y) = revn a x * 2 ^ N.of_nat b + revn b y.
Proof.
  revert x; induction a as [|a IH]; intros x Hx.
  - cbn [Nat.add revn]. change (N.of_nat 0) with 0 in *. change (2 ^ 0) with 1 in Hx. change (2 ^ 0) with 1. assert (x = 0) by lia. subst x. replace (0 + 1 * y) with y by lia. lia.
  - cbn [Nat.add revn]. rewrite Nat2N.inj_succ, N.pow_succ_r' in *.
    replace (x + 2 * 2 ^ N.of_nat a * y) with (x + (2 ^ N.of_nat a * y) * 2) by lia.
    rewrite N.mod_add, N.div_add by lia. rewrite IH by (apply N.div_lt_upper_bound; lia).
    rewrite Nat2N.inj_add, N.pow_add_r. lia.
Qed.

Lemma revn_0 n : revn n 0 = 0.
Proof. induction n as [|n IH]; cbn [revn]; [reflexivity|]. cbn. rewrite IH. lia. Qed.

Lemma revn_ones n : revn n (2 ^ N.of_nat n - 1) = 2 ^ N.of_nat n - 1.
Proof.
  induction n as [|n IH]; [reflexivity|]. cbn [revn].
  rewrite Nat2N.inj_succ, N.pow_succ_r'. assert (P : 0 < 2 ^ N.of_nat n) by (apply N.neq_0_lt_0, N.pow_nonzero; lia).
  replace (2 * 2 ^ N.of_nat n - 1) with (1 + (2 ^ N.of_nat n - 1) * 2) by lia.
  rewrite N.mod_add, N.div_add by lia. replace (1 / 2) with 0 by reflexivity. replace (1 mod 2) with 1 by reflexivity.
  rewrite N.add_0_l, IH. lia.
Qed.

Lemma revn_mod n v : revn n (v mod 2 ^ N.of_nat n) = revn n v.
Proof.
  revert v; induction n as [|n IH]; intro v; [reflexivity|]. cbn [revn].
  rewrite Nat2N.inj_succ, N.pow_succ_r'. assert (P : 2 ^ N.of_nat n <> 0) by (apply N.pow_nonzero; lia).
  rewrite N.mod_mul_r by lia.
  replace (v mod 2 + 2 * ((v / 2) mod 2 ^ N.of_nat n)) with (v mod 2 + ((v / 2) mod 2 ^ N.of_nat n) * 2) by lia.
  rewrite N.mod_add, N.div_add by lia. rewrite N.mod_mod by lia.
  rewrite (N.div_small (v mod 2) 2) by (apply N.mod_upper_bound; lia). rewrite N.add_0_l. f_equal. apply IH.
Qed.

Lemma revn_snoc n v : revn (S n) v = revn n v * 2 + (v / 2 ^ N.of_nat n) mod 2.
Proof.
  assert (P : 2 ^ N.of_nat n <> 0) by (apply N.pow_nonzero; lia).
  rewrite <- (revn_mod n v). rewrite (N.div_mod v (2 ^ N.of_nat n)) at 1 by exact P. rewrite N.add_comm.
  replace (S n) with (n + 1)%nat by lia. rewrite revn_app by (apply N.mod_upper_bound; exact P).
  cbn [revn N.of_nat]. change (2 ^ N.of_nat 1) with 2. change (2 ^ 0) with 1. lia.
Qed.

Lemma revn_invol n v : v < 2 ^ N.of_nat n -> revn n (revn n v) = v.
Proof.
  revert v; induction n as [|n IH]; intros v Hv; [cbn in *; lia|].
  cbn [revn]. fold (revn (S n) v). rewrite Nat2N.inj_succ, N.pow_succ_r' in Hv.
  rewrite (N.add_comm (2 ^ N.of_nat n * (v mod 2))).
  change (2 ^ N.of_nat n * ((revn n (v / 2) + 2 ^ N.of_nat n * (v mod 2)) mod 2) + revn n ((revn n (v / 2) + 2 ^ N.of_nat n * (v mod 2)) / 2))
    with (revn (S n) (revn n (v / 2) + 2 ^ N.of_nat n * (v mod 2))).
  replace (S n) with (n + 1)%nat by lia. rewrite revn_app by apply revn_lt.
  rewrite IH by (apply N.div_lt_upper_bound; lia). cbn [revn N.of_nat]. change (2 ^ N.of_nat 1) with 2. change (2 ^ 0) with 1.
  rewrite N.mod_mod by lia. rewrite (N.div_mod v 2) at 3 by lia. lia.
Qed.

Lemma revn_inj n v w : v < 2 ^ N.of_nat n -> w < 2 ^ N.of_nat n -> revn n v = revn n w -> v = w.
Proof. intros. rewrite <- (revn_invol n v), <- (revn_invol n w) by assumption. congruence. Qed.

(* bits *)
Lemma revn_testbit n : forall v i, i < N.of_nat n -> N.testbit (revn n v) i = N.testbit v (N.of_nat n - 1 - i).
Proof.
  induction n as [|n IH]; intros v i Hi; [cbn in Hi; lia|].
  cbn [revn]. rewrite Nat2N.inj_succ in *.
  assert (L := revn_lt n (v / 2)).
  destruct (N.eq_dec i (N.of_nat n)) as [->|NE].
  - replace (N.succ (N.of_nat n) - 1 - N.of_nat n) with 0 by lia.
    rewrite N.add_comm, N.mul_comm.
    rewrite N.testbit_eqb. rewrite N.div_add by (apply N.pow_nonzero; lia).
    rewrite N.div_small by exact L. rewrite N.add_0_l, N.mod_mod by lia.
    rewrite N.testbit_eqb. change (2 ^ 0) with 1. rewrite N.div_1_r. reflexivity.
  - replace (N.succ (N.of_nat n) - 1 - i) with (N.succ (N.of_nat n - 1 - i)) by lia.
    assert (D : forall j, N.testbit v (N.succ j) = N.testbit (v / 2) j) by (intro j; rewrite !N.testbit_eqb, N.pow_succ_r', N.div_div by (try apply N.pow_nonzero; lia); reflexivity).
    rewrite D. rewrite <- IH by lia.
    rewrite <- (N.mod_pow2_bits_low (2 ^ N.of_nat n * (v mod 2) + revn n (v / 2)) (N.of_nat n)) by lia.
    f_equal. rewrite N.add_comm, N.mul_comm, N.mod_add by (apply N.pow_nonzero; lia).
    apply N.mod_small. exact L.
Qed.

(* one round of the code *)
Lemma round_bit s mask v i : i < 32 -> mask < u32 ->
  N.testbit (N.lor (N.land (N.shiftr v s) mask) (N.land (N.shiftl v s mod u32) (ones32 - mask))) i
  = if N.testbit mask i then N.testbit v (i + s) else if i <? s then false else N.testbit v (i - s).
Proof.
  intros Hi Hm. rewrite N.lor_spec, !N.land_spec.
  assert (E : N.testbit (ones32 - mask) i = negb (N.testbit mask i)).
  { change ones32 with (N.ones 32). rewrite <- (N.mod_small mask u32) at 1 by exact Hm. change u32 with (2 ^ 32).
    rewrite <- N.land_ones.
    assert (X : N.ones 32 - N.land mask (N.ones 32) = N.ldiff (N.ones 32) mask).
    { rewrite (N.sub_nocarry_ldiff (N.ones 32) (N.land mask (N.ones 32))).
      - apply N.bits_inj. intro j. rewrite !N.ldiff_spec, N.land_spec.
        destruct (N.testbit (N.ones 32) j), (N.testbit mask j); reflexivity.
      - apply N.bits_inj. intro j. rewrite N.ldiff_spec, N.land_spec, N.bits_0.
        destruct (N.testbit (N.ones 32) j), (N.testbit mask j); reflexivity. }
    rewrite X, N.ldiff_spec, N.ones_spec_low by exact Hi. reflexivity. }
  rewrite E. change u32 with (2 ^ 32). rewrite N.mod_pow2_bits_low by exact Hi.
  rewrite N.shiftr_spec'.
  destruct (N.testbit mask i).
  - rewrite andb_true_r, andb_false_r, orb_false_r. reflexivity.
  - rewrite andb_false_r, andb_true_r, orb_false_l.
    destruct (i <? s) eqn:L; [apply N.shiftl_spec_low; lia|]. apply N.shiftl_spec_high'. lia.
Qed.

Lemma round_lt s mask v : v < u32 -> mask < u32 ->
  N.lor (N.land (N.shiftr v s) mask) (N.land (N.shiftl v s mod u32) (ones32 - mask)) < u32.
Proof.
  intros Hv Hm.
  assert (A : forall x y, y < u32 -> N.land x y < u32).
  { intros x y H. destruct (N.eq_dec (N.land x y) 0) as [->|NZ]; [reflexivity|].
    apply N.log2_lt_pow2; [lia|]. eapply N.le_lt_trans; [apply N.log2_land|].
    destruct (N.eq_dec y 0) as [->|NY]; [rewrite N.land_0_r in NZ; lia|].
    eapply N.le_lt_trans; [apply N.le_min_r|]. apply N.log2_lt_pow2; [lia|exact H]. }
  set (x := N.land (N.shiftr v s) mask). set (y := N.land (N.shiftl v s mod u32) (ones32 - mask)).
  assert (X : x < u32) by (apply A; exact Hm).
  assert (Y : y < u32) by (unfold y; apply A; unfold ones32, u32 in *; lia).
  destruct (N.eq_dec (N.lor x y) 0) as [->|NZ]; [reflexivity|].
  apply N.log2_lt_pow2; [lia|]. rewrite N.log2_lor.
  destruct (N.eq_dec x 0) as [->|NX], (N.eq_dec y 0) as [->|NY]; try (cbn in NZ; lia);
    apply N.max_lub_lt; try (apply N.log2_lt_pow2; [lia|assumption]); reflexivity.
Qed.

Lemma reverse_bits_lt v : v < u32 -> reverse_bits v < u32.
Proof.
  intro Hv. unfold reverse_bits. cbn [rev_loop].
  repeat (apply round_lt; [|vm_compute; reflexivity]). exact Hv.
Qed.

Lemma reverse_bits_testbit v i : i < 32 -> N.testbit (reverse_bits v) i = N.testbit v (31 - i).
Proof.
  intro Hi. unfold reverse_bits. cbn [rev_loop].
  assert (C : i = 0 \/ i = 1 \/ i = 2 \/ i = 3 \/ i = 4 \/ i = 5 \/ i = 6 \/ i = 7 \/ i = 8 \/ i = 9 \/ i = 10 \/ i = 11
    \/ i = 12 \/ i = 13 \/ i = 14 \/ i = 15 \/ i = 16 \/ i = 17 \/ i = 18 \/ i = 19 \/ i = 20 \/ i = 21 \/ i = 22 \/ i = 23
    \/ i = 24 \/ i = 25 \/ i = 26 \/ i = 27 \/ i = 28 \/ i = 29 \/ i = 30 \/ i = 31) by lia.
  repeat match goal with H : _ \/ _ |- _ => destruct H as [->|H] end; try subst i;
  repeat (rewrite round_bit by (vm_compute; reflexivity);
          match goal with |- (if ?c then _ else _) = _ => let x := eval vm_compute in c in change c with x; cbv iota end;
          try (match goal with |- (if ?c then _ else _) = _ => let x := eval vm_compute in c in change c with x; cbv iota end));
  match goal with |- N.testbit v ?x = N.testbit v ?y => let x' := eval vm_compute in x in let y' := eval vm_compute in y in
     change x with x'; change y with y'; reflexivity end.
Qed.

Lemma testbit_high v n : v < 2 ^ n -> forall i, n <= i -> N.testbit v i = false.
Proof.
  intros H i Hi. rewrite <- (N.mod_small v (2 ^ n) H). apply N.mod_pow2_bits_high. exact Hi.
Qed.

Lemma reverse_bits_revn v : v < u32 -> reverse_bits v = revn 32 v.
Proof.
  intro Hv. apply N.bits_inj. intro i. destruct (i <? 32) eqn:L.
  - rewrite reverse_bits_testbit by lia. rewrite revn_testbit by (change (N.of_nat 32) with 32; lia).
    change (N.of_nat 32) with 32. reflexivity.
  - rewrite (testbit_high _ 32), (testbit_high _ 32); try reflexivity; try lia.
    + apply (revn_lt 32).
    + apply reverse_bits_lt; exact Hv.
Qed.

(* the index after t in a root table of 2^m tables: reverse increment *)
Definition rinc (m : nat) (t : N) : N :=
  if revn m t + 1 <? 2 ^ N.of_nat m then revn m (revn m t + 1) else 0.

Lemma lor_ones_add t m : (m <= 32)%nat -> t < 2 ^ N.of_nat m ->
  N.lor t (ones32 - (2 ^ N.of_nat m - 1)) = t + 2 ^ N.of_nat m * (2 ^ N.of_nat (32 - m) - 1).
Proof.
  intros Hm Ht. set (M := N.of_nat m) in *. replace (N.of_nat (32 - m)) with (32 - M) by lia.
  assert (P : 2 ^ M * 2 ^ (32 - M) = u32) by (rewrite <- N.pow_add_r; unfold u32; f_equal; lia).
  assert (P1 : 0 < 2 ^ M) by (apply N.neq_0_lt_0, N.pow_nonzero; lia).
  assert (P2 : 0 < 2 ^ (32 - M)) by (apply N.neq_0_lt_0, N.pow_nonzero; lia).
  replace (ones32 - (2 ^ M - 1)) with (2 ^ M * (2 ^ (32 - M) - 1)).
  2:{ rewrite N.mul_sub_distr_l, P. unfold ones32, u32 in *. lia. }
  rewrite <- N.lxor_lor. 1: rewrite <- N.add_nocarry_lxor; [reflexivity|].
  all: apply N.bits_inj; intro i; rewrite N.land_spec, N.bits_0; rewrite N.mul_comm, <- N.shiftl_mul_pow2;
    destruct (i <? M) eqn:L; [rewrite (N.shiftl_spec_low _ M i) by lia; apply andb_false_r
                             |rewrite (testbit_high t M Ht i) by lia; reflexivity].
Qed.

Lemma next_tabidx_rinc a t : rpow a <= 15 -> t < rsize a -> next_tabidx a t = rinc (N.to_nat (rpow a)) t.
Proof.
  intros Hr Ht. unfold next_tabidx, rinc. unfold rmask, rsize in *. set (m := N.to_nat (rpow a)).
  assert (M : rpow a = N.of_nat m) by (unfold m; lia). rewrite M in *. assert (Hm : (m <= 15)%nat) by lia.
  assert (P1 : 0 < 2 ^ N.of_nat m) by (apply N.neq_0_lt_0, N.pow_nonzero; lia).
  destruct (0 <? 2 ^ N.of_nat m - 1) eqn:Z.
  2:{ assert (t = 0) by lia. subst t. rewrite revn_0. assert (E1 : 2 ^ N.of_nat m = 1) by lia. rewrite E1. reflexivity. }
  rewrite lor_ones_add by (try assumption; lia).
  assert (P : 2 ^ N.of_nat m * 2 ^ N.of_nat (32 - m) = u32) by (rewrite <- N.pow_add_r; unfold u32; f_equal; lia).
  assert (P2 : 0 < 2 ^ N.of_nat (32 - m)) by (apply N.neq_0_lt_0, N.pow_nonzero; lia).
  rewrite (reverse_bits_revn (t + 2 ^ N.of_nat m * (2 ^ N.of_nat (32 - m) - 1))) by nia.
  assert (R1 : revn 32 (t + 2 ^ N.of_nat m * (2 ^ N.of_nat (32 - m) - 1)) = revn m t * 2 ^ N.of_nat (32 - m) + (2 ^ N.of_nat (32 - m) - 1)).
  { replace 32%nat with (m + (32 - m))%nat at 1 by lia. rewrite revn_app by exact Ht. rewrite revn_ones. reflexivity. }
  rewrite R1. pose proof (revn_lt m t) as L.
  replace (revn m t * 2 ^ N.of_nat (32 - m) + (2 ^ N.of_nat (32 - m) - 1) + 1) with ((revn m t + 1) * 2 ^ N.of_nat (32 - m)) by lia.
  destruct (revn m t + 1 <? 2 ^ N.of_nat m) eqn:C.
  - rewrite N.mod_small by nia. rewrite reverse_bits_revn by nia.
    replace 32%nat with ((32 - m) + m)%nat at 1 by lia.
    replace ((revn m t + 1) * 2 ^ N.of_nat (32 - m)) with (0 + 2 ^ N.of_nat (32 - m) * (revn m t + 1)) by lia.
    rewrite revn_app by lia. rewrite revn_0. lia.
  - replace (revn m t + 1) with (2 ^ N.of_nat m) by lia. rewrite P. rewrite N.mod_same by (unfold u32; discriminate).
    rewrite reverse_bits_revn by reflexivity. reflexivity.
Qed.
