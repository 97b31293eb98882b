From Verif Require Import Base UtilModel UtilSpec.
Open Scope N_scope.

Lemma isspace_iff c : isspace c = true <-> is_space c.
Proof. unfold isspace, is_space. lia. Qed.
Lemma isdigit_iff c : isdigit c = true <-> is_digit c.
Proof. unfold isdigit, is_digit. lia. Qed.

Lemma skip_space_spec s : exists w, s = w ++ skip_space s /\ Forall is_space w /\
  (forall c r, skip_space s = c :: r -> ~ is_space c).
Proof.
  induction s as [|c s IH]; cbn [skip_space].
  - exists []. repeat split; [constructor|intros; discriminate].
  - destruct (isspace c) eqn:E.
    + destruct IH as (w & H1 & H2 & H3). exists (c :: w). repeat split; auto.
      * cbn. congruence.
      * constructor; [apply isspace_iff; assumption|assumption].
    + exists []. repeat split; auto. intros c0 r H. inversion H; subst.
      rewrite <- isspace_iff. congruence.
Qed.

Lemma skip_space_app w s : Forall is_space w -> (forall c r, s = c :: r -> ~ is_space c) ->
  skip_space (w ++ s) = s.
Proof.
  induction 1 as [|c w Hc Hw IH]; intro Hs; cbn [app skip_space].
  - destruct s as [|c s]; [reflexivity|]. cbn [skip_space].
    destruct (isspace c) eqn:E; [|reflexivity].
    apply isspace_iff in E. exfalso; eapply Hs; eauto.
  - apply isspace_iff in Hc. rewrite Hc. auto.
Qed.

Lemma take_digits_spec s acc m rest : take_digits acc s = (m, rest) ->
  exists ds, s = ds ++ rest /\ Forall is_digit ds /\
   m = fold_left (fun a d => 10 * a + (d - 48)) ds acc /\
   (forall c r, rest = c :: r -> ~ is_digit c).
Proof.
  revert acc; induction s as [|c s IH]; intros acc; cbn [take_digits].
  - intro H; inversion H; subst. exists []. repeat split; [constructor|intros; discriminate].
  - destruct (isdigit c) eqn:E.
    + intro H. apply IH in H as (ds & H1 & H2 & H3 & H4).
      exists (c :: ds). repeat split; auto.
      * cbn; congruence.
      * constructor; [apply isdigit_iff; assumption|assumption].
    + intro H; inversion H; subst. exists []. repeat split; auto.
      intros c0 r H0; inversion H0; subst. rewrite <- isdigit_iff. congruence.
Qed.

Lemma take_digits_app ds rest acc : Forall is_digit ds -> (forall c r, rest = c :: r -> ~ is_digit c) ->
  take_digits acc (ds ++ rest) = (fold_left (fun a d => 10 * a + (d - 48)) ds acc, rest).
Proof.
  intros H Hr; revert acc; induction H as [|c ds Hc Hd IH]; intro acc; cbn [app take_digits fold_left].
  - destruct rest as [|c r]; [reflexivity|]. cbn [take_digits].
    destruct (isdigit c) eqn:E; [|reflexivity]. apply isdigit_iff in E. exfalso; eapply Hr; eauto.
  - apply isdigit_iff in Hc. rewrite Hc. apply IH.
Qed.

Lemma decimal_value_fold ds n : decimal_value ds n <->
  Forall is_digit ds /\ n = fold_left (fun a d => 10 * a + (d - 48)) ds 0.
Proof.
  split.
  - induction 1 as [|ds d n H IH Hd]; [split; [constructor|reflexivity]|].
    destruct IH as [IH1 IH2]. split; [apply Forall_app; split; [assumption|repeat constructor; apply Hd]|].
    rewrite fold_left_app. cbn [fold_left]. congruence.
  - revert n; induction ds as [|d ds IH] using rev_ind; intros n [H1 H2].
    + cbn in H2; subst; constructor.
    + apply Forall_app in H1 as [H1 H3]. inversion H3; subst.
      rewrite fold_left_app. cbn [fold_left]. constructor; auto.
Qed.

Lemma digit_not_space c : is_digit c -> ~ is_space c.
Proof. unfold is_digit, is_space; lia. Qed.

Lemma strto_spec s neg m rest : strto s = Some (neg, m, rest) <-> reads_number s neg m rest.
Proof.
  unfold strto, reads_number. split.
  - destruct (take_sign (skip_space s)) as [ng s1] eqn:E.
    destruct (starts_digit s1) eqn:D; [|discriminate].
    destruct (take_digits 0 s1) as [m' rest'] eqn:T. intro H; inversion H; subst ng m' rest'.
    apply take_digits_spec in T as (ds & H1 & H2 & H3 & H4).
    destruct (skip_space_spec s) as (w & Hw1 & Hw2 & Hw3).
    assert (Hds : ds <> []).
    { intro; subst ds. cbn in H1. subst s1. destruct rest as [|c r]; [discriminate|].
      cbn in D. apply isdigit_iff in D. eapply H4; eauto. }
    assert (Hdv : decimal_value ds m) by (apply decimal_value_fold; auto).
    unfold take_sign in E. destruct (skip_space s) as [|c s'] eqn:K.
    { injection E as <- <-. discriminate D. }
    destruct (N.eqb_spec c 45).
    + inversion E; subst. exists w, [45], ds. repeat split; auto.
    + destruct (N.eqb_spec c 43).
      * inversion E; subst. exists w, [43], ds. repeat split; auto.
      * inversion E; subst neg s1. exists w, [], ds. repeat split; auto. rewrite Hw1. cbn. congruence.
  - intros (w & sg & ds & H1 & H2 & H3 & H4 & H5 & H6).
    apply decimal_value_fold in H5 as [H5 H7].
    destruct ds as [|d ds]; [congruence|].
    assert (Hd : is_digit d) by (inversion H5; assumption).
    assert (Hsk : skip_space s = sg ++ (d :: ds) ++ rest).
    { subst s. apply skip_space_app; auto. intros c r Hc.
      destruct H3 as [[_ H3]|[_ [H3|H3]]]; subst sg; cbn in Hc; inversion Hc; subst.
      - unfold is_space; lia.
      - apply digit_not_space; assumption.
      - unfold is_space; lia. }
    rewrite Hsk.
    assert (Hts : take_sign (sg ++ (d :: ds) ++ rest) = (neg, (d :: ds) ++ rest)).
    { destruct H3 as [[H3 H3']|[H3 [H3'|H3']]]; subst; cbn [app take_sign]; try reflexivity.
      unfold is_digit in Hd.
      destruct (N.eqb_spec d 45); [lia|]. destruct (N.eqb_spec d 43); [lia|]. reflexivity. }
    rewrite Hts. cbn [app starts_digit].
    rewrite (proj2 (isdigit_iff d) Hd).
    change (d :: ds ++ rest) with ((d :: ds) ++ rest).
    rewrite take_digits_app by auto. congruence.
Qed.

Lemma strto_None s : strto s = None <-> ~ exists neg m rest, reads_number s neg m rest.
Proof.
  split.
  - intros H (neg & m & rest & R). apply strto_spec in R. congruence.
  - intro H. destruct (strto s) as [[[neg m] rest]|] eqn:E; [|reflexivity].
    exfalso; apply H. exists neg, m, rest. apply strto_spec; assumption.
Qed.

Lemma end_ok_true rest : end_ok rest true = true <-> terminated rest.
Proof.
  unfold end_ok, terminated. destruct rest as [|c r].
  - split; auto.
  - rewrite isspace_iff. split.
    + intro; right; eauto.
    + intros [H|(c' & r' & H & H')]; [discriminate|]. inversion H; subst; assumption.
Qed.

Lemma end_ok_false s : end_ok s false = true <-> exists c r, s = c :: r /\ is_space c.
Proof.
  unfold end_ok. destruct s as [|c r].
  - split; [discriminate|]. intros (c & r & H & _); discriminate.
  - rewrite isspace_iff. split; [eauto|]. intros (c' & r' & H & H'). inversion H; subst; assumption.
Qed.

Lemma has_minus_iff s : has_minus s = true <-> In 45 s.
Proof.
  unfold has_minus. rewrite existsb_exists. split.
  - intros (x & H & H'). apply N.eqb_eq in H'; subst; assumption.
  - intro H; exists 45; split; [assumption|reflexivity].
Qed.

(* value of the unsigned conversion: negation wraps *)
Definition wrapped (neg : bool) (m : N) : N := if neg then (two64 - m) mod two64 else m.

Lemma reads_number_fun s n1 m1 r1 n2 m2 r2 :
  reads_number s n1 m1 r1 -> reads_number s n2 m2 r2 -> n1 = n2 /\ m1 = m2 /\ r1 = r2.
Proof. intros H1 H2. apply strto_spec in H1, H2. rewrite H1 in H2. inversion H2; auto. Qed.

Lemma safe_strtoull_char s v :
  safe_strtoull s = Some v <->
  (exists neg m rest, reads_number s neg m rest /\ terminated rest /\ m < 2 ^ 64 /\
     v = (if neg then (2 ^ 64 - m) mod 2 ^ 64 else m) /\ (2 ^ 63 <= v -> ~ In 45 s))
  \/ ((forall neg m rest, ~ reads_number s neg m rest) /\ (exists c r, s = c :: r /\ is_space c) /\ v = 0).
Proof.
  unfold safe_strtoull.
  destruct (strto s) as [[[neg m] rest]|] eqn:E.
  - pose proof (proj1 (strto_spec _ _ _ _) E) as R.
    split.
    + destruct (N.leb_spec two64 m) as [L|L]; [discriminate|].
      destruct (end_ok rest true) eqn:K; [|discriminate].
      destruct (_ && _)%bool eqn:G; [discriminate|].
      intro H; inversion H; subst v. left. exists neg, m, rest.
      apply end_ok_true in K. repeat split; auto.
      intros Hv Hin. apply has_minus_iff in Hin. rewrite Hin, andb_true_r in G.
      apply N.leb_gt in G. apply (N.lt_irrefl (2 ^ 63)). eapply N.le_lt_trans; [exact Hv|exact G].
    + intros [(neg' & m' & rest' & R' & T & Hm & Hv & Hn)|[Hno _]].
      * destruct (reads_number_fun _ _ _ _ _ _ _ R R') as (<- & <- & <-).
        destruct (N.leb_spec two64 m) as [L|L]; [unfold two64 in L; lia|].
        rewrite (proj2 (end_ok_true rest) T).
        fold two64 in Hv. rewrite <- Hv.
        destruct (_ && _)%bool eqn:G; [|reflexivity].
        apply andb_true_iff in G as [G1 G2]. apply has_minus_iff in G2.
        exfalso; apply Hn; [|assumption]. apply N.leb_le in G1. exact G1.
      * exfalso; eapply Hno; eauto.
  - split.
    + destruct (end_ok s false) eqn:K; [|discriminate]. intro H; inversion H; subst v.
      right. apply end_ok_false in K. repeat split; auto.
      intros neg m rest R. apply strto_spec in R. congruence.
    + intros [(neg & m & rest & R & _)|(Hno & Hsp & ->)].
      * apply strto_spec in R. congruence.
      * apply end_ok_false in Hsp. rewrite Hsp. reflexivity.
Qed.

Lemma plain_reads s n r : plain_number s n -> terminated r -> reads_number (s ++ r) false n r.
Proof.
  intros [H1 H2] H3. exists [], [], s. repeat split; auto.
  intros c r' ->. destruct H3 as [H3|(c' & r'' & H3 & H4)]; [discriminate|].
  inversion H3; subst. intro Hd; eapply digit_not_space; eauto.
Qed.

Lemma digits_no_minus s n : decimal_value s n -> ~ In 45 s.
Proof.
  intros H Hin. apply decimal_value_fold in H as [H _].
  rewrite Forall_forall in H. apply H in Hin. unfold is_digit in Hin. lia.
Qed.

(* An unsigned decimal token is accepted exactly when it is in range. *)
Lemma safe_strtoull_plain s n r : plain_number s n -> terminated r -> ~ In 45 r ->
  safe_strtoull (s ++ r) = if n <? 2 ^ 64 then Some n else None.
Proof.
  intros Hp Ht Hr. pose proof (plain_reads _ _ _ Hp Ht) as R.
  pose proof R as R'. apply strto_spec in R'.
  unfold safe_strtoull. rewrite R'.
  rewrite (proj2 (end_ok_true r) Ht).
  assert (Hm : has_minus (s ++ r) = false).
  { destruct (has_minus (s ++ r)) eqn:E; [|reflexivity]. apply has_minus_iff, in_app_or in E.
    destruct E as [E|E]; [|contradiction]. exfalso; eapply digits_no_minus; [apply Hp|exact E]. }
  rewrite Hm, andb_false_r. unfold two64. change (2^64) with 18446744073709551616.
  destruct (N.leb_spec 18446744073709551616 n), (N.ltb_spec n 18446744073709551616); auto; lia.
Qed.

(* ---- decimal printing ---- *)
Lemma dec_digits_app f n acc : dec_digits f n acc = dec_digits f n [] ++ acc.
Proof.
  revert n acc; induction f as [|f IH]; intros n acc; cbn [dec_digits]; [reflexivity|].
  destruct (n / 10 =? 0); [reflexivity|].
  rewrite (IH _ (_ :: acc)), (IH _ [_]). rewrite <- app_assoc. reflexivity.
Qed.

Lemma dec_digits_value f n : n < 2 ^ N.of_nat f -> f <> O -> decimal_value (dec_digits f n []) n.
Proof.
  revert n; induction f as [|f IH]; intros n H H0; [congruence|]. cbn [dec_digits].
  assert (Hd : is_digit (48 + n mod 10)) by (unfold is_digit; pose proof (N.mod_lt n 10); lia).
  assert (Hdm : 10 * (n / 10) + ((48 + n mod 10) - 48) = n).
  { pose proof (N.div_mod n 10). lia. }
  destruct (N.eqb_spec (n / 10) 0) as [E|E].
  - rewrite E in Hdm. replace n with (10 * 0 + (48 + n mod 10 - 48)) at 2 by (rewrite Hdm; reflexivity).
    apply (dv_snoc [] _ 0); [constructor|assumption].
  - rewrite dec_digits_app. replace n with (10 * (n / 10) + (48 + n mod 10 - 48)) at 3 by assumption.
    constructor; [|assumption]. apply IH.
    + rewrite Nat2N.inj_succ, N.pow_succ_r' in H. apply N.div_lt_upper_bound; lia.
    + intro; subst f. change (2 ^ N.of_nat 1) with 2 in H.
      apply E. apply N.div_small. lia.
Qed.

Lemma dec_text_value n : decimal_value (dec_text n) n.
Proof.
  unfold dec_text. apply dec_digits_value; [|congruence].
  rewrite Nat2N.inj_succ, N2Nat.id. rewrite N.pow_succ_r'.
  pose proof (N.size_gt n). lia.
Qed.

Lemma dec_text_nonempty n : dec_text n <> [].
Proof.
  unfold dec_text. cbn [dec_digits]. destruct (_ =? 0); [discriminate|].
  rewrite dec_digits_app. intro H. apply app_eq_nil in H as [_ H]. discriminate.
Qed.

Lemma dec_text_plain n : plain_number (dec_text n) n.
Proof. split; [apply dec_text_nonempty|apply dec_text_value]. Qed.

Lemma crlf_terminated : terminated [13; 10].
Proof. right. exists 13, [10]. split; [reflexivity|unfold is_space; lia]. Qed.

Lemma strtoull_dec_text n : n < 2 ^ 64 -> safe_strtoull (dec_text n ++ [13; 10]) = Some n.
Proof.
  intro H. rewrite (safe_strtoull_plain _ n); auto using dec_text_plain, crlf_terminated.
  - apply N.ltb_lt in H. rewrite H. reflexivity.
  - cbn. intros [?|[?|[]]]; discriminate.
Qed.

(* ---- the other conversions ---- *)
Definition signed (neg : bool) (m : N) : Z := if neg then Z.opp (Z.of_N m) else Z.of_N m.

Lemma safe_strtoll_char s v :
  safe_strtoll s = Some v <->
  (exists neg m rest, reads_number s neg m rest /\ terminated rest /\
     v = signed neg m /\ (- 2 ^ 63 <= v < 2 ^ 63)%Z)
  \/ ((forall neg m rest, ~ reads_number s neg m rest) /\ (exists c r, s = c :: r /\ is_space c) /\ v = 0%Z).
Proof.
  unfold safe_strtoll.
  destruct (strto s) as [[[neg m] rest]|] eqn:E.
  - pose proof (proj1 (strto_spec _ _ _ _) E) as R. fold (signed neg m).
    split.
    + destruct (_ || _)%bool eqn:G; [discriminate|].
      destruct (end_ok rest true) eqn:K; [|discriminate].
      intro H; inversion H; subst v. left. exists neg, m, rest.
      apply end_ok_true in K. apply orb_false_iff in G as [G1 G2].
      split; [assumption|]. split; [assumption|]. split; [reflexivity|].
      apply Z.ltb_ge in G1. apply Z.leb_gt in G2. split; assumption.
    + intros [(neg' & m' & rest' & R' & T & Hv & Hr)|[Hno _]].
      * destruct (reads_number_fun _ _ _ _ _ _ _ R R') as (<- & <- & <-).
        rewrite <- Hv. destruct Hr as [Hr1 Hr2].
        apply Z.ltb_ge in Hr1. apply Z.leb_gt in Hr2. rewrite Hr1, Hr2. cbn [orb].
        rewrite (proj2 (end_ok_true rest) T). reflexivity.
      * exfalso; eapply Hno; eauto.
  - split.
    + destruct (end_ok s false) eqn:K; [|discriminate]. intro H; inversion H; subst v.
      right. apply end_ok_false in K. repeat split; auto.
      intros neg m rest R. apply strto_spec in R. congruence.
    + intros [(neg & m & rest & R & _)|(Hno & Hsp & ->)].
      * apply strto_spec in R. congruence.
      * apply end_ok_false in Hsp. rewrite Hsp. reflexivity.
Qed.

Lemma safe_strtol_char s v :
  safe_strtol s = Some v <->
  (exists neg m rest, reads_number s neg m rest /\ terminated rest /\
     v = signed neg m /\ (- 2 ^ 31 <= v < 2 ^ 31)%Z)
  \/ ((forall neg m rest, ~ reads_number s neg m rest) /\ (exists c r, s = c :: r /\ is_space c) /\ v = 0%Z).
Proof.
  unfold safe_strtol.
  destruct (strto s) as [[[neg m] rest]|] eqn:E.
  - pose proof (proj1 (strto_spec _ _ _ _) E) as R. fold (signed neg m).
    split.
    + destruct (_ || _)%bool eqn:G; [discriminate|].
      destruct (end_ok rest true) eqn:K; [|discriminate].
      intro H; inversion H; subst v. left. exists neg, m, rest.
      apply end_ok_true in K. apply orb_false_iff in G as [G1 G2].
      split; [assumption|]. split; [assumption|]. split; [reflexivity|].
      apply Z.ltb_ge in G1. apply Z.leb_gt in G2. split; assumption.
    + intros [(neg' & m' & rest' & R' & T & Hv & Hr)|[Hno _]].
      * destruct (reads_number_fun _ _ _ _ _ _ _ R R') as (<- & <- & <-).
        rewrite <- Hv. destruct Hr as [Hr1 Hr2].
        apply Z.ltb_ge in Hr1. apply Z.leb_gt in Hr2. rewrite Hr1, Hr2. cbn [orb].
        rewrite (proj2 (end_ok_true rest) T). reflexivity.
      * exfalso; eapply Hno; eauto.
  - split.
    + destruct (end_ok s false) eqn:K; [|discriminate]. intro H; inversion H; subst v.
      right. apply end_ok_false in K. repeat split; auto.
      intros neg m rest R. apply strto_spec in R. congruence.
    + intros [(neg & m & rest & R & _)|(Hno & Hsp & ->)].
      * apply strto_spec in R. congruence.
      * apply end_ok_false in Hsp. rewrite Hsp. reflexivity.
Qed.

Lemma safe_strtoul_char s v :
  safe_strtoul s = Some v <->
  (exists neg m rest, reads_number s neg m rest /\ terminated rest /\ m < 2 ^ 64 /\
     v = (if neg then (2 ^ 64 - m) mod 2 ^ 64 else m) /\ v < 2 ^ 32)
  \/ ((forall neg m rest, ~ reads_number s neg m rest) /\ (exists c r, s = c :: r /\ is_space c) /\ v = 0).
Proof.
  unfold safe_strtoul.
  destruct (strto s) as [[[neg m] rest]|] eqn:E.
  - pose proof (proj1 (strto_spec _ _ _ _) E) as R.
    split.
    + destruct (N.leb_spec two64 m) as [L|L]; [discriminate|].
      destruct (N.leb_spec two32 (if neg then (two64 - m) mod two64 else m)) as [L2|L2]; [discriminate|].
      destruct (end_ok rest true) eqn:K; [|discriminate].
      destruct (_ && _)%bool eqn:G; [discriminate|].
      intro H; inversion H; subst v. left. exists neg, m, rest.
      apply end_ok_true in K. repeat split; auto.
    + intros [(neg' & m' & rest' & R' & T & Hm & Hv & Hn)|[Hno _]].
      * destruct (reads_number_fun _ _ _ _ _ _ _ R R') as (<- & <- & <-).
        destruct (N.leb_spec two64 m) as [L|L]; [unfold two64 in L; lia|].
        fold two64 in Hv. rewrite <- Hv.
        destruct (N.leb_spec two32 v) as [L2|L2]; [unfold two32 in L2; lia|].
        rewrite (proj2 (end_ok_true rest) T).
        assert (G : (two63 <=? v) = false).
        { apply N.leb_gt. unfold two32, two63 in *.
          change (2^32) with 4294967296 in *. change (2^63) with 9223372036854775808. lia. }
        rewrite G. reflexivity.
      * exfalso; eapply Hno; eauto.
  - split.
    + destruct (end_ok s false) eqn:K; [|discriminate]. intro H; inversion H; subst v.
      right. apply end_ok_false in K. repeat split; auto.
      intros neg m rest R. apply strto_spec in R. congruence.
    + intros [(neg & m & rest & R & _)|(Hno & Hsp & ->)].
      * apply strto_spec in R. congruence.
      * apply end_ok_false in Hsp. rewrite Hsp. reflexivity.
Qed.

(* ---- hexadecimal ---- *)
Lemma hexval_iff c h : hexval c = Some h <-> hex_digit c h.
Proof.
  unfold hexval. split.
  - destruct ((48 <=? c) && (c <=? 57))%bool eqn:E1.
    { intro H; inversion H; subst. apply hd_num. lia. }
    destruct ((65 <=? c) && (c <=? 70))%bool eqn:E2.
    { intro H; inversion H; subst. replace (c - 65 + 10) with (c - 55) by lia. apply hd_up. lia. }
    destruct ((97 <=? c) && (c <=? 102))%bool eqn:E3; [|discriminate].
    intro H; inversion H; subst. replace (c - 97 + 10) with (c - 87) by lia. apply hd_lo. lia.
  - intro H; inversion H; subst.
    + replace ((48 <=? c) && (c <=? 57))%bool with true by lia. reflexivity.
    + replace ((48 <=? c) && (c <=? 57))%bool with false by lia.
      replace ((65 <=? c) && (c <=? 70))%bool with true by lia. f_equal; lia.
    + replace ((48 <=? c) && (c <=? 57))%bool with false by lia.
      replace ((65 <=? c) && (c <=? 70))%bool with false by lia.
      replace ((97 <=? c) && (c <=? 102))%bool with true by lia. f_equal; lia.
Qed.

Lemma hex_digit_lt c h : hex_digit c h -> h < 16.
Proof. intro H; inversion H; subst; lia. Qed.

Lemma pair_ind (A : Type) (P : list A -> Prop) :
  P [] -> (forall x, P [x]) -> (forall x y l, P l -> P (x :: y :: l)) -> forall l, P l.
Proof.
  intros H0 H1 H2. fix IH 1. intros [|x [|y l]]; [exact H0|apply H1|apply H2, IH].
Qed.

Lemma hex_loop_iff s b : Nat.even (length s) = true -> hex_loop s = Some b <-> hex_text s b.
Proof.
  revert b; induction s as [|x|x y s IH] using pair_ind; intros b He.
  - cbn [hex_loop]. split; intro H; inversion H; subst; constructor.
  - discriminate.
  - cbn [hex_loop]. cbn [length Nat.even] in He. split.
    + destruct (hexval x) as [h|] eqn:E1; [|discriminate].
      destruct (hexval y) as [l|] eqn:E2; [|discriminate].
      destruct (hex_loop s) as [r|] eqn:E3; [|discriminate].
      intro H; inversion H; subst.
      apply hexval_iff in E1, E2. pose proof (hex_digit_lt _ _ E1). pose proof (hex_digit_lt _ _ E2).
      rewrite N.shiftl_mul_pow2. change (2^4) with 16.
      rewrite N.mod_small by lia. replace (h * 16 + l) with (16 * h + l) by lia.
      constructor; auto. apply IH; auto.
    + intro H; inversion H as [|c1 c2 h l s' b' H1 H2 H3]; subst.
      pose proof (hex_digit_lt _ _ H1). pose proof (hex_digit_lt _ _ H2).
      apply hexval_iff in H1, H2. rewrite H1, H2.
      apply IH in H3; [|assumption]. rewrite H3.
      rewrite N.shiftl_mul_pow2. change (2^4) with 16.
      rewrite N.mod_small by lia. do 2 f_equal; lia.
Qed.

Lemma hex_text_length s b : hex_text s b -> length s = (2 * length b)%nat.
Proof. induction 1; cbn [length]; lia. Qed.

Lemma hex_text_bytes s b : hex_text s b -> all_bytes b.
Proof.
  induction 1 as [|c1 c2 h l s b H1 H2 H3 IH]; constructor; auto.
  apply hex_digit_lt in H1, H2. unfold is_byte. lia.
Qed.

Lemma strtohexa_char s size b :
  safe_strtohexa s size = Some b <-> s <> [] /\ N.of_nat (length b) <= size /\ hex_text s b.
Proof.
  unfold safe_strtohexa.
  assert (Hev : (N.of_nat (length s) mod 2 =? 0) = Nat.even (length s)).
  { destruct (Nat.even (length s)) eqn:E.
    - apply Nat.even_spec in E as [k E]. rewrite E. apply N.eqb_eq.
      rewrite Nat2N.inj_mul. change (N.of_nat 2) with 2. rewrite N.mul_comm. apply N.mod_mul. lia.
    - apply N.eqb_neq. intro H.
      assert (Nat.Odd (length s)) as [k Hk].
      { apply Nat.odd_spec. unfold Nat.odd. rewrite E. reflexivity. }
      rewrite Hk in H. rewrite Nat2N.inj_add, Nat2N.inj_mul in H.
      change (N.of_nat 2) with 2 in H. change (N.of_nat 1) with 1 in H.
      rewrite N.add_comm, N.mul_comm, N.mod_add in H by lia. discriminate. }
  rewrite Hev. split.
  - destruct (_ || _)%bool eqn:G; [discriminate|].
    apply orb_false_iff in G as [G G3]. apply orb_false_iff in G as [G1 G2].
    apply negb_false_iff in G3. intro H. apply hex_loop_iff in H; auto.
    pose proof (hex_text_length _ _ H) as L. apply N.ltb_ge in G2. apply N.eqb_neq in G1.
    split; [destruct s; [cbn in G1; congruence|discriminate]|]. split; [lia|assumption].
  - intros (H1 & H2 & H3). pose proof (hex_text_length _ _ H3) as L.
    assert (E : Nat.even (length s) = true) by (rewrite L; apply Nat.even_spec; exists (length b); lia).
    replace (_ || _)%bool with false.
    + apply hex_loop_iff; assumption.
    + symmetry. rewrite E. cbn [negb]. rewrite orb_false_r. apply orb_false_iff. split.
      * apply N.eqb_neq. destruct s; [congruence|cbn; lia].
      * apply N.ltb_ge. lia.
Qed.

Lemma hexchar_digit d : d < 16 -> hex_digit (hexchar d) d.
Proof.
  intro H. unfold hexchar. destruct (N.ltb_spec d 10).
  - replace d with ((d + 48) - 48) at 2 by lia. apply hd_num. lia.
  - replace d with ((d + (65 - 10)) - 55) at 2 by lia. apply hd_up. lia.
Qed.

Lemma byte_split b : b < 256 -> N.shiftr (N.land b 0xF0) 4 = b / 16 /\ N.land b 0x0F = b mod 16.
Proof.
  intro H. split.
  - apply N.bits_inj. intro i. rewrite N.shiftr_spec' , N.land_spec.
    rewrite <- N.shiftr_div_pow2 with (n := 4). rewrite N.shiftr_spec'.
    destruct (N.ltb_spec i 4).
    + assert (i = 0 \/ i = 1 \/ i = 2 \/ i = 3) as [->| [->| [->| ->]]] by lia;
        cbn; rewrite andb_true_r; reflexivity.
    + assert (E : N.testbit b (i + 4) = false).
      { destruct (N.eq_dec b 0) as [->|Hb]; [apply N.bits_0|].
        apply N.bits_above_log2. apply N.log2_lt_pow2; [lia|].
        apply N.lt_le_trans with (2^8); [exact H|]. apply N.pow_le_mono_r; lia. }
      rewrite E. reflexivity.
  - change 0x0F with (N.ones 4). rewrite N.land_ones. reflexivity.
Qed.

Lemma hexatostr_text b : all_bytes b -> hex_text (safe_hexatostr b) b.
Proof.
  induction 1 as [|x b Hx Hb IH]; cbn [safe_hexatostr]; [constructor|].
  unfold is_byte in Hx. destruct (byte_split x Hx) as [E1 E2]. rewrite E1, E2.
  replace x with (16 * (x / 16) + x mod 16) at 3 by (symmetry; apply N.div_mod; lia).
  constructor; auto; apply hexchar_digit.
  - apply N.div_lt_upper_bound; lia.
  - apply N.mod_lt; lia.
Qed.

Lemma hexa_roundtrip b size : all_bytes b -> b <> [] -> N.of_nat (length b) <= size ->
  safe_strtohexa (safe_hexatostr b) size = Some b.
Proof.
  intros H1 H2 H3. apply strtohexa_char. repeat split; auto using hexatostr_text.
  destruct b; [congruence|discriminate].
Qed.

(* ---- byte swapping ---- *)
Fixpoint bswap_pairs (n : nat) (rv inp : N) : N :=
  match n with O => rv | S n' => bswap_pairs n' (256 * rv + inp mod 256) (inp / 256) end.

Lemma swap_loop_arith n rv inp : rv < 2 ^ (8 * (8 - N.of_nat n)) -> (n <= 8)%nat ->
  swap_loop n rv inp = bswap_pairs n rv inp.
Proof.
  revert rv inp; induction n as [|n IH]; intros rv inp Hrv Hn; cbn [swap_loop bswap_pairs]; [reflexivity|].
  change 255 with (N.ones 8). rewrite N.land_ones, N.shiftr_div_pow2, N.shiftl_mul_pow2.
  change (2 ^ 8) with 256.
  assert (Hr : rv * 256 < two64).
  { unfold two64. apply N.lt_le_trans with (2 ^ (8 * (8 - N.of_nat (S n))) * 256).
    - apply N.mul_lt_mono_pos_r; [reflexivity|assumption].
    - change 256 with (2 ^ 8). rewrite <- N.pow_add_r. apply N.pow_le_mono_r; lia. }
  rewrite (N.mod_small (rv * 256)) by assumption.
  assert (E : N.lor (rv * 256) (inp mod 256) = 256 * rv + inp mod 256).
  { change 256 with (2 ^ 8). rewrite <- N.shiftl_mul_pow2.
    rewrite <- N.lxor_lor.
    - rewrite <- N.add_nocarry_lxor.
      + rewrite N.shiftl_mul_pow2. lia.
      + apply N.bits_inj. intro i. rewrite N.land_spec, N.bits_0.
        destruct (N.ltb_spec i 8).
        * rewrite N.shiftl_spec_low by assumption. reflexivity.
        * rewrite N.mod_pow2_bits_high by assumption. apply andb_false_r.
    - apply N.bits_inj. intro i. rewrite N.land_spec, N.bits_0.
      destruct (N.ltb_spec i 8).
      + rewrite N.shiftl_spec_low by assumption. reflexivity.
      + rewrite N.mod_pow2_bits_high by assumption. apply andb_false_r. }
  rewrite E. apply IH; [|lia].
  apply N.lt_le_trans with (256 * 2 ^ (8 * (8 - N.of_nat (S n)))).
  - pose proof (N.mod_lt inp 256). lia.
  - change 256 with (2 ^ 8) at 1. rewrite <- N.pow_add_r. apply N.pow_le_mono_r; lia.
Qed.

Fixpoint le_bytes (n : nat) (x : N) : bytes :=
  match n with O => [] | S n' => x mod 256 :: le_bytes n' (x / 256) end.
Fixpoint of_le (l : bytes) : N := match l with [] => 0 | b :: r => b + 256 * of_le r end.

Lemma of_le_bytes n x : x < 256 ^ N.of_nat n -> of_le (le_bytes n x) = x.
Proof.
  revert x; induction n as [|n IH]; intros x H; cbn [le_bytes of_le].
  - change (256 ^ N.of_nat 0) with 1 in H. lia.
  - rewrite Nat2N.inj_succ, N.pow_succ_r' in H.
    rewrite IH by (apply N.div_lt_upper_bound; lia).
    pose proof (N.div_mod x 256). lia.
Qed.

Lemma bswap_rev n rv inp : bswap_pairs n rv inp = of_le (rev (le_bytes n inp)) + 256 ^ N.of_nat n * rv.
Proof.
  revert rv inp; induction n as [|n IH]; intros rv inp; cbn [bswap_pairs le_bytes rev].
  - change (256 ^ N.of_nat 0) with 1. cbn [of_le]. lia.
  - rewrite IH. rewrite Nat2N.inj_succ, N.pow_succ_r'.
    assert (A : forall l b, of_le (l ++ [b]) = of_le l + 256 ^ N.of_nat (length l) * b).
    { induction l as [|y l IHl]; intro b.
      - cbn [app of_le length]. change (256 ^ N.of_nat 0) with 1. lia.
      - cbn [app of_le length]. rewrite IHl, Nat2N.inj_succ, N.pow_succ_r'. lia. }
    assert (L : forall k x, length (le_bytes k x) = k) by (induction k; intros; cbn; auto).
    rewrite A, rev_length, L. nia.
Qed.

Lemma mc_swap64_reverses x : x < two64 -> le_bytes 8 (mc_swap64 x) = rev (le_bytes 8 x).
Proof.
  intro H. unfold mc_swap64. rewrite swap_loop_arith by (cbn; lia).
  rewrite bswap_rev. rewrite N.mul_0_r, N.add_0_r.
  assert (G : forall l, all_bytes l -> le_bytes (length l) (of_le l) = l).
  { induction 1 as [|b l Hb Hl IH]; [reflexivity|]. cbn [length le_bytes of_le].
    unfold is_byte in Hb. f_equal.
    - rewrite (N.mul_comm 256), N.mod_add by lia. apply N.mod_small; assumption.
    - rewrite (N.mul_comm 256), N.div_add by lia. rewrite N.div_small by assumption. exact IH. }
  assert (B : forall n y, all_bytes (le_bytes n y)).
  { induction n as [|n IHn]; intro y; cbn [le_bytes]; constructor; [apply N.mod_lt; lia|apply IHn]. }
  apply (G (rev (le_bytes 8 x))). apply Forall_rev. apply B.
Qed.

(* ---- glob ---- *)
Lemma glob_star_ext p t u : glob (42 :: p) t -> glob (42 :: p) (u ++ t).
Proof. intro H; induction u as [|c u IH]; [assumption|]. cbn. apply g_star1; assumption. Qed.

Lemma glob_star_inv p t : glob (42 :: p) t <-> exists u s, t = u ++ s /\ glob p s.
Proof.
  split.
  - intro H. remember (42 :: p) as q eqn:E. induction H; try discriminate; inversion E; subst.
    + exists [], t. auto.
    + destruct (IHglob eq_refl) as (u & s & -> & H1). exists (c :: u), s. auto.
    + congruence.
  - intros (u & s & -> & H). apply glob_star_ext, g_star0, H.
Qed.

(* One token of pattern (other than a star) consumes exactly one character. *)
Inductive gtok : bytes -> N -> Prop :=
| t_any c : gtok [63] c
| t_esc c : gtok [92; c] c
| t_lit c : c <> 42 -> c <> 63 -> c <> 92 -> gtok [c] c.

(* a star-free pattern prefix, as a sequence of tokens *)
Inductive toks : bytes -> list bytes -> Prop :=
| tk_nil : toks [] []
| tk_any p l : toks p l -> toks (63 :: p) ([63] :: l)
| tk_esc c p l : toks p l -> toks (92 :: c :: p) ([92; c] :: l)
| tk_lit c p l : c <> 42 -> c <> 63 -> c <> 92 -> toks p l -> toks (c :: p) ([c] :: l).

Lemma toks_glob q l : toks q l -> forall r s, glob (q ++ r) s ->
  exists w s', s = w ++ s' /\ length w = length l /\ glob r s'.
Proof.
  induction 1 as [|p l H IH|c p l H IH|c p l N1 N2 N3 H IH]; intros r s G; cbn [app] in G.
  - exists [], s. auto.
  - inversion G; subst; [|congruence].
    destruct (IH r t) as (w & s' & Es & Lw & Gr); [assumption|]. subst t.
    exists (c :: w), s'. cbn. auto.
  - inversion G; subst; [|congruence].
    destruct (IH r t) as (w & s' & Es & Lw & Gr); [assumption|]. subst t.
    exists (c :: w), s'. cbn. auto.
  - inversion G; subst; try congruence.
    destruct (IH r t) as (w & s' & Es & Lw & Gr); [assumption|]. subst t.
    exists (c :: w), s'. cbn. auto.
Qed.

Lemma toks_app q l : toks q l -> forall q' l', toks q' l' -> toks (q ++ q') (l ++ l').
Proof. induction 1; intros; cbn [app]; try constructor; auto. Qed.

(* consuming a token *)
Lemma glob_any p c t : glob (63 :: p) (c :: t) <-> glob p t.
Proof. split; intro H; [inversion H; subst; auto; congruence|constructor; auto]. Qed.
Lemma glob_esc p c t : glob (92 :: c :: p) (c :: t) <-> glob p t.
Proof. split; intro H; [inversion H; subst; auto; congruence|constructor; auto]. Qed.
Lemma glob_esc_ne p d c t : d <> c -> ~ glob (92 :: d :: p) (c :: t).
Proof. intros N H; inversion H; subst; congruence. Qed.
Lemma glob_lit p c t : c <> 42 -> c <> 63 -> c <> 92 -> glob (c :: p) (c :: t) <-> glob p t.
Proof. intros; split; intro G; [inversion G; subst; auto; congruence|constructor; auto]. Qed.
Lemma glob_lit_ne p d c t : d <> c -> d <> 42 -> d <> 63 -> d <> 92 -> ~ glob (d :: p) (c :: t).
Proof. intros; intro G; inversion G; subst; congruence. Qed.
Lemma glob_nil_cons c t : ~ glob [] (c :: t).
Proof. intro H; inversion H. Qed.

Lemma glob_text_nil p : glob p [] <-> drop_stars p = [].
Proof.
  split.
  - intro H. remember (@nil N) as t eqn:E. induction H; try discriminate; cbn [drop_stars]; auto.
  - induction p as [|c p IH]; cbn [drop_stars]; intro H; [constructor|].
    destruct (N.eqb_spec c 42); [subst; apply g_star0; auto|discriminate].
Qed.

(* validity without the star bound: every backslash has a follower *)
Inductive esc_ok : bytes -> Prop :=
| eo_nil : esc_ok []
| eo_esc c p : esc_ok p -> esc_ok (92 :: c :: p)
| eo_other c p : c <> 92 -> esc_ok p -> esc_ok (c :: p).

Definition plain_text (t : bytes) : Prop := ~ In 0 t /\ ~ In 92 t.

Lemma plain_cons c t : plain_text (c :: t) -> c <> 0 /\ c <> 92 /\ plain_text t.
Proof. unfold plain_text; cbn; intuition congruence. Qed.

Lemma plain_app u t : plain_text (u ++ t) -> plain_text t.
Proof. unfold plain_text; rewrite !in_app_iff; tauto. Qed.

(* state invariant of the loop: text t0, pattern p0 originally *)
Definition minv (goal : Prop) (t p : bytes) (bk : option (bytes * bytes)) : Prop :=
  match bk with
  | None => goal <-> glob p t
  | Some (tb, pb) =>
      (goal <-> glob (42 :: pb) tb) /\ esc_ok pb /\ plain_text tb /\
      exists w q l, tb = w ++ t /\ pb = q ++ p /\ toks q l /\ length l = length w /\
        (glob p t -> glob pb tb) /\ (glob pb tb -> glob p t)
  end.

Definition measure (K : nat) (big : nat) (t p : bytes) (bk : option (bytes * bytes)) : nat :=
  match bk with
  | None => big * K + length t + length p
  | Some (tb, _) => length tb * K + length t + length p
  end.

Definition small (K big : nat) (t p : bytes) (bk : option (bytes * bytes)) : Prop :=
  match bk with
  | None => (length t <= big)%nat /\ (length t + length p < K)%nat
  | Some (tb, pb) => (length tb + length pb < K)%nat /\ (length t <= length tb)%nat /\ (length p <= length pb)%nat
  end.

Lemma minv_consume goal t p bk c k p' :
  minv goal (c :: t) p bk ->
  p = k ++ p' -> (exists l, toks k l /\ length l = 1%nat) ->
  (glob p (c :: t) <-> glob p' t) ->
  minv goal t p' bk.
Proof.
  intros M -> (lk & Hk & Hl) E. destruct bk as [[tb pb]|]; cbn in *.
  - destruct M as (M1 & M2 & M3 & w & q & l & E1 & E2 & T & L & G1 & G2).
    split; [assumption|]. split; [assumption|]. split; [assumption|].
    exists (w ++ [c]), (q ++ k), (l ++ lk).
    rewrite <- !app_assoc. cbn [app]. split; [assumption|]. split; [assumption|].
    split; [apply toks_app; assumption|]. rewrite !app_length, Hl, L. split; [reflexivity|].
    rewrite E in *. tauto.
  - rewrite M. exact E.
Qed.

Lemma glob_loop_correct goal K big fuel : forall t p bk,
  minv goal t p bk -> esc_ok p -> plain_text t -> small K big t p bk -> (big >= 1 -> True)%nat ->
  (measure K big t p bk < fuel)%nat ->
  (glob_loop fuel t p bk = GlobYes /\ goal) \/ (glob_loop fuel t p bk = GlobNo /\ ~ goal).
Proof.
  induction fuel as [|fuel IH]; intros t p bk M EO PT SM Hb HM; [lia|].
  cbn [glob_loop]. destruct t as [|c t].
  - (* end of text *)
    assert (G : goal <-> glob p [] ).
    { destruct bk as [[tb pb]|]; cbn in M; [|exact M].
      destruct M as (M1 & M2 & M3 & w & q & l & E1 & E2 & T & L & G1 & G2).
      rewrite M1. split.
      - intro G. apply glob_star_inv in G as (u & s & E & G). subst pb.
        destruct (toks_glob _ _ T _ _ G) as (w' & s' & E3 & L' & G').
        rewrite app_nil_r in E1. subst tb s.
        assert (H : length w = length (u ++ w' ++ s')) by congruence.
        rewrite !app_length in H. assert (s' = []) by (destruct s'; [reflexivity|cbn in H; lia]).
        subst s'. exact G'.
      - intro G. apply g_star0. auto. }
    rewrite glob_text_nil in G. destruct (drop_stars p) as [|x y]; [left|right].
    + split; [reflexivity|]. apply G; reflexivity.
    + split; [reflexivity|]. intro H; apply G in H; discriminate.
  - pose proof PT as PTc. apply plain_cons in PT as (C0 & C92 & PT).
    assert (FAIL : ~ glob p (c :: t) ->
      (match bk with None => GlobNo | Some ([], pb) => GlobUB
        | Some (_ :: tb, pb) => glob_loop fuel tb pb (Some (tb, pb)) end = GlobYes /\ goal) \/
      (match bk with None => GlobNo | Some ([], pb) => GlobUB
        | Some (_ :: tb, pb) => glob_loop fuel tb pb (Some (tb, pb)) end = GlobNo /\ ~ goal)).
    { intro NG. destruct bk as [[tb pb]|]; cbn in M.
      - destruct M as (M1 & M2 & M3 & w & q & l & E1 & E2 & T & L & G1 & G2).
        destruct tb as [|b tb]; [destruct w; discriminate|].
        apply plain_cons in M3 as (B0 & B92 & M3).
        cbn [small length measure] in SM, HM.
        apply IH; auto.
        + cbn. split.
          * rewrite M1. split.
            -- intro G. inversion G; subst; auto; try congruence. tauto.
            -- intro G. apply g_star1; assumption.
          * split; [assumption|]. split; [assumption|].
            exists [], [], []. repeat split; auto. constructor.
        + cbn. lia.
        + cbn [measure]. destruct SM as (S1 & S2 & S3). nia.
      - right. split; [reflexivity|]. rewrite M. assumption. }
    assert (STEP : forall k p', p = k ++ p' -> k <> [] -> esc_ok p' -> (exists l, toks k l /\ length l = 1%nat) ->
       (glob p (c :: t) <-> glob p' t) ->
       (glob_loop fuel t p' bk = GlobYes /\ goal) \/ (glob_loop fuel t p' bk = GlobNo /\ ~ goal)).
    { intros k p' E Kn EO' Tk EQ. apply IH; auto.
      - eapply minv_consume; eauto.
      - subst p. destruct bk as [[tb pb]|]; cbn [small length] in *; rewrite app_length in *; lia.
      - subst p. destruct k; [congruence|].
        destruct bk as [[tb pb]|]; cbn [measure length app] in *; rewrite app_length in *; lia. }
    destruct EO as [|d p EO|d p Hd EO]; cbn [rd nth].
    + (* pattern exhausted: reads the NUL *)
      change (0 =? 92) with false. cbn [andb].
      change (0 =? 42) with false. change (0 =? 63) with false.
      destruct (N.eqb_spec 0 c); [congruence|]. cbn [orb].
      apply FAIL. apply glob_nil_cons.
    + change (92 =? 92) with true. cbn [andb].
      destruct (N.eqb_spec d c) as [->|Hdc].
      * apply (STEP [92; c]); auto; [discriminate| |apply glob_esc].
        exists [[92; c]]. split; [|reflexivity]. apply tk_esc. constructor.
      * change (92 =? 42) with false. change (92 =? 63) with false.
        destruct (N.eqb_spec 92 c); [congruence|]. cbn [orb].
        apply FAIL. apply glob_esc_ne. assumption.
    + destruct (N.eqb_spec d 92); [congruence|]. cbn [andb].
      destruct (N.eqb_spec d 42) as [->|Hs].
      * (* star *)
        apply IH; auto.
        -- cbn. split; [|split; [assumption|split; [exact PTc|]]].
           ++ destruct bk as [[tb pb]|]; cbn in M; [|exact M].
              destruct M as (M1 & M2 & M3 & w & q & l & E1 & E2 & T & L & G1 & G2).
              rewrite M1. split.
              ** intro G. apply glob_star_inv in G as (u & s & E & G). rewrite E2 in G.
                 destruct (toks_glob _ _ T _ _ G) as (w' & s' & E3 & L' & G').
                 subst s. rewrite E1 in E.
                 assert (exists z, c :: t = z ++ s') as (z & Hz).
                 { rewrite app_assoc in E.
                   assert (LL : (length w <= length (u ++ w'))%nat) by (rewrite app_length; lia).
                   clear - E LL. remember (u ++ w') as v. clear Heqv.
                   revert v E LL; induction w as [|y w IHw]; intros v E LL.
                   - exists v. exact E.
                   - destruct v as [|z v]; [cbn in LL; lia|]. cbn in E. inversion E; subst.
                     apply (IHw v); [assumption|cbn in LL; lia]. }
                 rewrite Hz. apply glob_star_ext. exact G'.
              ** intro G. apply g_star0. auto.
           ++ exists [], [], []. repeat split; auto. constructor.
        -- destruct bk as [[tb pb]|]; cbn [small length] in *; lia.
        -- destruct bk as [[tb pb]|]; cbn [measure small length] in *; nia.
      * destruct (N.eqb_spec d 63) as [->|Hq]; cbn [orb].
        -- apply (STEP [63]); auto; [discriminate| |apply glob_any].
           exists [[63]]. split; [|reflexivity]. apply tk_any. constructor.
        -- destruct (N.eqb_spec d c) as [->|Hdc].
           ++ apply (STEP [c]); auto; [discriminate| |apply glob_lit; auto].
              exists [[c]]. split; [|reflexivity]. apply tk_lit; auto. constructor.
           ++ apply FAIL. apply glob_lit_ne; auto.
Qed.

Lemma valid_esc_ok p n : valid_pattern p n -> esc_ok p.
Proof.
  induction 1; try (constructor; auto; fail).
  apply eo_other; [lia|assumption].
Qed.

Lemma string_pattern_match_esc_ok t p : esc_ok p -> plain_text t ->
  (string_pattern_match t p = GlobYes <-> glob p t) /\
  (string_pattern_match t p = GlobNo <-> ~ glob p t).
Proof.
  intros EO PT. unfold string_pattern_match, glob_fuel.
  destruct (glob_loop_correct (glob p t) (length t + length p + 1) (S (length t))
     (S (S (length t) * (length t + length p + 1) + length t + length p)) t p None) as [[E G]|[E G]].
  - cbn. tauto.
  - assumption.
  - assumption.
  - cbn. lia.
  - auto.
  - cbn [measure]. lia.
  - rewrite E. split; split; intro H; try discriminate; tauto.
  - rewrite E. split; split; intro H; try discriminate; tauto.
Qed.

Lemma validate_loop_iff p : forall k, (k <= 4)%nat ->
  validate_loop p (N.of_nat k) = true <-> exists n, valid_pattern p n /\ (n + k <= 4)%nat.
Proof.
  assert (H : forall m p, (length p <= m)%nat -> forall k, (k <= 4)%nat ->
    validate_loop p (N.of_nat k) = true <-> exists n, valid_pattern p n /\ (n + k <= 4)%nat).
  { clear p. induction m as [|m IH]; intros p Hm k Hk.
    - destruct p; [|cbn in Hm; lia]. cbn. split; [exists O; split; [constructor|lia]|auto].
    - destruct p as [|c p]; cbn [validate_loop].
      { split; [exists O; split; [constructor|lia]|auto]. }
      cbn [length] in Hm. destruct (N.eqb_spec c 92) as [->|H92].
      + destruct p as [|d p]; [split; [discriminate|intros (n & V & _); inversion V; subst; congruence]|].
        cbn [length] in Hm.
        destruct ((d =? 42) || (d =? 63) || (d =? 92))%bool eqn:E.
        * rewrite IH by lia. split; intros (n & V & L).
          -- exists n. split; [apply vp_esc; [lia|assumption]|assumption].
          -- exists n. split; [inversion V; subst; auto; congruence|assumption].
        * split; [discriminate|]. intros (n & V & L). inversion V; subst; [lia|congruence].
      + destruct (N.eqb_spec c 42) as [->|H42].
        * destruct (N.ltb_spec 4 (N.of_nat k + 1)).
          -- split; [discriminate|]. intros (n & V & L). inversion V; subst; [lia|congruence].
          -- replace (N.of_nat k + 1) with (N.of_nat (S k)) by lia. rewrite IH by lia.
             split; intros (n & V & L).
             ++ exists (S n). split; [constructor; assumption|lia].
             ++ inversion V; subst; [|congruence]. eexists; split; [eassumption|lia].
        * rewrite IH by lia. split; intros (n & V & L).
          -- exists n. split; [apply vp_other; assumption|assumption].
          -- exists n. split; [inversion V; subst; auto; congruence|assumption]. }
  intros; eapply H; eauto.
Qed.

Lemma scan_validate_pattern_iff p :
  scan_validate_pattern p = true <->
  p <> [] /\ (length p <= 64)%nat /\ exists n, valid_pattern p n /\ (n <= 4)%nat.
Proof.
  unfold scan_validate_pattern. split.
  - destruct (_ || _)%bool eqn:E; [discriminate|]. intro H.
    change 0 with (N.of_nat 0) in H. apply validate_loop_iff in H as (n & V & L); [|lia].
    split; [intro; subst p; cbn in E; discriminate|]. split; [lia|]. exists n. split; [assumption|lia].
  - intros (H1 & H2 & n & V & L).
    replace (_ || _)%bool with false.
    + change 0 with (N.of_nat 0). apply validate_loop_iff; [lia|]. exists n. split; [assumption|lia].
    + symmetry. destruct p; [congruence|]. cbn [length] in *. lia.
Qed.

(* ---- prefix names ---- *)
Lemma mc_isvalidname_iff s : mc_isvalidname s = true <->
  (forall r, s <> 45 :: r) /\
  Forall (fun c => 97 <= c <= 122 \/ 65 <= c <= 90 \/ 48 <= c <= 57 \/ c = 95 \/ c = 45 \/ c = 43 \/ c = 46) s.
Proof.
  assert (P : forall c, mc_isnamechar c = true <->
    97 <= c <= 122 \/ 65 <= c <= 90 \/ 48 <= c <= 57 \/ c = 95 \/ c = 45 \/ c = 43 \/ c = 46).
  { intro c. unfold mc_isnamechar. lia. }
  destruct s as [|c s]; cbn [mc_isvalidname].
  - split; auto. intros _. split; [intros; discriminate|constructor].
  - destruct (N.eqb_spec c 45) as [->|Hc].
    + split; [discriminate|]. intros [H _]. exfalso; eapply H; reflexivity.
    + rewrite forallb_forall, Forall_forall. split.
      * intro H. split; [congruence|]. intros x Hx. apply P, H, Hx.
      * intros [_ H] x Hx. apply P, H, Hx.
Qed.
