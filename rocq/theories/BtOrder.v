(* bkey order and eflag filter *)
From Verif Require Import Base UtilModel BtModel BtSpec.
Local Open Scope nat_scope.

(* ---------- lex is a strict total order ---------- *)

Lemma lex_irrefl a : lex a a = false.
Proof. induction a as [|x a IH]; cbn [lex]; [reflexivity|]. rewrite IH, N.ltb_irrefl, N.eqb_refl. reflexivity. Qed.

Lemma lex_trans a : forall b c, lex a b = true -> lex b c = true -> lex a c = true.
Proof.
  induction a as [|x a IH]; intros [|y b] [|z c]; cbn [lex]; try discriminate; try reflexivity.
  intros H1 H2. apply orb_true_iff in H1. apply orb_true_iff in H2. apply orb_true_iff.
  destruct H1 as [H1|H1], H2 as [H2|H2]; rewrite ?andb_true_iff, ?N.ltb_lt, ?N.eqb_eq in *.
  - left. lia.
  - left. lia.
  - left. lia.
  - right. destruct H1, H2. split; [lia|]. eapply IH; eauto.
Qed.

Lemma lex_total a : forall b, lex a b = false -> lex b a = false -> a = b.
Proof.
  induction a as [|x a IH]; intros [|y b]; cbn [lex]; try discriminate; try reflexivity.
  intros H1 H2. apply orb_false_iff in H1. apply orb_false_iff in H2. destruct H1 as [L1 E1], H2 as [L2 E2].
  apply N.ltb_ge in L1. apply N.ltb_ge in L2. assert (x = y) by lia. subst y.
  rewrite N.eqb_refl in E1, E2. cbn in E1, E2. f_equal. auto.
Qed.

Lemma lex_asym a b : lex a b = true -> lex b a = false.
Proof.
  intros H. destruct (lex b a) eqn:E; [|reflexivity].
  pose proof (lex_trans _ _ _ H E) as C. rewrite lex_irrefl in C. discriminate.
Qed.

Lemma klt_irrefl a : klt a a = false.
Proof. destruct a; cbn [klt]; [apply N.ltb_irrefl|apply lex_irrefl]. Qed.

Lemma klt_trans a b c : klt a b = true -> klt b c = true -> klt a c = true.
Proof.
  destruct a, b, c; cbn [klt]; try discriminate; try reflexivity.
  - rewrite !N.ltb_lt. lia.
  - apply lex_trans.
Qed.

Lemma klt_total a b : klt a b = false -> klt b a = false -> a = b.
Proof.
  destruct a, b; cbn [klt]; try discriminate.
  - rewrite !N.ltb_ge. intros. f_equal. lia.
  - intros. f_equal. apply lex_total; assumption.
Qed.

Lemma klt_asym a b : klt a b = true -> klt b a = false.
Proof.
  intros H. destruct (klt b a) eqn:E; [|reflexivity].
  pose proof (klt_trans _ _ _ H E) as C. rewrite klt_irrefl in C. discriminate.
Qed.

Lemma kle_refl a : kle a a = true.
Proof. unfold kle. rewrite klt_irrefl. reflexivity. Qed.

Lemma keq_eq a b : keq a b = true <-> a = b.
Proof.
  unfold keq, kle. split.
  - rewrite andb_true_iff, !negb_true_iff. intros [H1 H2]. apply klt_total; assumption.
  - intros ->. rewrite klt_irrefl. reflexivity.
Qed.

Lemma keq_refl a : keq a a = true.
Proof. apply keq_eq. reflexivity. Qed.

Lemma keq_sym a b : keq a b = keq b a.
Proof. unfold keq. apply andb_comm. Qed.

Lemma klt_neq a b : klt a b = true -> keq a b = false.
Proof. intros H. destruct (keq a b) eqn:E; [|reflexivity]. apply keq_eq in E. subst. rewrite klt_irrefl in H. discriminate. Qed.

Lemma klt_neq' a b : klt a b = true -> keq b a = false.
Proof. rewrite keq_sym. apply klt_neq. Qed.

Lemma klt_kle a b : klt a b = true -> kle a b = true.
Proof. intros H. unfold kle. rewrite klt_asym; auto. Qed.

Lemma kle_klt_trans a b c : kle a b = true -> klt b c = true -> klt a c = true.
Proof.
  intros H1 H2. destruct (klt a b) eqn:E; [eapply klt_trans; eauto|].
  unfold kle in H1. apply negb_true_iff in H1. rewrite (klt_total _ _ E H1). assumption.
Qed.

Lemma klt_kle_trans a b c : klt a b = true -> kle b c = true -> klt a c = true.
Proof.
  intros H1 H2. destruct (klt b c) eqn:E; [eapply klt_trans; eauto|].
  unfold kle in H2. apply negb_true_iff in H2. rewrite <- (klt_total _ _ E H2). assumption.
Qed.

Lemma kle_trans a b c : kle a b = true -> kle b c = true -> kle a c = true.
Proof.
  intros H1 H2. destruct (klt a b) eqn:E.
  - apply klt_kle. eapply klt_kle_trans; eauto.
  - unfold kle in H1. apply negb_true_iff in H1. rewrite (klt_total _ _ E H1). assumption.
Qed.

Lemma kle_false a b : kle a b = false -> klt b a = true.
Proof. unfold kle. intros H. apply negb_false_iff in H. exact H. Qed.

Lemma klt_false a b : klt a b = false -> kle b a = true.
Proof. unfold kle. intros ->. reflexivity. Qed.

Lemma kle_lt_or_eq a b : kle a b = true -> klt a b = true \/ a = b.
Proof.
  intros H. destruct (klt a b) eqn:E; [left; reflexivity|right]. apply klt_total; [exact E|].
  unfold kle in H. apply negb_true_iff in H. exact H.
Qed.

Lemma kle_antisym a b : kle a b = true -> kle b a = true -> a = b.
Proof. unfold kle. rewrite !negb_true_iff. intros. apply klt_total; assumption. Qed.

(* ---------- the comparison functions of the code ---------- *)

Lemma u64_comp_spec a b : u64_comp a b = N.compare a b.
Proof.
  unfold u64_comp. destruct (N.compare_spec a b) as [->|H|H].
  - rewrite N.eqb_refl. reflexivity.
  - rewrite (proj2 (N.eqb_neq _ _)), (proj2 (N.ltb_lt _ _)) by lia. reflexivity.
  - rewrite (proj2 (N.eqb_neq _ _)), (proj2 (N.ltb_ge _ _)) by lia. reflexivity.
Qed.

Lemma bin_comp_lt a : forall b, bin_comp a b = Lt <-> lex a b = true.
Proof.
  induction a as [|x a IH]; intros [|y b]; cbn [bin_comp lex]; try (split; congruence).
  destruct (x =? y)%N eqn:E.
  - apply N.eqb_eq in E. subst. rewrite N.ltb_irrefl. cbn. apply IH.
  - destruct (x <? y)%N; cbn; split; congruence.
Qed.
Lemma bin_comp_gt a : forall b, bin_comp a b = Gt <-> lex b a = true.
Proof.
  induction a as [|x a IH]; intros [|y b]; cbn [bin_comp lex]; try (split; congruence).
  destruct (x =? y)%N eqn:E.
  - apply N.eqb_eq in E. subst. rewrite N.ltb_irrefl, N.eqb_refl. cbn. apply IH.
  - apply N.eqb_neq in E. destruct (x <? y)%N eqn:F.
    + apply N.ltb_lt in F. rewrite (proj2 (N.ltb_ge y x)) by lia. rewrite (proj2 (N.eqb_neq y x)) by lia. split; cbn; congruence.
    + apply N.ltb_ge in F. rewrite (proj2 (N.ltb_lt y x)) by lia. split; cbn; congruence.
Qed.
Lemma bin_comp_eq a b : bin_comp a b = Eq <-> a = b.
Proof.
  split.
  - intros H. apply lex_total.
    + destruct (lex a b) eqn:E; [|reflexivity]. apply bin_comp_lt in E. congruence.
    + destruct (lex b a) eqn:E; [|reflexivity]. apply bin_comp_gt in E. congruence.
  - intros ->. induction b as [|x b IH]; cbn [bin_comp]; [reflexivity|]. rewrite N.eqb_refl. exact IH.
Qed.

Lemma bytes_eqb_eq a b : bytes_eqb a b = true <-> a = b.
Proof. unfold bytes_eqb. destruct (list_eq_dec N.eq_dec a b); split; congruence. Qed.

Lemma bin_iseq_spec a : forall b, bin_iseq a b = bytes_eqb a b.
Proof.
  assert (H : forall b, bin_iseq a b = true <-> a = b).
  { induction a as [|x a IH]; intros [|y b]; cbn [bin_iseq]; try (split; congruence).
    destruct (x =? y)%N eqn:E.
    - apply N.eqb_eq in E. subst. rewrite IH. split; congruence.
    - apply N.eqb_neq in E. split; congruence. }
  intros b. destruct (bin_iseq a b) eqn:E; symmetry.
  - apply bytes_eqb_eq. apply H. exact E.
  - destruct (bytes_eqb a b) eqn:F; [|reflexivity]. apply bytes_eqb_eq in F. apply H in F. congruence.
Qed.
Lemma bin_isne_spec a : forall b, bin_isne a b = negb (bytes_eqb a b).
Proof.
  intros b. rewrite <- bin_iseq_spec. revert b.
  induction a as [|x a IH]; intros [|y b]; cbn [bin_isne bin_iseq]; try reflexivity.
  destruct (x =? y)%N; [apply IH|reflexivity].
Qed.
Lemma bin_islt_spec a : forall b, bin_islt a b = lex a b.
Proof.
  induction a as [|x a IH]; intros [|y b]; cbn [bin_islt lex]; try reflexivity.
  destruct (x =? y)%N eqn:E; [|rewrite orb_false_r; reflexivity].
  apply N.eqb_eq in E. subst. rewrite N.ltb_irrefl. cbn. apply IH.
Qed.
Lemma bin_isgt_spec a : forall b, bin_isgt a b = lex b a.
Proof.
  induction a as [|x a IH]; intros [|y b]; cbn [bin_isgt lex]; try reflexivity.
  rewrite (N.eqb_sym y x). destruct (x =? y)%N eqn:E; [|rewrite orb_false_r; reflexivity].
  apply N.eqb_eq in E. subst. rewrite N.ltb_irrefl. cbn. apply IH.
Qed.
Lemma bin_isle_spec a : forall b, bin_isle a b = negb (lex b a).
Proof.
  induction a as [|x a IH]; intros [|y b]; cbn [bin_isle lex]; try reflexivity.
  rewrite (N.eqb_sym y x). destruct (x =? y)%N eqn:E.
  - apply N.eqb_eq in E. subst. rewrite N.ltb_irrefl. cbn. apply IH.
  - apply N.eqb_neq in E. cbn. rewrite orb_false_r.
    destruct (N.ltb_spec x y), (N.ltb_spec y x); try lia; reflexivity.
Qed.
Lemma bin_isge_spec a : forall b, bin_isge a b = negb (lex a b).
Proof.
  induction a as [|x a IH]; intros [|y b]; cbn [bin_isge lex]; try reflexivity.
  destruct (x =? y)%N eqn:E.
  - apply N.eqb_eq in E. subst. rewrite N.ltb_irrefl. cbn. apply IH.
  - apply N.eqb_neq in E. cbn. rewrite orb_false_r.
    destruct (N.ltb_spec x y), (N.ltb_spec y x); try lia; reflexivity.
Qed.

Lemma bcomp_lt a b : bcomp a b = Lt <-> klt a b = true.
Proof.
  destruct a, b; cbn [bcomp klt]; try (split; congruence).
  - rewrite u64_comp_spec, N.ltb_lt. reflexivity.
  - apply bin_comp_lt.
Qed.
Lemma bcomp_gt a b : bcomp a b = Gt <-> klt b a = true.
Proof.
  destruct a, b; cbn [bcomp klt]; try (split; congruence).
  - rewrite u64_comp_spec, N.ltb_lt, N.compare_gt_iff. reflexivity.
  - apply bin_comp_gt.
Qed.
Lemma bcomp_eq a b : bcomp a b = Eq <-> a = b.
Proof.
  destruct a, b; cbn [bcomp]; try (split; congruence).
  - rewrite u64_comp_spec, N.compare_eq_iff. split; congruence.
  - rewrite bin_comp_eq. split; congruence.
Qed.

Lemma b_islt_spec a b : b_islt a b = klt a b.
Proof. destruct a, b; cbn [b_islt klt]; try reflexivity. apply bin_islt_spec. Qed.
Lemma b_isgt_spec a b : b_isgt a b = klt b a.
Proof. destruct a, b; cbn [b_isgt klt]; try reflexivity. apply bin_isgt_spec. Qed.
Lemma b_isne_spec a b : b_isne a b = negb (keq a b).
Proof.
  destruct (keq a b) eqn:E.
  - apply keq_eq in E. subst. destruct b; cbn [b_isne].
    + rewrite N.eqb_refl. reflexivity.
    + rewrite bin_isne_spec. rewrite (proj2 (bytes_eqb_eq l l)); reflexivity.
  - destruct a, b; cbn [b_isne]; try reflexivity.
    + destruct (n =? n0)%N eqn:F; [|reflexivity]. apply N.eqb_eq in F. subst. rewrite keq_refl in E. discriminate.
    + rewrite bin_isne_spec. destruct (bytes_eqb l l0) eqn:F; [|reflexivity].
      apply bytes_eqb_eq in F. subst. rewrite keq_refl in E. discriminate.
Qed.

Lemma bcomp_cases a b :
  (bcomp a b = Eq /\ a = b /\ klt a b = false /\ klt b a = false) \/
  (bcomp a b = Lt /\ klt a b = true /\ klt b a = false) \/
  (bcomp a b = Gt /\ klt b a = true /\ klt a b = false).
Proof.
  destruct (bcomp a b) eqn:E.
  - left. apply bcomp_eq in E. subst. rewrite klt_irrefl. auto.
  - right; left. apply bcomp_lt in E. auto using klt_asym.
  - right; right. apply bcomp_gt in E. auto using klt_asym.
Qed.

(* ---------- range type ---------- *)

Lemma range_type_single r : range_type r = SIN <-> single r = true.
Proof.
  unfold range_type, single. destruct (r_to r) as [t|]; [|split; reflexivity].
  destruct (bcomp_cases (r_from r) t) as [(E & EQ & _)|[(E & H & _)|(E & H & _)]]; rewrite E.
  - rewrite EQ, keq_refl. split; reflexivity.
  - rewrite klt_neq by assumption. split; discriminate.
  - rewrite klt_neq' by assumption. split; discriminate.
Qed.

Lemma range_type_desc r : range_type r = DSC <-> desc r = true.
Proof.
  unfold range_type, desc. destruct (r_to r) as [t|]; [|split; discriminate].
  destruct (bcomp_cases (r_from r) t) as [(E & EQ & H & H')|[(E & H & H')|(E & H & H')]]; rewrite E, ?H, ?H'; split; congruence.
Qed.

Lemma range_type_ends r :
  match range_type r with
  | SIN => lo_of r = r_from r /\ hi_of r = r_from r
  | ASC => lo_of r = r_from r /\ hi_of r = r_end r /\ klt (r_from r) (r_end r) = true /\ r_to r <> None
  | DSC => hi_of r = r_from r /\ lo_of r = r_end r /\ klt (r_end r) (r_from r) = true /\ r_to r <> None
  end.
Proof.
  unfold range_type, lo_of, hi_of, r_end. destruct (r_to r) as [t|]; [|split; reflexivity].
  destruct (bcomp_cases (r_from r) t) as [(E & EQ & H & H')|[(E & H & H')|(E & H & H')]]; rewrite E, ?H, ?H'.
  - rewrite EQ. split; reflexivity.
  - split; [reflexivity|split; [reflexivity|split; [reflexivity|discriminate]]].
  - split; [reflexivity|split; [reflexivity|split; [first [assumption|reflexivity]|discriminate]]].
Qed.

(* ---------- eflag filter ---------- *)

Lemma bitwise_map2 o a : forall b, bitwise o a b = map2 (bit_of o) a b.
Proof. induction a as [|x a IH]; intros [|y b]; cbn; try reflexivity. rewrite IH. destruct o; reflexivity. Qed.

(* what the parser guarantees (memcached.c 12162-12224) *)
Definition filter_ok (f : efilter) : Prop :=
  f_vals f <> [] /\ (forall v, In v (f_vals f) -> 1 <= length v) /\
  (2 <= length (f_vals f) -> f_op f = OpEq \/ f_op f = OpNe).
Definition ofilter_ok (fl : option efilter) : Prop := match fl with Some f => filter_ok f | None => True end.

Lemma existsb_ext' {A} (f g : A -> bool) l : (forall x, f x = g x) -> existsb f l = existsb g l.
Proof. intros H. induction l as [|x l IH]; cbn; [reflexivity|]. rewrite H, IH. reflexivity. Qed.

Lemma elem_filter_spec f e : filter_ok f -> elem_filter e f = f_matches f e.
Proof.
  intros (NE & PL & MO). unfold elem_filter, f_matches, slice, ncompval, f_len.
  destruct (f_vals f) as [|v vs] eqn:V; [congruence|]. cbn [hd].
  assert (Lv : 1 <= length v) by (apply PL; left; reflexivity).
  destruct (Nat.leb_spec (length (ef e)) (f_ofs f)) as [H|H]; cbn [orb].
  - rewrite (proj2 (Nat.ltb_ge _ _)) by lia. cbn. destruct (f_op f); reflexivity.
  - rewrite (proj2 (Nat.ltb_lt (f_ofs f) _)) by lia. cbn [andb].
    destruct (Nat.ltb_spec (length (ef e) - f_ofs f) (length v)) as [G|G].
    + rewrite (proj2 (Nat.leb_gt _ _)) by lia. destruct (f_op f); reflexivity.
    + rewrite (proj2 (Nat.leb_le _ _)) by lia.
      set (x := firstn (length v) (skipn (f_ofs f) (ef e))).
      assert (EX : (match f_bit f with Some (o, w) => bitwise o x w | None => x end) =
                   (match f_bit f with Some (o, w) => map2 (bit_of o) x w | None => x end)).
      { destruct (f_bit f) as [[o w]|]; [apply bitwise_map2|reflexivity]. }
      rewrite EX. set (y := match f_bit f with Some (o, w) => map2 (bit_of o) x w | None => x end).
      destruct vs as [|v2 vs].
      * destruct (f_op f); cbn [compare_op op_holds existsb]; rewrite ?orb_false_r.
        -- apply bin_iseq_spec.
        -- apply bin_isne_spec.
        -- apply bin_islt_spec.
        -- apply bin_isle_spec.
        -- apply bin_isgt_spec.
        -- apply bin_isge_spec.
      * assert (O : f_op f = OpEq \/ f_op f = OpNe) by (apply MO; cbn; lia).
        rewrite (existsb_ext' _ (bytes_eqb y)) by (intros; apply bin_iseq_spec).
        destruct O as [O|O]; rewrite O; cbn [is_eq]; destruct (existsb (bytes_eqb y) (v :: v2 :: vs)); reflexivity.
Qed.

Lemma passes_spec fl e : ofilter_ok fl -> passes fl e = matches fl e.
Proof. destruct fl; cbn; [apply elem_filter_spec|reflexivity]. Qed.

Lemma eupd_spec u f :
  (if bad_eupd u f then None else Some (apply_eupd u f)) = s_eflag u f.
Proof.
  destruct u as [[v|o ofs v]|]; cbn [bad_eupd apply_eupd s_eflag]; try reflexivity.
  unfold slice. destruct v as [|b v].
  - cbn [length]. rewrite Nat.ltb_irrefl. cbn [andb firstn bitwise app]. f_equal.
    rewrite Nat.add_0_r. rewrite <- (firstn_skipn ofs f) at 3. reflexivity.
  - set (w := b :: v). assert (LW : 0 < length w) by (cbn; lia).
    rewrite (proj2 (Nat.ltb_lt 0 _)) by lia. cbn [andb].
    destruct (Nat.leb_spec (length f) ofs), (Nat.ltb_spec ofs (length f)); try lia; cbn [orb andb]; [reflexivity|].
    destruct (Nat.ltb_spec (length f - ofs) (length w)), (Nat.leb_spec (ofs + length w) (length f)); try lia; [reflexivity|].
    rewrite bitwise_map2. reflexivity.
Qed.
