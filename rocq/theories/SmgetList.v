(* Order of the hits; sorted lists of hits; what may be left out of a merge *)
From Coq Require Import Sorting.Sorted Sorting.Permutation.
From Verif Require Import Base UtilModel BtModel BtSpec BtOrder SmgetModel SmgetSpec.
Local Open Scope nat_scope.

Definition nul_free (k : bytes) : Prop := Forall (fun b => b <> 0%N) k.

Lemma comp_hkey_spec a : forall b, nul_free a -> nul_free b -> comp_hkey a b = bin_comp a b.
Proof.
  induction a as [|x a IH]; intros b HA HB; destruct b as [|y b]; try reflexivity.
  apply Forall_cons_iff in HA. destruct HA as (A1 & A2). apply Forall_cons_iff in HB. destruct HB as (B1 & B2).
  specialize (IH b A2 B2). unfold comp_hkey in *. cbn [length Nat.eqb]. change (S (length a) <? S (length b)) with (length a <? length b).
  cbn [bin_comp strncmp hd tl].
  assert (X0 : (x =? 0)%N = false) by (apply N.eqb_neq; exact A1). rewrite X0.
  destruct (N.compare_spec x y) as [C|C|C].
  - subst y. rewrite N.eqb_refl. exact IH.
  - replace (x =? y)%N with false by (symmetry; apply N.eqb_neq; lia). replace (x <? y)%N with true by (symmetry; apply N.ltb_lt; lia).
    destruct (length a =? length b), (length a <? length b); reflexivity.
  - replace (x =? y)%N with false by (symmetry; apply N.eqb_neq; lia). replace (x <? y)%N with false by (symmetry; apply N.ltb_ge; lia).
    destruct (length a =? length b), (length a <? length b); reflexivity.
Qed.

Section Order.
Variable dsc : bool.
Notation bef := (before dsc).

Lemma before_irrefl a : bef a a = false.
Proof. unfold before. rewrite keq_refl. destruct dsc; apply lex_irrefl. Qed.

Lemma before_trans a b c : bef a b = true -> bef b c = true -> bef a c = true.
Proof.
  unfold before. destruct (keq (bk (h_e a)) (bk (h_e b))) eqn:E1, (keq (bk (h_e b)) (bk (h_e c))) eqn:E2.
  - apply keq_eq in E1, E2. rewrite E1, E2, keq_refl. destruct dsc; intros; eapply lex_trans; eassumption.
  - apply keq_eq in E1. rewrite E1, E2. auto.
  - apply keq_eq in E2. rewrite <- E2, E1. auto.
  - intros H1 H2. assert (H3 : (if dsc then klt (bk (h_e c)) (bk (h_e a)) else klt (bk (h_e a)) (bk (h_e c))) = true) by (destruct dsc; eapply klt_trans; eassumption).
    assert (E3 : keq (bk (h_e a)) (bk (h_e c)) = false) by (destruct dsc; [apply klt_neq'|apply klt_neq]; exact H3). rewrite E3. exact H3.
Qed.

Lemma before_asym a b : bef a b = true -> bef b a = false.
Proof.
  intros H. destruct (bef b a) eqn:C; [|reflexivity]. pose proof (before_trans a b a H C) as X. rewrite before_irrefl in X. discriminate.
Qed.

Definition same (a b : hit) : Prop := bk (h_e a) = bk (h_e b) /\ h_key a = h_key b.

Lemma before_total a b : bef a b = false -> bef b a = false -> same a b.
Proof.
  unfold before, same. rewrite (keq_sym (bk (h_e b))). destruct (keq (bk (h_e a)) (bk (h_e b))) eqn:E1.
  - apply keq_eq in E1. intros H1 H2. split; [exact E1|]. destruct dsc; apply lex_total; assumption.
  - intros H1 H2. exfalso. assert (bk (h_e a) = bk (h_e b)) by (destruct dsc; apply klt_total; assumption).
    rewrite H, keq_refl in E1. discriminate.
Qed.

(* order of bkeys in the direction of the request *)
Definition kbef (a b : bkey) : bool := if dsc then klt b a else klt a b.
Lemma before_key a b : bef a b = true -> bk (h_e a) = bk (h_e b) \/ kbef (bk (h_e a)) (bk (h_e b)) = true.
Proof. unfold before, kbef. destruct (keq (bk (h_e a)) (bk (h_e b))) eqn:E; [apply keq_eq in E; auto|auto]. Qed.
Lemma kbef_before a b : kbef (bk (h_e a)) (bk (h_e b)) = true -> bef a b = true.
Proof.
  unfold before, kbef. intros H. assert (E : keq (bk (h_e a)) (bk (h_e b)) = false) by (destruct dsc; [apply klt_neq'|apply klt_neq]; exact H).
  rewrite E. exact H.
Qed.
Lemma kbef_irrefl a : kbef a a = false.
Proof. unfold kbef. destruct dsc; apply klt_irrefl. Qed.
Lemma kbef_trans a b c : kbef a b = true -> kbef b c = true -> kbef a c = true.
Proof. unfold kbef. destruct dsc; intros; eapply klt_trans; eassumption. Qed.
Lemma kbef_total a b : kbef a b = false -> kbef b a = false -> a = b.
Proof. unfold kbef. destruct dsc; intros; apply klt_total; assumption. Qed.

(* ---------- sorted lists ---------- *)

Definition ssorted := StronglySorted (fun a b => bef a b = true).

Lemma ssorted_nodup l : ssorted l -> NoDup l.
Proof.
  induction 1 as [|x l HS IH HF]; constructor; [|exact IH]. intros HI. rewrite Forall_forall in HF. specialize (HF x HI).
  rewrite before_irrefl in HF. discriminate.
Qed.

Lemma ssorted_perm a : forall b, ssorted a -> ssorted b -> Permutation a b -> a = b.
Proof.
  induction a as [|x a IH]; intros b HA HB HP.
  - apply Permutation_nil in HP. congruence.
  - destruct b as [|y b]; [apply Permutation_sym, Permutation_nil in HP; discriminate|].
    inversion HA as [|? ? SA FA]; inversion HB as [|? ? SB FB]; subst. rewrite Forall_forall in FA, FB.
    assert (XY : x = y).
    { assert (IX : In x (y :: b)) by (eapply Permutation_in; [exact HP|left; reflexivity]).
      assert (IY : In y (x :: a)) by (eapply Permutation_in; [apply Permutation_sym; exact HP|left; reflexivity]).
      destruct IX as [->|IX]; [reflexivity|]. destruct IY as [->|IY]; [reflexivity|].
      pose proof (before_asym _ _ (FA y IY)) as C. rewrite (FB x IX) in C. discriminate. }
    subst y. f_equal. apply IH; [assumption|assumption|]. eapply Permutation_cons_inv. exact HP.
Qed.

Lemma ssorted_filter P l : ssorted l -> ssorted (filter P l).
Proof.
  induction 1 as [|x l HS IH HF]; cbn [filter]; [constructor|]. destruct (P x); [|exact IH]. constructor; [exact IH|].
  rewrite Forall_forall in *. intros y HY. apply filter_In in HY. apply HF. tauto.
Qed.

Lemma ssorted_app a b : ssorted (a ++ b) <-> ssorted a /\ ssorted b /\ forall x y, In x a -> In y b -> bef x y = true.
Proof.
  induction a as [|x a IH]; cbn [app].
  - split; [intros H; split; [constructor|split; [exact H|intros ? ? []]]|tauto].
  - split.
    + intros H. inversion H as [|? ? H1 H2]; subst. apply IH in H1. destruct H1 as (A1 & A2 & A3). rewrite Forall_forall in H2.
      split; [|split; [exact A2|]].
      * constructor; [exact A1|]. apply Forall_forall. intros y HY. apply H2. apply in_app_iff. auto.
      * intros u v [<-|HU] HV; [apply H2; apply in_app_iff; auto|]. auto.
    + intros (A1 & A2 & A3). inversion A1 as [|? ? A4 A5]; subst. constructor.
      * apply IH. split; [exact A4|]. split; [exact A2|]. intros u v HU HV. apply A3; [right; exact HU|exact HV].
      * rewrite Forall_forall in *. intros y HY. apply in_app_iff in HY. destruct HY as [HY|HY]; [auto|]. apply A3; [left; reflexivity|exact HY].
Qed.

Lemma sort_in_perm x l : Permutation (sort_in dsc x l) (x :: l).
Proof.
  induction l as [|y l IH]; cbn [sort_in]; [reflexivity|]. destruct (bef x y); [reflexivity|].
  rewrite IH. apply perm_swap.
Qed.
Lemma sort_perm l : Permutation (sort dsc l) l.
Proof. induction l as [|x l IH]; cbn; [reflexivity|]. rewrite sort_in_perm. constructor. exact IH. Qed.

Lemma sort_in_sorted x l : ssorted l -> (forall y, In y l -> ~ same x y) -> ssorted (sort_in dsc x l).
Proof.
  induction 1 as [|y l HS IH HF]; intros HD; cbn [sort_in]; [constructor; constructor|]. destruct (bef x y) eqn:E.
  - constructor; [constructor; assumption|]. constructor; [exact E|]. rewrite Forall_forall in *. intros z HZ. eapply before_trans; [exact E|]. apply HF. exact HZ.
  - assert (YX : bef y x = true).
    { destruct (bef y x) eqn:C; [reflexivity|]. exfalso. apply (HD y (or_introl eq_refl)). apply before_total; assumption. }
    constructor; [apply IH; intros z HZ; apply HD; right; exact HZ|].
    apply Forall_forall. intros z HZ. apply (Permutation_in _ (sort_in_perm x l)) in HZ. destruct HZ as [<-|HZ]; [exact YX|].
    rewrite Forall_forall in HF. apply HF. exact HZ.
Qed.
(* no two hits of the same key and bkey *)
Fixpoint apart (l : list hit) : Prop := match l with [] => True | x :: r => (forall y, In y r -> ~ same x y) /\ apart r end.
Lemma sort_sorted l : apart l -> ssorted (sort dsc l).
Proof.
  induction l as [|x l IH]; intros H; cbn; [constructor|]. destruct H as (H1 & H2). apply sort_in_sorted; [apply IH; exact H2|].
  intros y HY. apply H1. eapply Permutation_in; [apply sort_perm|exact HY].
Qed.

(* ---------- one hit per bkey ---------- *)

Fixpoint dd (prev : option bkey) (l : list hit) : list hit :=
  match l with
  | [] => []
  | x :: r => if match prev with Some b => keq b (bk (h_e x)) | None => false end then dd prev r
              else x :: dd (Some (bk (h_e x))) r
  end.

Lemma dd_sub prev l x : In x (dd prev l) -> In x l.
Proof.
  revert prev. induction l as [|y l IH]; intros prev H; [contradiction|]. cbn [dd] in H.
  destruct (match prev with Some b => keq b (bk (h_e y)) | None => false end); [right; eapply IH; eassumption|].
  destruct H as [<-|H]; [left; reflexivity|right; eapply IH; eassumption].
Qed.

Lemma dd_sorted prev l : ssorted l -> ssorted (dd prev l).
Proof.
  intros H. revert prev. induction H as [|x l HS IH HF]; intros prev; cbn [dd]; [constructor|].
  destruct (match prev with Some b => keq b (bk (h_e x)) | None => false end); [apply IH|]. constructor; [apply IH|].
  rewrite Forall_forall in *. intros y HY. apply HF. eapply dd_sub. exact HY.
Qed.

Lemma dd_firsts l : ssorted l -> firsts l = dd None l.
Proof.
  assert (G : forall l b, ssorted l -> (forall x, In x l -> bk (h_e x) = b \/ kbef b (bk (h_e x)) = true) ->
     filter (fun y => negb (keq b (bk (h_e y)))) (firsts l) = dd (Some b) l).
  { clear l. intros l b H. revert b. induction H as [|x l HS IH HF]; intros b HB; cbn [firsts filter dd]; [reflexivity|].
    rewrite Forall_forall in HF.
    assert (NX : forall y, In y l -> bk (h_e y) = bk (h_e x) \/ kbef (bk (h_e x)) (bk (h_e y)) = true).
    { intros y HY. destruct (before_key x y (HF y HY)) as [E|E]; auto. }
    destruct (keq b (bk (h_e x))) eqn:E; cbn [negb].
    - apply keq_eq in E. subst b. rewrite IH by exact NX.
      assert (ID : forall m, (forall y, In y m -> keq (bk (h_e x)) (bk (h_e y)) = false) -> filter (fun y => negb (keq (bk (h_e x)) (bk (h_e y)))) m = m).
      { clear. induction m as [|z m IHm]; intros H; [reflexivity|]. cbn [filter]. rewrite (H z (or_introl eq_refl)). cbn [negb]. f_equal. apply IHm. intros y HY. apply H. right. exact HY. }
      apply ID. intros y HY. rewrite <- (IH _ NX) in HY. apply filter_In in HY. destruct HY as (_ & HY). apply negb_true_iff. exact HY.
    - destruct (HB x (or_introl eq_refl)) as [C|C]; [rewrite C, keq_refl in E; discriminate|].
      f_equal. rewrite <- (IH _ NX).
      assert (ID : forall m, (forall y, In y m -> In y l) -> filter (fun y => negb (keq b (bk (h_e y)))) m = m).
      { intros m. induction m as [|z m IHm]; intros H; [reflexivity|]. cbn [filter].
        assert (Z : keq b (bk (h_e z)) = false).
        { specialize (H z (or_introl eq_refl)). assert (K : kbef b (bk (h_e z)) = true) by (destruct (NX z H) as [-> | K]; [exact C|eapply kbef_trans; eassumption]).
          destruct (keq b (bk (h_e z))) eqn:KE; [|reflexivity]. apply keq_eq in KE. rewrite KE, kbef_irrefl in K. discriminate. }
        rewrite Z. cbn [negb]. f_equal. apply IHm. intros y HY. apply H. right. exact HY. }
      apply ID. intros y HY. apply filter_In in HY. destruct HY as (HY & _). clear - HY. revert HY. generalize l. intros m. revert y.
      induction m as [|z m IHm]; intros y HY; [contradiction|]. cbn [firsts] in HY. destruct HY as [<-|HY]; [left; reflexivity|].
      apply filter_In in HY. right. apply IHm. tauto. }
  intros H. destruct H as [|x l HS HF]; [reflexivity|]. cbn [firsts dd]. f_equal. apply G; [exact HS|].
  rewrite Forall_forall in HF. intros y HY. destruct (before_key x y (HF y HY)) as [E|E]; auto.
Qed.

Definition pick (unique : bool) (prev : option bkey) (l : list hit) : list hit := if unique then dd prev l else l.

Definition lastkey (prev : option bkey) (l : list hit) : option bkey := fold_left (fun _ x => Some (bk (h_e x))) l prev.

(* what is missing from [filter P l] does not show in the first n results *)
Lemma pick_filter unique P l : forall prev n,
  (forall a x b, l = a ++ x :: b -> P x = false -> (unique = true /\ lastkey prev a = Some (bk (h_e x))) \/ n <= length (pick unique prev (filter P a))) ->
  firstn n (pick unique prev l) = firstn n (pick unique prev (filter P l)).
Proof.
  induction l as [|x l IH]; intros prev n H; [destruct unique; reflexivity|].
  destruct (P x) eqn:PX; cbn [filter]; rewrite PX.
  - destruct unique; cbn [pick dd] in *.
    + destruct (match prev with Some b => keq b (bk (h_e x)) | None => false end) eqn:PV.
      * apply IH. intros a y b E PY. destruct (H (x :: a) y b) as [(_ & C)|C]; [rewrite E; reflexivity|exact PY| |].
        -- left. split; [reflexivity|]. cbn [lastkey fold_left] in C. unfold lastkey. destruct prev as [p|]; [|discriminate]. apply keq_eq in PV. rewrite PV. exact C.
        -- right. cbn [filter] in C. rewrite PX in C. cbn [dd] in C. rewrite PV in C. exact C.
      * destruct n as [|n]; [reflexivity|]. cbn [firstn]. f_equal. apply IH. intros a y b E PY. destruct (H (x :: a) y b) as [(_ & C)|C]; [rewrite E; reflexivity|exact PY| |].
        -- left. split; [reflexivity|exact C].
        -- right. cbn [filter] in C. rewrite PX in C. cbn [dd length] in C. rewrite PV in C. cbn [length] in C. lia.
    + destruct n as [|n]; [reflexivity|]. cbn [firstn]. f_equal. apply (IH prev). intros a y b E PY. destruct (H (x :: a) y b) as [(C & _)|C]; [rewrite E; reflexivity|exact PY|discriminate|].
      right. cbn [filter] in C. rewrite PX in C. cbn [length] in C. lia.
  - destruct (H [] x l eq_refl PX) as [(U & C)|C].
    + cbn in C. subst prev. rewrite U in *. cbn [pick dd] in *. rewrite keq_refl. apply IH. intros a y b E PY.
      destruct (H (x :: a) y b) as [(_ & D)|D]; [rewrite E; reflexivity|exact PY| |].
      * left. split; [reflexivity|exact D].
      * right. cbn [filter] in D. rewrite PX in D. exact D.
    + cbn [filter] in C. assert (n = 0) by (destruct unique; cbn in C; lia). subst n. reflexivity.
Qed.

Lemma dd_has prev l x : In x l -> prev <> Some (bk (h_e x)) -> exists y, In y (dd prev l) /\ bk (h_e y) = bk (h_e x).
Proof.
  revert prev. induction l as [|z l IH]; intros prev HX HP; [contradiction|]. cbn [dd].
  destruct (match prev with Some b => keq b (bk (h_e z)) | None => false end) eqn:E.
  - destruct HX as [->|HX]; [|apply IH; assumption]. destruct prev as [p|]; [|discriminate]. apply keq_eq in E. congruence.
  - destruct (keq (bk (h_e z)) (bk (h_e x))) eqn:K; [apply keq_eq in K; exists z; split; [left; reflexivity|exact K]|].
    destruct HX as [->|HX]; [rewrite keq_refl in K; discriminate|]. destruct (IH (Some (bk (h_e z))) HX) as (y & Y1 & Y2).
    { intros C. injection C as C. rewrite C, keq_refl in K. discriminate. }
    exists y. split; [right; exact Y1|exact Y2].
Qed.

Lemma dd_keys_nodup l : ssorted l -> NoDup (map (fun x => bk (h_e x)) (dd None l)).
Proof.
  assert (G : forall l prev, ssorted l -> (forall b, prev = Some b -> forall x, In x l -> bk (h_e x) = b \/ kbef b (bk (h_e x)) = true) ->
     NoDup (map (fun x => bk (h_e x)) (dd prev l)) /\ (forall b, prev = Some b -> forall x, In x (dd prev l) -> kbef b (bk (h_e x)) = true)).
  { clear l. intros l prev H. revert prev. induction H as [|x l HS IH HF]; intros prev HP; cbn [dd]; [split; [constructor|intros ? ? ? []]|].
    rewrite Forall_forall in HF.
    destruct (match prev with Some b => keq b (bk (h_e x)) | None => false end) eqn:E.
    - apply IH. intros b HB y HY. apply (HP b HB). right. exact HY.
    - destruct (IH (Some (bk (h_e x)))) as (I1 & I2).
      { intros b HB y HY. injection HB as <-. destruct (before_key x y (HF y HY)) as [C|C]; auto. }
      specialize (I2 _ eq_refl). split.
      + cbn [map]. constructor; [|exact I1]. intros HI. apply in_map_iff in HI. destruct HI as (y & Y1 & Y2). specialize (I2 y Y2). rewrite Y1, kbef_irrefl in I2. discriminate.
      + intros b HB y HY. assert (BX : kbef b (bk (h_e x)) = true).
        { destruct (HP b HB x (or_introl eq_refl)) as [C|C]; [|exact C]. rewrite HB, C, keq_refl in E. discriminate. }
        destruct HY as [<-|HY]; [exact BX|]. eapply kbef_trans; [exact BX|]. apply I2. exact HY. }
  intros H. apply (G l None H). intros b HB. discriminate.
Qed.
End Order.
