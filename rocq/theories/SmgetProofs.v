(* smget answers as specified *)
From Coq Require Import Sorting.Sorted Sorting.Permutation.
From Verif Require Import Base UtilModel BtModel BtSpec BtOrder BtLevel BtFind BtSplit BtMerge BtMerge2 BtWalk BtGet BtGet2
  BtOps BtKeys BtIns BtRefine BtRun SmgetModel SmgetSpec SmgetScan SmgetList SmgetMerge SmgetKeys SmgetSort.
Local Open Scope nat_scope.

Section Adjust.
Variable dsc : bool.
Notation kb := (kbef dsc).
Definition lek (a b : bkey) : Prop := kb b a = false.

Lemma lek_kle a b : (if dsc then kle b a else kle a b) = true <-> lek a b.
Proof. unfold lek, kbef, kle. destruct dsc; [destruct (klt a b)|destruct (klt b a)]; cbn; split; congruence. Qed.
Lemma lek_trans a b c : lek a b -> lek b c -> lek a c.
Proof.
  unfold lek. intros H1 H2. destruct (kb c a) eqn:K; [|reflexivity]. destruct (kb a b) eqn:K2; [rewrite (kbef_trans _ _ _ _ K K2) in H2; discriminate|].
  rewrite (kbef_total _ _ _ K2 H1) in *. congruence.
Qed.

Lemma ordered_mid B x C : ordered_keys dsc (B ++ x :: C) <-> ordered_keys dsc (B ++ C) /\ (forall b, In b B -> lek (fst b) (fst x)) /\ (forall b, In b C -> lek (fst x) (fst b)).
Proof.
  induction B as [|y B IH]; cbn [app ordered_keys].
  - split.
    + intros (H1 & H2). split; [exact H2|]. split; [intros ? []|]. intros b Hb. apply lek_kle. apply H1. exact Hb.
    + intros (H1 & _ & H3). split; [|exact H1]. intros y Hy. apply lek_kle. auto.
  - rewrite IH. split.
    + intros (H1 & H2 & H3 & H4). split; [split; [|exact H2]|].
      * intros z Hz. apply H1. apply in_mid. auto.
      * split; [|exact H4]. intros b [<-|Hb]; [|auto]. apply lek_kle. apply H1. apply in_mid. auto.
    + intros ((H1 & H2) & H3 & H4). split; [|split; [exact H2|split; [intros b Hb; apply H3; right; exact Hb|exact H4]]].
      intros z Hz. apply in_mid in Hz. destruct Hz as [->|Hz]; [apply lek_kle; apply H3; left; reflexivity|auto].
Qed.

Lemma ordered_nth l : ordered_keys dsc l -> forall i j x y, i < j -> nth_error l i = Some x -> nth_error l j = Some y -> lek (fst x) (fst y).
Proof.
  induction l as [|z l IH]; intros HO i j x y IJ HX HY; [destruct i; discriminate|]. destruct HO as (H1 & H2). destruct j as [|j]; [lia|]. cbn in HY. destruct i as [|i]; cbn in HX.
  - injection HX as <-. apply lek_kle. apply H1. eapply nth_error_In. exact HY.
  - eapply (IH H2 i j); eauto. lia.
Qed.

Lemma oriented_kb a b : match oriented (negb dsc) (bcomp a b) with Lt => kb a b = true | Gt => kb b a = true | Eq => a = b end.
Proof.
  unfold oriented, kbef. destruct (bcomp a b) eqn:B; destruct dsc; cbn [negb CompOpp];
    first [apply bcomp_eq in B; exact B|apply bcomp_lt in B; exact B|apply bcomp_gt in B; exact B].
Qed.

Definition okey (o : option elem) : option bkey := match o with Some t => Some (bk t) | None => None end.
Definition early (tail : option bkey) (b : bkey) : bool := match tail with None => true | Some t => kb b t end.

Lemma adjust_spec tail : forall tr acc, ordered_keys dsc (pairs acc) ->
  exists res, adjust (negb dsc) tail tr acc = Some res /\ ordered_keys dsc (pairs res) /\
    Permutation (pairs res) (pairs acc ++ filter (fun p => early (okey tail) (fst p)) (pairs tr)).
Proof.
  induction tr as [|(e, ix) tr IH]; intros acc HA; cbn [adjust].
  - exists acc. split; [reflexivity|]. split; [exact HA|]. cbn. rewrite app_nil_r. reflexivity.
  - assert (VE : match tail with None => true | Some t => match oriented (negb dsc) (bcomp (bk e) (bk t)) with Lt => true | _ => false end end = early (okey tail) (bk e)).
    { unfold early, okey. destruct tail as [t|]; [|reflexivity]. pose proof (oriented_kb (bk e) (bk t)) as O. destruct (oriented (negb dsc) (bcomp (bk e) (bk t))).
      - rewrite O. symmetry. apply kbef_irrefl.
      - congruence.
      - destruct (kb (bk e) (bk t)) eqn:K; [|reflexivity]. pose proof (kbef_trans _ _ _ _ O K) as X. rewrite kbef_irrefl in X. discriminate. }
    rewrite VE. cbn [pairs map filter fst snd]. destruct (early (okey tail) (bk e)) eqn:EV; [|apply IH; exact HA].
    (* insertion *)
    assert (INS : forall i, i <= length acc -> (forall b, In b (firstn i acc) -> lek (bk (fst b)) (bk e)) -> (forall b, In b (skipn i acc) -> lek (bk e) (bk (fst b))) ->
      exists res, adjust (negb dsc) tail tr (firstn i acc ++ (e, ix) :: skipn i acc) = Some res /\ ordered_keys dsc (pairs res) /\
        Permutation (pairs res) (pairs acc ++ (bk e, ix) :: filter (fun p => early (okey tail) (fst p)) (pairs tr))).
    { intros i HI H1 H2. destruct (IH (firstn i acc ++ (e, ix) :: skipn i acc)) as (res & R1 & R2 & R3).
      - rewrite pairs_app. cbn [pairs map fst snd]. fold (pairs (skipn i acc)). apply ordered_mid. rewrite <- pairs_app, firstn_skipn. split; [exact HA|].
        split; intros b Hb; unfold pairs in Hb; apply in_map_iff in Hb; destruct Hb as (b0 & <- & Hb); cbn [fst]; auto.
      - exists res. split; [exact R1|]. split; [exact R2|]. rewrite R3, pairs_app. cbn [pairs map fst snd]. fold (pairs (skipn i acc)).
        rewrite <- (firstn_skipn i acc) at 3. rewrite pairs_app, <- !app_assoc. apply Permutation_app_head. cbn [app].
        apply Permutation_middle. }
    assert (CM : forall i x, nth_error acc i = Some x -> cmp3 (negb dsc) e acc i = Some (oriented (negb dsc) (bcomp (bk e) (bk (fst x))))).
    { intros i (x & xi) HN. unfold cmp3. rewrite HN. reflexivity. }
    assert (EX : forall i, i < length acc -> exists x, nth_error acc i = Some x).
    { intros i Hi. destruct (nth_error acc i) as [a|] eqn:E; [eauto|]. apply nth_error_None in E. lia. }
    assert (NT : forall i j x y, i <= j -> nth_error acc i = Some x -> nth_error acc j = Some y -> lek (bk (fst x)) (bk (fst y))).
    { intros i j x y IJ HX HY. destruct (Nat.eq_dec i j) as [->|D]; [assert (x = y) by congruence; subst; apply kbef_irrefl|].
      apply (ordered_nth (pairs acc) HA i j (bk (fst x), snd x) (bk (fst y), snd y)); [lia| |]; unfold pairs; rewrite nth_error_map; [rewrite HX|rewrite HY]; reflexivity. }
    destruct (bsearch_gen (cmp3 (negb dsc) e acc) (length acc) 0 (length acc)) as [(m & M1 & M2 & M3)|(p & P1 & P2 & P3 & P4)]; try lia.
    + intros i Hi. destruct (EX i ltac:(lia)) as (x & HX). rewrite (CM i x HX). eauto.
    + intros i j _ IJ HJ HG. destruct (EX i ltac:(lia)) as (x & HX). destruct (EX j ltac:(lia)) as (y & HY). rewrite (CM j y HY) in HG. rewrite (CM i x HX). f_equal.
      injection HG as HG. pose proof (oriented_kb (bk e) (bk (fst y))) as OY. rewrite HG in OY. pose proof (oriented_kb (bk e) (bk (fst x))) as OX. pose proof (NT i j x y ltac:(lia) HX HY) as LE.
      destruct (oriented (negb dsc) (bcomp (bk e) (bk (fst x)))); [| |reflexivity]; exfalso; unfold lek in LE; [rewrite <- OX in LE; congruence|].
      rewrite (kbef_trans _ _ _ _ OY OX) in LE. discriminate.
    + intros i j _ IJ HJ HG. destruct (EX i ltac:(lia)) as (x & HX). destruct (EX j ltac:(lia)) as (y & HY). rewrite (CM i x HX) in HG. rewrite (CM j y HY). f_equal.
      injection HG as HG. pose proof (oriented_kb (bk e) (bk (fst x))) as OX. rewrite HG in OX. pose proof (oriented_kb (bk e) (bk (fst y))) as OY. pose proof (NT i j x y ltac:(lia) HX HY) as LE.
      destruct (oriented (negb dsc) (bcomp (bk e) (bk (fst y)))); [|reflexivity|]; exfalso; unfold lek in LE; [rewrite <- OY in LE; congruence|].
      rewrite (kbef_trans _ _ _ _ OY OX) in LE. discriminate.
    + rewrite M1. destruct (EX m ltac:(lia)) as (x & HX). rewrite (CM m x HX) in M3. injection M3 as M3. pose proof (oriented_kb (bk e) (bk (fst x))) as OX. rewrite M3 in OX.
      apply (INS (S m)); [lia| |].
      * intros b Hb. apply In_firstn_nth in Hb. destruct Hb as (j & J1 & J2). rewrite OX. apply (NT j m b x); [lia|exact J2|exact HX].
      * intros b Hb. apply In_skipn_nth in Hb. destruct Hb as (j & J1 & J2). rewrite OX. apply (NT m j x b); [lia|exact HX|exact J2].
    + rewrite P1. apply INS; [lia| |].
      * intros b Hb. apply In_firstn_nth in Hb. destruct Hb as (j & J1 & J2). specialize (P3 j ltac:(lia)). rewrite (CM j b J2) in P3. injection P3 as P3.
        pose proof (oriented_kb (bk e) (bk (fst b))) as OX. rewrite P3 in OX. unfold lek. destruct (kb (bk e) (bk (fst b))) eqn:K; [|reflexivity].
        pose proof (kbef_trans _ _ _ _ OX K) as X. rewrite kbef_irrefl in X. discriminate.
      * intros b Hb. apply In_skipn_nth in Hb. destruct Hb as (j & J1 & J2). assert (JL : j < length acc) by (apply nth_error_Some; congruence).
        specialize (P4 j ltac:(lia)). rewrite (CM j b J2) in P4. injection P4 as P4.
        pose proof (oriented_kb (bk e) (bk (fst b))) as OX. rewrite P4 in OX. unfold lek. destruct (kb (bk (fst b)) (bk e)) eqn:K; [|reflexivity].
        pose proof (kbef_trans _ _ _ _ OX K) as X. rewrite kbef_irrefl in X. discriminate.
Qed.
End Adjust.

Lemma apart_app a b : apart (a ++ b) <-> apart a /\ apart b /\ forall x y, In x a -> In y b -> ~ same x y.
Proof.
  induction a as [|x a IH]; cbn [app apart].
  - split; [intros H; split; [exact I|]; split; [exact H|intros ? ? []]|tauto].
  - rewrite IH. split.
    + intros (H1 & H2 & H3 & H4). split; [split; [intros y Hy; apply H1; apply in_app_iff; auto|exact H2]|]. split; [exact H3|].
      intros z y [<-|Hz] Hy; [apply H1; apply in_app_iff; auto|auto].
    + intros ((H1 & H2) & H3 & H4). split; [intros y Hy; apply in_app_iff in Hy; destruct Hy as [Hy|Hy]; [auto|apply H4; [left; reflexivity|exact Hy]]|].
      split; [exact H2|]. split; [exact H3|]. intros z y Hz Hy. apply H4; [right; exact Hz|exact Hy].
Qed.
Lemma apart_nodup l : apart l -> NoDup l.
Proof. induction l as [|x l IH]; intros H; constructor; destruct H as (H1 & H2); [|auto]. intros HI. apply (H1 x HI). split; reflexivity. Qed.

Definition hit_dec (a b : hit) : {a = b} + {a <> b}.
Proof. repeat decide equality. Defined.

Section Main.
Variables (g : range) (fl : option efilter) (unique : bool) (ofs cnt : nat) (st : bytes -> entry).
Hypothesis OKF : ofilter_ok fl.
Hypothesis CNT : 0 < cnt.
Notation dsc := (desc g).
Notation rt := (range_type g).
Notation bef := (before dsc).
Notation kb := (kbef dsc).
Notation ent := (scan * (elem * list elem))%type.
Notation sv := (sv st).
Let req := ofs + cnt.

Lemma mono_apart f l k ix flg : mono f l -> apart (map (fun e => mkHit e ix flg k) l).
Proof.
  induction l as [|x l IH]; intros H; [exact I|]. destruct H as (H1 & H2). cbn [map apart]. split; [|auto].
  intros y HY (E & _). apply in_map_iff in HY. destruct HY as (z & <- & HZ). cbn [h_e] in E. specialize (H1 z HZ). rewrite E in H1. unfold lt_dir in H1. destruct f; rewrite klt_irrefl in H1; discriminate.
Qed.

Lemma pend_apart c e R : cur g c e R -> apart (pend fl c (e :: R)).
Proof.
  intros HC. destruct (cur_suffix g c e R HC) as (D & HW). pose proof (walk_mono g _ (proj1 HC)) as M. unfold walk in HW. rewrite HW in M. destruct (mono_app _ _ _ M) as (M1 & _).
  apply (mono_apart (negb dsc)). apply mono_filter. exact M1.
Qed.

Lemma kept_apart A : Forall (okent g fl) A -> NoDup (map (fun a : ent => c_key (fst a)) A) -> apart (kept fl A).
Proof.
  induction A as [|a A IH]; intros HA ND; [exact I|]. apply Forall_cons_iff in HA. destruct HA as ((HC & _) & HA). inversion ND as [|? ? N1 N2]; subst.
  unfold kept. cbn [flat_map]. apply apart_app. split; [apply pend_apart; exact HC|]. split; [apply IH; assumption|].
  intros x y HX HY (_ & E). apply pend_in in HX. destruct HX as (e & _ & _ & ->). apply in_flat_map in HY. destruct HY as (b & HB & HY). apply pend_in in HY. destruct HY as (e2 & _ & _ & ->).
  cbn [hitof h_key] in E. apply N1. rewrite E. apply (in_map (fun a : ent => c_key (fst a))). exact HB.
Qed.

Lemma all_key ix ks x : In x (all_hits sv g fl ix ks) -> In (h_key x) ks.
Proof.
  revert ix. induction ks as [|k ks IH]; intros ix HX; [contradiction|]. cbn [all_hits] in HX. apply in_app_iff in HX. destruct HX as [HX|HX]; [|right; eapply IH; exact HX].
  left. unfold key_hits in HX. destruct (sv k); try contradiction. destruct (out_of_range s g); [contradiction|]. apply in_map_iff in HX. destruct HX as (e & <- & _). reflexivity.
Qed.

Lemma all_apart ks : forall ix, Forall (key_ok st) ks -> NoDup ks -> apart (all_hits sv g fl ix ks).
Proof.
  induction ks as [|k ks IH]; intros ix HK ND; [exact I|]. apply Forall_cons_iff in HK. destruct HK as ((_ & HK) & HKS). inversion ND as [|? ? N1 N2]; subst.
  cbn [all_hits]. apply apart_app. split; [|split; [apply IH; assumption|]].
  - unfold key_hits, SmgetKeys.sv, content_of. destruct (st k) as [| |rd f t]; try exact I. destruct rd; [|exact I]. destruct (out_of_range (view t) g); [exact I|].
    change (s_el (view t)) with (contents t). rewrite hits_walk. apply (mono_apart (negb dsc)). apply mono_filter.
    pose proof (i_sorted _ _ (reach_inv t HK)) as HS. unfold walk_of. destruct dsc; cbn [negb].
    + apply mono_rev. apply mono_sorted. apply mono_filter. apply mono_sorted. exact HS.
    + apply mono_filter. apply mono_sorted. exact HS.
  - intros x y HX HY (_ & E). apply all_key in HY. unfold key_hits in HX. destruct (sv k); try contradiction. destruct (out_of_range s g); [contradiction|].
    apply in_map_iff in HX. destruct HX as (e & <- & _). cbn [h_key] in E. congruence.
Qed.

Lemma pick_sorted Ls : ssorted dsc Ls -> ssorted dsc (pick unique None Ls).
Proof. intros H. unfold pick. destruct unique; [apply dd_sorted; exact H|exact H]. Qed.

(* the heads show up in the answer *)
Lemma pick_count Q Ls hs : ssorted dsc Ls -> NoDup hs -> incl hs Ls -> (unique = true -> NoDup (map (fun x => bk (h_e x)) hs)) -> (forall h, In h hs -> Q (bk (h_e h)) = true) ->
  length hs <= length (filter (fun x => Q (bk (h_e x))) (pick unique None Ls)).
Proof.
  intros HS ND HI HU HQ. unfold pick. destruct unique.
  - rewrite <- (map_length (fun x => bk (h_e x)) hs), <- (map_length (fun x => bk (h_e x)) (filter _ _)). apply NoDup_incl_length; [auto|].
    intros b HB. apply in_map_iff in HB. destruct HB as (h & <- & HH). destruct (dd_has None Ls h (HI h HH) ltac:(discriminate)) as (y & Y1 & Y2).
    apply in_map_iff. exists y. split; [exact Y2|]. apply filter_In. split; [exact Y1|]. rewrite Y2. apply HQ. exact HH.
  - apply NoDup_incl_length; [exact ND|]. intros h HH. apply filter_In. split; [apply HI; exact HH|apply HQ; exact HH].
Qed.

Lemma heads_nodup A : okarr g fl unique A -> NoDup (map hh A) /\ (unique = true -> NoDup (map (fun x => bk (h_e x)) (map hh A))).
Proof. intros (_ & H2 & H3 & _). split; [apply (ssorted_nodup dsc); exact H2|]. intros U. rewrite map_map. auto. Qed.

Lemma ssorted_lastkey a x b h prev : ssorted dsc (a ++ x :: b) -> In h a -> bk (h_e h) = bk (h_e x) -> lastkey prev a = Some (bk (h_e x)).
Proof.
  intros HS HI HE. destruct (exists_last (l := a)) as (a' & y & EA); [destruct a; [contradiction|discriminate]|]. subst a.
  unfold lastkey. rewrite fold_left_app. cbn [fold_left]. f_equal.
  apply ssorted_app in HS. destruct HS as (H1 & _ & H3). apply ssorted_app in H1. destruct H1 as (_ & _ & H1).
  assert (Y : bef y x = true) by (apply H3; [apply in_app_iff; right; left; reflexivity|left; reflexivity]).
  apply in_app_iff in HI. destruct HI as [HI|[<-|[]]]; [|exact HE].
  assert (HY : bef h y = true) by (apply H1; [exact HI|left; reflexivity]).
  destruct (before_key _ _ _ Y) as [E|E]; [exact E|]. destruct (before_key _ _ _ HY) as [E2|E2]; [congruence|].
  pose proof (kbef_trans _ _ _ _ E2 E) as X. rewrite HE, kbef_irrefl in X. discriminate.
Qed.

Lemma before_in_split a x b h : ssorted dsc (a ++ x :: b) -> In h (a ++ x :: b) -> bef h x = true -> In h a.
Proof.
  intros HS HI HB. apply in_app_iff in HI. destruct HI as [HI|[<-|HI]]; [exact HI|rewrite before_irrefl in HB; discriminate|].
  apply ssorted_app in HS. destruct HS as (_ & HS & _). inversion HS as [|? ? _ HF]; subst. rewrite Forall_forall in HF. specialize (HF h HI). apply before_asym in HF. congruence.
Qed.

(* what the array kept is enough for the answer *)
Lemma kept_enough X S A F : apart X -> inv1 g fl req unique X S A F ->
  exists Ls, ssorted dsc Ls /\ Permutation Ls (kept fl A) /\ firstn req (pick unique None (sort dsc X)) = firstn req (pick unique None Ls).
Proof.
  intros AX (H1 & H2 & H3 & H4 & _). set (P := fun x => if in_dec hit_dec x (kept fl A) then true else false).
  pose proof (sort_sorted dsc X AX) as SX. pose proof (sort_perm dsc X) as PX.
  assert (PT : forall x, P x = true <-> In x (kept fl A)) by (intros x; unfold P; destruct (in_dec hit_dec x (kept fl A)); split; congruence || auto).
  pose proof H1 as (O1 & _ & _ & O4 & _).
  exists (filter P (sort dsc X)). split; [apply ssorted_filter; exact SX|]. split.
  { apply NoDup_Permutation.
    - apply (ssorted_nodup dsc). apply ssorted_filter. exact SX.
    - apply apart_nodup. apply kept_apart; assumption.
    - intros x. rewrite filter_In, PT. split; [tauto|]. intros HX. split; [|exact HX]. eapply Permutation_in; [symmetry; exact PX|]. apply H3. exact HX. }
  destruct (heads_nodup A H1) as (HN1 & HN2).
  apply pick_filter. intros a x b E PF. assert (IX : In x X) by (eapply Permutation_in; [exact PX|rewrite E; apply in_mid; left; reflexivity]).
  assert (HHS : forall h, In h A -> In (hh h) (sort dsc X)).
  { intros h HH. eapply Permutation_in; [symmetry; exact PX|]. apply H3. apply (hh_kept g fl A h O1 HH). }
  rewrite E in SX, HHS. destruct (H4 x IX) as [Q|[(U & h & HA & HE & HB)|(HL & HB)]].
  - apply PT in Q. congruence.
  - left. split; [exact U|]. eapply ssorted_lastkey; [exact SX| |exact HE]. eapply before_in_split; [exact SX|apply HHS; exact HA|exact HB].
  - right. pose proof (pick_count (fun _ => true) (filter P a) (map hh A)) as PC.
    rewrite map_length, HL in PC. etransitivity; [apply PC|].
    + apply ssorted_filter. apply ssorted_app in SX. apply SX.
    + exact HN1.
    + intros h HH. apply in_map_iff in HH. destruct HH as (c & <- & HC). apply filter_In. split.
      * eapply before_in_split; [exact SX|apply HHS; exact HC|apply HB; exact HC].
      * apply PT. apply (hh_kept g fl A c O1 HC).
    + exact HN2.
    + reflexivity.
    + apply filter_short.
Qed.

(* keys dropped from the array end behind the answer *)
Lemma low_tail A Ls b : okarr g fl unique A -> ssorted dsc Ls -> Permutation Ls (kept fl A) -> low g req A b ->
  let out := firstn cnt (skipn ofs (pick unique None Ls)) in
  length out = cnt /\ match rev out with t :: _ => kb b (bk (h_e t)) = false | [] => False end.
Proof.
  intros HO HS HP (HL & HB). destruct (heads_nodup A HO) as (HN1 & HN2). set (pk := pick unique None Ls). cbv zeta.
  pose proof HO as (O1 & _).
  assert (INC : incl (map hh A) Ls).
  { intros h HH. apply in_map_iff in HH. destruct HH as (c & <- & HC). eapply Permutation_in; [symmetry; exact HP|]. apply (hh_kept g fl A c O1 HC). }
  assert (LP : req <= length pk).
  { pose proof (pick_count (fun _ => true) Ls (map hh A) HS HN1 INC HN2 ltac:(reflexivity)) as PC. rewrite map_length, HL in PC. etransitivity; [exact PC|]. apply filter_short. }
  assert (LO : length (firstn cnt (skipn ofs pk)) = cnt) by (rewrite firstn_length, skipn_length; unfold req in LP; lia).
  split; [exact LO|]. destruct (rev (firstn cnt (skipn ofs pk))) as [|t l] eqn:RE.
  { apply (f_equal (@length _)) in RE. rewrite rev_length, LO in RE. cbn in RE. lia. }
  (* t is the element number req - 1 *)
  assert (NT : nth_error pk (req - 1) = Some t).
  { assert (EE : firstn cnt (skipn ofs pk) = rev l ++ [t]) by (rewrite <- (rev_involutive (firstn cnt (skipn ofs pk))), RE; reflexivity).
    assert (LL : length (rev l) = cnt - 1) by (apply (f_equal (@length _)) in EE; rewrite app_length in EE; cbn [length] in EE; lia).
    assert (NE : nth_error (firstn cnt (skipn ofs pk)) (cnt - 1) = Some t) by (rewrite EE, nth_error_app2 by lia; rewrite LL, Nat.sub_diag; reflexivity).
    rewrite <- (firstn_skipn ofs pk), nth_error_app2; rewrite firstn_length; [|unfold req; lia]. replace (req - 1 - Nat.min ofs (length pk)) with (cnt - 1) by (unfold req in *; lia).
    rewrite <- (firstn_skipn cnt (skipn ofs pk)), nth_error_app1 by lia. exact NE. }
  destruct (nth_error_split _ _ NT) as (p1 & p2 & EP & L1). pose proof (pick_sorted Ls HS) as SP. fold pk in SP.
  destruct (kb b (bk (h_e t))) eqn:K; [|reflexivity]. exfalso.
  pose proof (pick_count (fun k => kb k (bk (h_e t))) Ls (map hh A) HS HN1 INC HN2) as PC. fold pk in PC. rewrite map_length, HL in PC.
  assert (C : req <= length (filter (fun x => kb (bk (h_e x)) (bk (h_e t))) pk)).
  { apply PC. intros h HH. apply in_map_iff in HH. destruct HH as (c & <- & HC). specialize (HB c HC).
    destruct (kb (bk (h_e (hh c))) b) eqn:K2; [eapply kbef_trans; eassumption|]. rewrite (kbef_total _ _ _ K2 HB). exact K. }
  rewrite EP, filter_app in C. rewrite EP in SP. apply ssorted_app in SP. destruct SP as (_ & SP & _).
  assert (Z : filter (fun x => kb (bk (h_e x)) (bk (h_e t))) (t :: p2) = []).
  { assert (G : forall l, (forall y, In y l -> kb (bk (h_e y)) (bk (h_e t)) = false) -> filter (fun x => kb (bk (h_e x)) (bk (h_e t))) l = []).
    { clear. induction l as [|z l IH]; intros H; [reflexivity|]. cbn [filter]. rewrite (H z (or_introl eq_refl)). apply IH. intros y Hy. apply H. right. exact Hy. }
    apply G. intros y [<-|HY]; [apply kbef_irrefl|]. inversion SP as [|? ? _ SF]; subst. rewrite Forall_forall in SF. specialize (SF y HY).
    destruct (before_key _ _ _ SF) as [E|E]; [rewrite E; apply kbef_irrefl|]. destruct (kb (bk (h_e y)) (bk (h_e t))) eqn:K3; [|reflexivity].
    pose proof (kbef_trans _ _ _ _ E K3) as X. rewrite kbef_irrefl in X. discriminate. }
  rewrite Z, app_nil_r in C. pose proof (filter_short (fun x => kb (bk (h_e x)) (bk (h_e t))) p1) as FS. unfold req in *. lia.
Qed.

Definition sel (tail : option bkey) (s : scan) : bool := cutb g s && early dsc tail (endkey g s).
Definition pr (s : scan) : bkey * nat := (endkey g s, c_ix s).

Lemma trims_srcs tail : forall ks ix, trims sv g tail ix ks = map pr (filter (sel tail) (srcs g st ix ks)).
Proof.
  induction ks as [|k ks IH]; intros ix; [reflexivity|]. cbn [trims srcs]. rewrite filter_app, map_app, IH. f_equal.
  unfold key_trim, SmgetKeys.sv, content_of, src. destruct (st k) as [| |rd f t]; try reflexivity. destruct rd; [|reflexivity]. destruct (out_of_range (view t) g); [reflexivity|].
  change (s_el (view t)) with (contents t). destruct (rev (walk_of g (contents t))) as [|x l] eqn:RW.
  - destruct (walk_of g (contents t)) as [|y w]; [reflexivity|]. cbn in RW. destruct (rev w); discriminate.
  - destruct (walk_of g (contents t)) as [|y w] eqn:EW; [discriminate|]. cbn [filter]. unfold sel, cutb. cbn [c_t].
    assert (EK : endkey g (mkSc k f t (mkPosi None 0 false) ix) = bk x) by (unfold endkey, walk; cbn [c_t]; rewrite EW, RW; reflexivity).
    rewrite EK. destruct (cut (view t) g); cbn [andb]; [|reflexivity].
    assert (EE : match tail with None => true | Some t0 => if dsc then klt t0 (bk x) else klt (bk x) t0 end = early dsc tail (bk x)) by (unfold early, kbef; destruct tail; destruct dsc; reflexivity).
    rewrite EE. destruct (early dsc tail (bk x)); [|reflexivity]. cbn [map]. unfold pr. rewrite EK. reflexivity.
Qed.

Lemma srcs_keys : forall ks ix, NoDup ks -> NoDup (map c_key (srcs g st ix ks)) /\ forall s, In s (srcs g st ix ks) -> In (c_key s) ks /\ idn s = s.
Proof.
  induction ks as [|k ks IH]; intros ix ND; [split; [constructor|intros ? []]|]. inversion ND as [|? ? N1 N2]; subst. destruct (IH (S ix) N2) as (I1 & I2). cbn [srcs]. split.
  - rewrite map_app. apply nodup_app. split; [|split; [exact I1|]].
    + unfold src. destruct (st k) as [| |rd f t]; try constructor. destruct rd; [|constructor]. destruct (out_of_range (view t) g); [constructor|]. destruct (walk_of g (contents t)); repeat constructor. intros [].
    + intros k' HK HK2. apply in_map_iff in HK. destruct HK as (s & <- & HS). apply src_key in HS. destruct HS as (EK & _). apply in_map_iff in HK2. destruct HK2 as (s2 & E & HS2). apply I2 in HS2. destruct HS2 as (HS2 & _). congruence.
  - intros s HS. apply in_app_iff in HS. destruct HS as [HS|HS]; [apply src_key in HS; destruct HS as (EK & _ & HS); split; [left; congruence|exact HS]|].
    destruct (I2 s HS) as (Q1 & Q2). split; [right; exact Q1|exact Q2].
Qed.

Lemma filter_tr tail F : filter (fun p => early dsc tail (fst p)) (tr_of g F) = map pr (filter (sel tail) F).
Proof.
  unfold tr_of. induction F as [|s F IH]; [reflexivity|]. cbn [filter]. unfold sel. destruct (cutb g s); cbn [map filter andb fst]; [|exact IH].
  destruct (early dsc tail (endkey g s)); cbn [map]; [rewrite IH; reflexivity|exact IH].
Qed.
Lemma sel_idn tail F : map pr (filter (sel tail) (map idn F)) = map pr (filter (sel tail) F).
Proof. induction F as [|s F IH]; [reflexivity|]. cbn [map filter]. change (sel tail (idn s)) with (sel tail s). destruct (sel tail s); cbn [map]; [rewrite IH; reflexivity|exact IH]. Qed.

Lemma filter_perm {X} (f : X -> bool) l m : Permutation l m -> Permutation (filter f l) (filter f m).
Proof. induction 1; cbn [filter]; [constructor|destruct (f x); [constructor|]; assumption|destruct (f x), (f y); repeat constructor; reflexivity|etransitivity; eassumption]. Qed.

Lemma skip_first (l : list hit) : firstn cnt (skipn ofs l) = skipn ofs (firstn req l).
Proof. unfold req. apply firstn_skipn_comm. Qed.

Theorem smget_spec ks : Forall (key_ok st) ks -> NoDup ks ->
  let w := wanted sv ks g fl ofs cnt unique in
  match first_error sv g ks with
  | Some e => smget st ks g fl ofs cnt unique = Some (Failed e)
  | None => exists r, smget st ks g fl ofs cnt unique = Some (Found r) /\
      r_el r = map trip w /\ r_miss r = misses sv g 0 ks /\ r_dup r = doubled w /\
      ordered_keys dsc (pairs (r_trim r)) /\ Permutation (pairs (r_trim r)) (trims sv g (tail_of cnt w) 0 ks)
  end.
Proof.
  intros HK ND w. unfold smget. fold req.
  assert (FU : list_sum (map (wl g) []) + list_sum (map (fun k => size_of (st k)) ks) < fuel_of st ks) by (unfold fuel_of; cbn; lia).
  assert (RP : 0 < req) by (unfold req; lia).
  pose proof (keys1_spec g fl req unique st OKF RP (fuel_of st ks) ks 0 [] [] [] [] no_res HK ND (keys1_start g fl req unique RP) ltac:(intros ? _ []) FU) as KS.
  cbn [map fst] in KS. destruct (first_error sv g ks) as [er|]; [rewrite KS; reflexivity|].
  destruct KS as (A & F1 & tr1 & E1 & T1 & I1). cbn [app] in I1. rewrite E1. cbn [no_res r_el r_miss r_trim r_dup app].
  set (X := all_hits sv g fl 0 ks) in *. assert (AX : apart X) by (apply all_apart; assumption).
  destruct (kept_enough X _ A F1 AX I1) as (Ls & SL & PL & EN).
  assert (ARR : okarr g fl false A) by (destruct I1 as ((Q1 & Q2 & Q3 & Q4 & Q5) & _); split; [exact Q1|]; split; [exact Q2|]; split; [discriminate|]; split; assumption).
  assert (SZ : list_sum (map (wl g) (srcs g st 0 ks)) < fuel_of st ks).
  { unfold fuel_of. apply le_n_S. clear - HK. generalize 0. induction ks as [|k ks IH]; intros ix; [cbn; lia|]. apply Forall_cons_iff in HK. destruct HK as (H1 & H2).
    cbn [srcs map]. rewrite map_app, list_sum_app. change (list_sum (?x :: ?y)) with (x + list_sum y). specialize (IH H2 (S ix)). pose proof (src_size g 1 st (le_n 1) ix k H1). lia. }
  pose proof (inv1_rem g fl req unique RP _ _ _ _ I1) as RM.
  assert (AF : forall a, In a A -> length (snd (snd a)) < fuel_of st ks).
  { intros a HA. apply in_split in HA. destruct HA as (B & C & ->). rewrite (rem_mid 1 (le_n 1)) in RM. lia. }
  pose proof (merge_spec g fl unique ofs cnt OKF CNT (fuel_of st ks) A None 0 (mkRes [] (misses sv g 0 ks) tr1 false) Ls (fuel_of st ks) ARR AF ltac:(lia) SL PL) as MS.
  cbn [r_el r_miss r_trim r_dup length app orb] in MS. rewrite !Nat.sub_0_r in MS. specialize (MS CNT ltac:(reflexivity) ltac:(congruence)). cbv zeta in MS.
  assert (WO : firstn cnt (skipn ofs (pick unique None Ls)) = w).
  { unfold w, wanted. fold X. rewrite !skip_first, <- EN. unfold pick. destruct unique; [|reflexivity]. rewrite (dd_firsts dsc) by (apply sort_sorted; exact AX). reflexivity. }
  rewrite WO in MS. destruct MS as (A' & F2 & tr2 & M1 & M2 & M3 & M4 & M5). rewrite M1. cbn [r_el r_miss r_trim r_dup]. rewrite map_length in *.
  set (tl := if length w =? cnt then match rev (map trip w) with (e, _, _) :: _ => Some e | [] => None end else None).
  assert (TE : okey tl = tail_of cnt w).
  { unfold tl, tail_of, okey. destruct (length w =? cnt); [|reflexivity]. rewrite <- map_rev. destruct (rev w) as [|x l]; reflexivity. }
  rewrite asc_of. destruct (adjust_spec dsc tl (rev (tr1 ++ tr2)) []) as (res & R1 & R2 & R3); [exact I|]. rewrite R1.
  eexists. split; [reflexivity|]. cbn [r_el r_miss r_trim r_dup]. split; [reflexivity|]. split; [reflexivity|]. split; [apply dbl_doubled|]. split; [exact R2|].
  rewrite R3, TE. cbn [pairs map app]. unfold pairs at 1. rewrite map_rev. fold (pairs (tr1 ++ tr2)).
  rewrite <- (filter_perm _ _ _ (Permutation_rev (pairs (tr1 ++ tr2)))). rewrite pairs_app, T1, M2, <- tr_of_app, filter_tr, trims_srcs, <- sel_idn.
  apply Permutation_map. destruct (srcs_keys ks 0 ND) as (SK1 & SK2). destruct I1 as (J1 & J2 & J3 & J4 & J5 & J6 & J7).
  apply NoDup_Permutation.
  - apply NoDup_filter. apply (NoDup_map_inv c_key). rewrite key_idn, map_app. rewrite map_app in J5, M3. apply nodup_app in J5. apply nodup_app in M3. apply nodup_app.
    split; [tauto|]. split; [tauto|]. intros k Q1 Q2. destruct J5 as (_ & _ & J5). apply (J5 k); [|exact Q1]. apply in_map_iff in Q2. destruct Q2 as (s & <- & HS).
    assert (QI : In (idn s) (ids A)) by (apply M4; right; apply in_map; exact HS). unfold ids in QI. apply in_map_iff in QI. destruct QI as (s0 & ES & HS0).
    assert (EK : c_key s0 = c_key s) by (change (c_key (idn s0) = c_key (idn s)); congruence). rewrite <- EK. apply in_map. exact HS0.
  - apply NoDup_filter. apply (NoDup_map_inv c_key). exact SK1.
  - intros s. rewrite !filter_In. assert (EQV : sel (tail_of cnt w) s = true -> (In s (map idn (F1 ++ F2)) <-> In s (srcs g st 0 ks))); [|intuition].
    intros SE. rewrite map_app, in_app_iff. split.
    + intros [HS|HS]; apply J6; rewrite map_app; apply in_app_iff; [right; exact HS|]. left. assert (Q : In s (ids A)) by (apply M4; right; exact HS). exact Q.
    + intros HS. unfold sel in SE. apply andb_true_iff in SE. destruct SE as (_ & SE). destruct (J7 s HS) as [Q|Q].
      * rewrite map_app in Q. apply in_app_iff in Q. destruct Q as [Q|Q]; [|left; exact Q]. destruct (proj1 (M4 s) Q) as [Q2|Q2]; [|right; exact Q2]. exfalso.
        destruct M5 as [(-> & _)|(LW & TO)]; [contradiction|]. unfold tail_of in SE. rewrite (proj2 (Nat.eqb_eq _ _) LW) in SE. unfold tail_ok in TO. rewrite <- map_rev in TO.
        destruct (rev w) as [|t l]; [exact TO|]. cbn [map trip early] in *. unfold ids in Q2. apply in_map_iff in Q2. destruct Q2 as (s0 & ES & HS0). apply in_map_iff in HS0. destruct HS0 as (a & EA & HA).
        specialize (TO a HA). rewrite EA in TO. assert (EQ : endkey g s0 = endkey g s) by (rewrite <- ES; reflexivity). rewrite EQ in TO. unfold trip in TO. congruence.
      * exfalso. pose proof (low_tail A Ls (endkey g s) J1 SL PL Q) as LT. cbv zeta in LT. rewrite WO in LT. destruct LT as (LW & LT).
        unfold tail_of in SE. rewrite (proj2 (Nat.eqb_eq _ _) LW) in SE. destruct (rev w) as [|t l]; [exact LT|]. cbn [early] in SE. congruence.
Qed.
End Main.
