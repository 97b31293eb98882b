(* A scan of one tree visits the elements of the range in order *)
From Verif Require Import Base UtilModel BtModel BtSpec BtOrder BtLevel BtFind BtSplit BtMerge BtMerge2 BtWalk BtGet BtGet2
  SmgetModel SmgetSpec.
Local Open Scope nat_scope.

Definition le_dir (fw : bool) (a b : bkey) : bool := if fw then kle a b else kle b a.

Lemma le_lt_dir fw a b : le_dir fw a b = negb (lt_dir fw b a).
Proof. unfold le_dir, lt_dir, kle. destruct fw; reflexivity. Qed.

Lemma in_rg_dir g x : in_rg g x = le_dir (negb (desc g)) (r_from g) (bk x) && le_dir (negb (desc g)) (bk x) (r_end g).
Proof.
  pose proof (range_type_ends g) as EN. unfold in_rg, inside, le_dir. destruct (range_type g) eqn:RT.
  - assert (DS : desc g = false). { destruct (desc g) eqn:D; [|reflexivity]. apply range_type_desc in D. congruence. }
    destruct EN as (-> & ->). rewrite DS. cbn [negb]. assert (RE : r_end g = r_from g).
    { apply range_type_single in RT. unfold single, r_end in *. destruct (r_to g) as [t|]; [|reflexivity]. apply keq_eq in RT. congruence. }
    rewrite RE. reflexivity.
  - assert (DS : desc g = false). { destruct (desc g) eqn:D; [|reflexivity]. apply range_type_desc in D. congruence. }
    destruct EN as (-> & -> & _). rewrite DS. reflexivity.
  - assert (DS : desc g = true) by (apply range_type_desc; exact RT).
    destruct EN as (-> & -> & _). rewrite DS. cbn [negb]. apply andb_comm.
Qed.

Lemma asc_of g : ascending (range_type g) = negb (desc g).
Proof.
  destruct (range_type g) eqn:RT; cbn [ascending].
  - destruct (desc g) eqn:D; [|reflexivity]. apply range_type_desc in D. congruence.
  - destruct (desc g) eqn:D; [|reflexivity]. apply range_type_desc in D. congruence.
  - apply range_type_desc in RT. rewrite RT. reflexivity.
Qed.

Lemma beyond_dir fw g x : beyond fw (Some g) x = lt_dir fw (r_end g) (bk x).
Proof. unfold beyond, lt_dir. destruct fw; reflexivity. Qed.

Section OneTree.
Variables (t : bt) (E : list elem) (g : range).
Hypothesis HB : btree (b_T t) E.
Hypothesis HS : sorted E.
Let T := b_T t.
Let fw := negb (desc g).
Let rt := range_type g.
Let s := mkSp E (b_max t) (b_ovf t) (b_trim t) (b_type t) (b_range t).

Lemma walk_at r : (forall j x, nth_error E j = Some x -> if fw then if Nat.ltb j r then klt (bk x) (r_from g) = true else kle (r_from g) (bk x) = true
                                      else if Nat.ltb r j then klt (r_from g) (bk x) = true else kle (bk x) (r_from g) = true) ->
  walk_of g E = filter (fun x => negb (beyond fw (Some g) x)) (dirlist E fw r).
Proof.
  intros H. unfold walk_of, dirlist.
  assert (RG : forall x, in_rg g x = le_dir fw (r_from g) (bk x) && negb (beyond fw (Some g) x)).
  { intros x. rewrite in_rg_dir. fold fw. f_equal. rewrite le_lt_dir, beyond_dir. reflexivity. }
  rewrite (filter_ext _ _ RG). destruct (desc g) eqn:DS; subst fw; cbn [negb] in *.
  - rewrite filter_rev'. f_equal. rewrite <- (firstn_skipn (S r) E) at 1. rewrite filter_app, (filter_none _ (skipn (S r) E)).
    + rewrite app_nil_r. apply filter_ext_in. intros x HX. apply In_firstn_nth in HX. destruct HX as (j & J1 & J2). specialize (H j x J2).
      replace (Nat.ltb r j) with false in H by (symmetry; apply Nat.ltb_ge; lia). unfold le_dir. rewrite H. reflexivity.
    + intros x HX. apply In_skipn_nth in HX. destruct HX as (j & J1 & J2). specialize (H j x J2).
      replace (Nat.ltb r j) with true in H by (symmetry; apply Nat.ltb_lt; lia). unfold le_dir, kle. rewrite H. reflexivity.
  - rewrite <- (firstn_skipn r E) at 1. rewrite filter_app, filter_none.
    + cbn [app]. apply filter_ext_in. intros x HX. apply In_skipn_nth in HX. destruct HX as (j & J1 & J2). specialize (H j x J2).
      replace (Nat.ltb j r) with false in H by (symmetry; apply Nat.ltb_ge; lia). unfold le_dir. rewrite H. reflexivity.
    + intros x HX. apply In_firstn_nth in HX. destruct HX as (j & J1 & J2). specialize (H j x J2).
      replace (Nat.ltb j r) with true in H by (symmetry; apply Nat.ltb_lt; lia). unfold le_dir, kle. rewrite H. reflexivity.
Qed.

(* scan c of this tree stands at e, R follows *)
Definition at_elem (ps : posi) (e : elem) (R : list elem) : Prop :=
  exists D k i, walk_of g E = D ++ e :: R /\ ps = mkPosi (Some k) i (match D with [] => false | _ => keq (bk e) (r_end g) end) /\
    i < used (lev T 0) k /\ nth_error E (flat (lev T 0) k i) = Some e /\
    e :: R = filter (fun x => negb (beyond fw (Some g) x)) (dirlist E fw (flat (lev T 0) k i)).

Lemma mono_filter f (P : elem -> bool) V : mono f V -> mono f (filter P V).
Proof.
  induction V as [|x V IH]; intros H; [exact I|]. destruct H as (H1 & H2). cbn [filter]. destruct (P x); [|apply IH; exact H2].
  split; [|apply IH; exact H2]. intros y HY. apply filter_In in HY. apply H1. tauto.
Qed.

Lemma edge_last : forall x, In x E -> match (if fw then s_last E else s_first E) with Some m => le_dir fw (bk x) (bk m) = true | None => False end.
Proof.
  intros x HX. destruct (first_in E x HS HX) as (A1 & A2). assert (NE : E <> []) by (intros ->; contradiction).
  unfold le_dir, kle. subst fw. destruct (desc g); cbn [negb].
  - destruct (s_first E) as [m|] eqn:F; [rewrite A1; reflexivity|]. destruct E; [congruence|discriminate].
  - destruct (s_last E) as [m|] eqn:F; [rewrite A2; reflexivity|]. unfold s_last in F. destruct (rev E) as [|y l] eqn:RV; [|discriminate].
    apply (f_equal (@rev _)) in RV. rewrite rev_involutive in RV. cbn in RV. congruence.
Qed.

Lemma far_dir : (if fw then hi_of g else lo_of g) = r_end g.
Proof.
  pose proof (range_type_ends g) as EN. subst fw. destruct (range_type g) eqn:RT.
  - assert (DS : desc g = false). { destruct (desc g) eqn:D; [|reflexivity]. apply range_type_desc in D. congruence. }
    rewrite DS. cbn [negb]. destruct EN as (_ & ->). apply range_type_single in RT. unfold single, r_end in *. destruct (r_to g) as [u|]; [|reflexivity]. apply keq_eq in RT. congruence.
  - assert (DS : desc g = false). { destruct (desc g) eqn:D; [|reflexivity]. apply range_type_desc in D. congruence. }
    rewrite DS. cbn [negb]. tauto.
  - assert (DS : desc g = true) by (apply range_type_desc; exact RT). rewrite DS. cbn [negb]. tauto.
Qed.

(* the far edge of the tree and the signal in one form *)
Definition edge : option elem := if fw then s_last E else s_first E.
Definition far_signal (m : elem) : bool := lt_dir fw (bk m) (r_end g) || at_edge (r_end g) (Some m) (walk_of g E).
Lemma cut_far m : edge = Some m -> cut s g = b_trim t && match b_ovf t with OvSmallest => negb fw | OvLargest => fw | _ => false end && far_signal m.
Proof.
  intros EM. unfold cut. cbn [s_el s_trim s_ovf s]. pose proof far_dir as FD. unfold edge in EM. rewrite <- andb_assoc. f_equal.
  unfold far_signal, lt_dir, low_out, high_out. subst fw. destruct (desc g); cbn [negb andb] in *.
  - rewrite EM, FD. destruct (b_ovf t); reflexivity.
  - rewrite EM, FD. destruct (b_ovf t); reflexivity.
Qed.

Lemma scan_step ps e R : at_elem ps e R ->
  match R with
  | [] => exists ps', scan_next (mkSc [] 0%N t ps 0) rt g = Some (None, ps') /\ ran_into_trim t ps' rt = cut s g
  | e' :: R' => exists ps', scan_next (mkSc [] 0%N t ps 0) rt g = Some (Some e', ps') /\ at_elem ps' e' R'
  end.
Proof.
  intros (D & k & i & HW & -> & HI & HN & HR). set (r := flat (lev T 0) k i) in *.
  pose proof (btree_tree _ _ HB) as HT. fold T in HT.
  destruct (dirlist_cons E fw r e HN) as (V & DV & V1 & V2).
  pose proof (dirlist_mono E fw r HS) as MV. rewrite DV in MV, HR. cbn [filter] in HR.
  assert (BE : beyond fw (Some g) e = false).
  { destruct (beyond fw (Some g) e) eqn:BB; [|reflexivity]. cbn [negb] in HR. assert (IN : In e (filter (fun x => negb (beyond fw (Some g) x)) V)) by (rewrite <- HR; left; reflexivity).
    apply filter_In in IN. destruct IN as (_ & IN). rewrite BB in IN. discriminate. }
  rewrite BE in HR. cbn [negb] in HR. apply (f_equal (@tl _)) in HR. cbn [tl] in HR.
  destruct MV as (MV1 & MV2).
  assert (EQR : keq (bk e) (r_end g) = true -> R = []).
  { intros K. apply keq_eq in K. rewrite HR. apply filter_none. intros x HX. apply negb_false_iff. rewrite beyond_dir, <- K. apply MV1. exact HX. }
  assert (NE : edge <> None).
  { pose proof (edge_last e (nth_error_In _ _ HN)) as H. unfold edge. intros C. rewrite C in H. contradiction. }
  unfold scan_next. cbn [c_ps peq c_t].
  assert (STEP : forall q, match R with
     | [] => exists ps', find_step T fw (mkPosi (Some k) i q) (Some g) = Some (None, ps') /\
              (pn ps' = None /\ last_rank E fw r \/ (exists x, In x E /\ beyond fw (Some g) x = true) /\ pn ps' <> None) /\
              (pn ps' = None -> ps' = mkPosi None (if fw then 0 else ITEM_COUNT) false)
     | e' :: R' => exists k' i', find_step T fw (mkPosi (Some k) i q) (Some g) = Some (Some e', mkPosi (Some k') i' (keq (bk e') (r_end g))) /\
              i' < used (lev T 0) k' /\ nth_error E (flat (lev T 0) k' i') = Some e' /\
              e' :: R' = filter (fun x => negb (beyond fw (Some g) x)) (dirlist E fw (flat (lev T 0) k' i'))
     end).
  { intros q. pose proof (find_step_spec fw (Some g) T E k i q HT HI) as FS. cbv zeta in FS. fold r in FS.
    destruct (if fw then Nat.eqb (S r) (length E) else Nat.eqb r 0) eqn:LR.
    - assert (LK : last_rank E fw r) by (unfold last_rank; destruct fw; apply Nat.eqb_eq; exact LR).
      rewrite (V1 LK) in HR. cbn in HR. rewrite HR. eexists. split; [exact FS|]. cbn [pn]. split; [left; split; [reflexivity|exact LK]|]. reflexivity.
    - assert (LK : ~ last_rank E fw r) by (unfold last_rank; destruct fw; apply Nat.eqb_neq; exact LR).
      destruct FS as (e' & k' & i' & F1 & F2 & F3 & _ & F4).
      pose proof (V2 LK) as VV. destruct (dirlist_cons E fw (next_rank fw r) e' F1) as (V' & DV' & _).
      assert (VE : V = e' :: V') by (rewrite VV; exact DV'). rewrite VE in HR, MV2. cbn [filter] in HR. destruct MV2 as (MV3 & _).
      destruct (beyond fw (Some g) e') eqn:BE'; cbn [negb] in HR.
      + assert (RN : R = []).
        { rewrite HR. apply filter_none. intros x HX. apply negb_false_iff. rewrite beyond_dir in *. specialize (MV3 x HX).
          unfold lt_dir in *. destruct fw; eapply klt_trans; eassumption. }
        rewrite RN. eexists. split; [exact F4|]. split; [right; split; [exists e'; split; [eapply nth_error_In; eassumption|exact BE']|discriminate]|]. discriminate.
      + rewrite HR. exists k', i'. split; [exact F4|]. split; [exact F2|]. rewrite F3. split; [exact F1|].
        rewrite <- VV, VE. cbn [filter]. rewrite BE'. reflexivity. }
  unfold rt. rewrite asc_of. fold fw. fold T.
  destruct (match D with [] => false | _ => keq (bk e) (r_end g) end) eqn:Q.
  - (* at the end of the range, not the first element *)
    destruct D as [|d D]; [discriminate|]. rewrite (EQR Q) in *. eexists. split; [reflexivity|].
    unfold ran_into_trim. cbn [pn]. destruct edge as [m|] eqn:EM; [|congruence]. rewrite (cut_far m EM). unfold far_signal.
    assert (AE : at_edge (r_end g) (Some m) (walk_of g E) = false).
    { rewrite HW. unfold at_edge. destruct D; reflexivity. }
    rewrite AE, orb_false_r. symmetry. apply andb_false_iff. right. apply keq_eq in Q. rewrite <- Q.
    pose proof (edge_last e (nth_error_In _ _ HN)) as H. fold edge in H. rewrite EM in H. rewrite le_lt_dir in H. apply negb_true_iff. exact H.
  - pose proof (STEP false) as ST. destruct R as [|e' R'].
    + destruct ST as (ps' & S1 & S2 & S3). exists ps'. split; [exact S1|]. destruct edge as [m|] eqn:EM; [|congruence]. rewrite (cut_far m EM).
      unfold ran_into_trim. destruct S2 as [(S2 & LK)|((x & X1 & X2) & S2)].
      * rewrite S2. rewrite (S3 S2). unfold overlapped. cbn [pn px].
        assert (ME : m = e).
        { unfold last_rank in LK. unfold edge, s_last, s_first in EM. destruct fw.
          - rewrite hd_rev in EM. replace (length E - 1) with r in EM by lia. congruence.
          - rewrite LK in HN. destruct E; [discriminate|]. cbn in *. congruence. }
        assert (FS : far_signal m = true).
        { subst m. unfold far_signal. rewrite beyond_dir in BE. destruct (lt_dir fw (bk e) (r_end g)) eqn:LT; [reflexivity|]. cbn [orb].
          assert (KE : bk e = r_end g) by (unfold lt_dir in *; destruct fw; apply klt_total; assumption).
          rewrite KE, keq_refl in Q. destruct D as [|d D]; [|discriminate]. rewrite HW. cbn [app]. unfold at_edge. rewrite KE, keq_refl. reflexivity. }
        rewrite FS, andb_true_r. f_equal. destruct (b_ovf t), fw; reflexivity.
      * destruct (pn ps') eqn:PN; [|congruence]. symmetry. apply andb_false_iff. right. unfold far_signal.
        pose proof (edge_last x X1) as H. fold edge in H. rewrite EM in H. rewrite beyond_dir in X2.
        assert (LT : lt_dir fw (r_end g) (bk m) = true).
        { unfold le_dir, lt_dir in *. destruct fw; [eapply klt_kle_trans|eapply kle_klt_trans]; eassumption. }
        assert (L1 : lt_dir fw (bk m) (r_end g) = false) by (unfold lt_dir in *; destruct fw; apply klt_asym; exact LT).
        rewrite L1. cbn [orb]. unfold at_edge. destruct (walk_of g E) as [|y [|]]; try reflexivity.
        assert (KM : keq (bk m) (r_end g) = false) by (unfold lt_dir in LT; destruct fw; [apply klt_neq'|apply klt_neq]; exact LT).
        rewrite KM. apply andb_false_r.
    + destruct ST as (k' & i' & S1 & S2 & S3 & S4). eexists. split; [exact S1|]. exists (D ++ [e]), k', i'.
      split; [rewrite <- app_assoc; exact HW|]. split; [f_equal; destruct D; reflexivity|]. split; [exact S2|]. split; [exact S3|exact S4].
Qed.

(* the first element *)
Lemma scan_first : exists o ps p, find_first T rt (Some g) = Some (o, ps, p) /\
  match o with
  | None => walk_of g E = [] /\ b_trim t && overlapped t T ps rt = out_of_range s g
  | Some e => negb (peq ps) && b_trim t && overlapped t T ps rt = out_of_range s g /\
              exists R, walk_of g E = e :: R /\ at_elem (mkPosi (pn ps) (px ps) false) e R
  end.
Proof.
  pose proof (btree_tree _ _ HB) as HT. fold T in HT. pose proof (proj1 (sorted_incr E) HS) as HK.
  destruct (find_first_spec T E HT HK rt g) as (res & F1 & F2). pose proof (range_type_ends g) as EN.
  assert (NE : E <> []) by exact (proj2 (first_elem_root T E HT)).
  assert (LEN : 0 < length E) by (destruct E; [congruence|cbn; lia]).
  assert (SI : single g = match rt with SIN => true | _ => false end).
  { destruct (single g) eqn:D; [apply range_type_single in D; unfold rt; rewrite D; reflexivity|]. unfold rt. destruct (range_type g) eqn:R; try reflexivity. apply range_type_single in R. congruence. }
  assert (DS : desc g = match rt with DSC => true | _ => false end).
  { destruct (desc g) eqn:D; [apply range_type_desc in D; unfold rt; rewrite D; reflexivity|]. unfold rt. destruct (range_type g) eqn:R; try reflexivity. apply range_type_desc in R. congruence. }
  assert (NEAR : lt_dir fw (r_end g) (r_from g) = false).
  { unfold fw, lt_dir. rewrite DS. unfold rt. destruct (range_type g) eqn:R; cbn [negb].
    - assert (RE : r_end g = r_from g). { apply range_type_single in R. unfold single, r_end in *. destruct (r_to g) as [u|]; [|reflexivity]. apply keq_eq in R. congruence. }
      rewrite RE. apply klt_irrefl.
    - apply klt_asym. tauto.
    - apply klt_asym. tauto. }
  assert (START : forall k i e, i < used (lev T 0) k -> nth_error E (flat (lev T 0) k i) = Some e -> beyond fw (Some g) e = false ->
    (forall j x, nth_error E j = Some x -> if fw then if Nat.ltb j (flat (lev T 0) k i) then klt (bk x) (r_from g) = true else kle (r_from g) (bk x) = true
                                      else if Nat.ltb (flat (lev T 0) k i) j then klt (r_from g) (bk x) = true else kle (bk x) (r_from g) = true) ->
    exists R, walk_of g E = e :: R /\ at_elem (mkPosi (Some k) i false) e R).
  { intros k i e H1 H2 H3 H4. pose proof (walk_at _ H4) as W. destruct (dirlist_cons E fw _ e H2) as (V & DV & _). rewrite DV in W. cbn [filter] in W.
    rewrite H3 in W. cbn [negb] in W. eexists. split; [exact W|]. exists [], k, i. split; [exact W|]. split; [reflexivity|]. split; [exact H1|]. split; [exact H2|].
    rewrite DV. cbn [filter]. rewrite H3. reflexivity. }
  assert (EMPTY : forall r, r <= length E -> below E (r_from g) r -> above E (r_from g) r -> (forall x, nth_error E (if fw then r else r - 1) = Some x -> (fw = false -> 0 < r) -> beyond fw (Some g) x = true) -> walk_of g E = []).
  { intros r R0 R1 R2 R3. unfold walk_of. rewrite filter_none; [case (desc g); reflexivity|]. intros x HX. rewrite in_rg_dir. fold fw.
    apply In_nth_error in HX. destruct HX as (j & HX). unfold le_dir, kle. clear START. unfold beyond in R3. destruct fw.
    - destruct (Nat.ltb_spec j r) as [C|C]; [rewrite (R1 j x C HX); reflexivity|].
      assert (HL : j < length E) by (apply nth_error_Some; congruence). destruct (nth_error E r) as [y|] eqn:EY; [|apply nth_error_None in EY; lia].
      assert (B : klt (r_end g) (bk x) = true).
      { specialize (R3 y eq_refl ltac:(discriminate)). destruct (Nat.eq_dec r j) as [<-|]; [congruence|]. eapply klt_trans; [exact R3|]. apply (HK r j); [lia|assumption|assumption]. }
      rewrite B. apply andb_false_r.
    - destruct (Nat.ltb_spec j r) as [C|C]; [|rewrite (R2 j x C HX); reflexivity].
      destruct (nth_error E (r - 1)) as [y|] eqn:EY; [|apply nth_error_None in EY; lia].
      assert (B : klt (bk x) (r_end g) = true).
      { specialize (R3 y eq_refl ltac:(intros _; lia)). destruct (Nat.eq_dec (r - 1) j) as [EJ|]; [rewrite EJ in EY; congruence|]. eapply klt_trans; [|exact R3]. apply (HK j (r - 1)); [lia|assumption|assumption]. }
      rewrite B. apply andb_false_r. }
  destruct F2 as [(l & i & p & e & -> & P1 & P2 & P3 & P4)|(r & R1 & R2 & R3 & R4)].
  - (* the start of the range is an element *)
    exists (Some e), (mkPosi (Some l) i true), p. split; [exact F1|]. cbn [pn px peq negb andb].
    destruct (first_in E e HS (nth_error_In _ _ P2)) as (A1 & A2). rewrite P3 in A1, A2.
    destruct (START l i e P1 P2) as (R & W & A).
    + rewrite beyond_dir, P3. exact NEAR.
    + intros j x HX. rewrite <- P3. destruct fw.
      * destruct (Nat.ltb_spec j (flat (lev T 0) l i)) as [C|C]; [exact (HK _ _ _ _ C HX P2)|].
        destruct (Nat.eq_dec j (flat (lev T 0) l i)) as [->|NJ]; [rewrite P2 in HX; injection HX as <-; apply kle_refl|].
        apply klt_kle. apply (HK (flat (lev T 0) l i) j); [lia|assumption|assumption].
      * destruct (Nat.ltb_spec (flat (lev T 0) l i) j) as [C|C]; [exact (HK _ _ _ _ C P2 HX)|].
        destruct (Nat.eq_dec j (flat (lev T 0) l i)) as [->|NJ]; [rewrite P2 in HX; injection HX as <-; apply kle_refl|].
        apply klt_kle. apply (HK j (flat (lev T 0) l i)); [lia|assumption|assumption].
    + split; [|exists R; split; [exact W|exact A]]. unfold out_of_range. cbn [s_el s_trim s_ovf s]. rewrite W, SI, DS. rewrite !orb_false_r.
      symmetry. apply andb_false_iff. right. unfold low_out, high_out. unfold rt. destruct (range_type g); cbn [negb orb andb].
      * destruct EN as (-> & ->). rewrite A1, A2. destruct (b_ovf t); reflexivity.
      * destruct EN as (-> & _). rewrite A1. destruct (b_ovf t); reflexivity.
      * destruct EN as (-> & _). rewrite A2. destruct (b_ovf t); reflexivity.
  - destruct (first_of E r HS NE _ R1 R2 R3) as (A1 & A2). unfold rt in *. destruct (range_type g) eqn:RT.
    + (* a single bkey that is not there *)
      destruct R4 as (ps & p & -> & Q1 & Q2 & Q3). exists None, ps, p. split; [exact F1|]. destruct EN as (LO & HI).
      assert (W : walk_of g E = []).
      { apply (EMPTY r R3 R1 R2). intros x HX _. unfold fw in *. rewrite DS in *. cbn [negb] in *. unfold beyond.
        assert (RE : r_end g = r_from g). { apply range_type_single in RT. unfold single, r_end in *. destruct (r_to g) as [u|]; [|reflexivity]. apply keq_eq in RT. congruence. }
        rewrite RE. exact (R2 r x (le_n _) HX). }
      split; [exact W|]. unfold out_of_range. cbn [s_el s_trim s_ovf s]. rewrite W, SI, DS. cbn [negb orb andb]. f_equal. unfold low_out, high_out. rewrite LO, HI, A1, A2.
      unfold overlapped.
      destruct (Nat.eqb_spec r 0) as [Z|Z]; [rewrite (Q1 Z)|destruct (Nat.eqb_spec r (length E)) as [Z'|Z']; [rewrite (Q2 Z')|]].
      * cbn [pn px]. replace (Nat.eqb r (length E)) with false by (symmetry; apply Nat.eqb_neq; lia). destruct (b_ovf t); reflexivity.
      * cbn [pn px]. destruct (b_ovf t); reflexivity.
      * destruct (pn ps) as [k|] eqn:PN; [|exfalso; apply Q3; [lia|reflexivity]]. rewrite !andb_false_r. destruct (b_ovf t); reflexivity.
    + destruct EN as (LO & HI & LT & _). unfold fw in *. rewrite DS in *. cbn [negb] in *.
      destruct R4 as [(Z & p & ->)|(l & i & e & p & Q1 & Q2 & Q3 & -> & Q4)].
      * exists None, (mkPosi None 0 false), p. split; [exact F1|].
        assert (W : walk_of g E = []). { apply (EMPTY r R3 R1 R2). intros x HX. rewrite Z in HX. assert (length E < length E) by (apply nth_error_Some; congruence). lia. }
        split; [exact W|]. unfold out_of_range. cbn [s_el s_trim s_ovf s]. rewrite W, SI, DS. cbn [negb orb andb]. f_equal. unfold overlapped. cbn [pn px].
        unfold low_out, high_out. rewrite LO, HI, A1. replace (Nat.eqb r 0) with false by (symmetry; apply Nat.eqb_neq; lia).
        destruct (b_ovf t); try reflexivity. rewrite Z, Nat.eqb_refl in A2. destruct (s_last E) as [mx|]; [|discriminate]. rewrite (klt_trans _ _ _ A2 LT). reflexivity.
      * destruct (klt (r_end g) (bk e)) eqn:EB.
        -- exists None, (mkPosi (Some l) i false), p. split; [exact F1|].
           assert (W : walk_of g E = []). { apply (EMPTY r R3 R1 R2). intros x HX _. unfold beyond. congruence. }
           split; [exact W|]. unfold out_of_range. cbn [s_el s_trim s_ovf s]. rewrite W, SI, DS. cbn [negb orb andb]. f_equal.
           unfold T. rewrite (overlapped_some t E HB) by exact Q2. fold T. unfold low_out, high_out. rewrite LO, HI, A1, Q3.
           destruct (b_ovf t); try reflexivity; [apply andb_true_r|]. rewrite andb_false_r. symmetry.
           destruct (first_in E e HS (nth_error_In _ _ Q1)) as (_ & A3). destruct (s_last E) as [mx|]; [|reflexivity].
           apply klt_asym. apply klt_false in A3. eapply klt_kle_trans; eassumption.
        -- exists (Some e), (mkPosi (Some l) i false), p. split; [exact F1|]. cbn [pn px peq negb andb]. rewrite <- Q3 in Q1.
           destruct (START l i e Q2 Q1) as (R & W & A).
           ++ exact EB.
           ++ intros j x HX. rewrite Q3. destruct (Nat.ltb_spec j r) as [C|C]; [exact (R1 j x C HX)|]. apply klt_kle. exact (R2 j x C HX).
           ++ split; [|exists R; split; [exact W|exact A]]. unfold out_of_range. cbn [s_el s_trim s_ovf s]. rewrite W, SI, DS. cbn [negb orb andb]. f_equal.
              unfold T. rewrite (overlapped_some t E HB) by exact Q2. fold T. unfold low_out, high_out. rewrite LO, A1, Q3.
              destruct (b_ovf t); try reflexivity; [apply andb_true_r|apply andb_false_r].
    + destruct EN as (HI & LO & LT & _). unfold fw in *. rewrite DS in *. cbn [negb] in *.
      destruct R4 as [(Z & p & ->)|(l & i & e & p & Q0 & Q1 & Q2 & Q3 & -> & Q4)].
      * exists None, (mkPosi None ITEM_COUNT false), p. split; [exact F1|].
        assert (W : walk_of g E = []). { apply (EMPTY r R3 R1 R2). intros x HX HP. specialize (HP eq_refl). lia. }
        split; [exact W|]. unfold out_of_range. cbn [s_el s_trim s_ovf s]. rewrite W, SI, DS. cbn [negb orb andb]. f_equal. unfold overlapped. cbn [pn px].
        unfold low_out, high_out. rewrite LO, HI, A2. replace (Nat.eqb r (length E)) with false by (symmetry; apply Nat.eqb_neq; lia).
        destruct (b_ovf t); try reflexivity. rewrite Z in A1. cbn in A1. destruct (s_first E) as [mn|]; [|discriminate]. rewrite (klt_trans _ _ _ LT A1). reflexivity.
      * destruct (klt (bk e) (r_end g)) eqn:EB.
        -- exists None, (mkPosi (Some l) i false), p. split; [exact F1|].
           assert (W : walk_of g E = []). { apply (EMPTY r R3 R1 R2). intros x HX _. unfold beyond. congruence. }
           split; [exact W|]. unfold out_of_range. cbn [s_el s_trim s_ovf s]. rewrite W, SI, DS. cbn [negb orb andb]. f_equal.
           unfold T. rewrite (overlapped_some t E HB) by exact Q2. fold T. unfold low_out, high_out. rewrite LO, HI, A2, Q3. replace (S (r - 1)) with r by lia.
           destruct (b_ovf t); try reflexivity; [|apply andb_true_r]. rewrite andb_false_r. symmetry.
           destruct (first_in E e HS (nth_error_In _ _ Q1)) as (A3 & _). destruct (s_first E) as [mn|]; [|reflexivity].
           apply klt_asym. apply klt_false in A3. eapply kle_klt_trans; eassumption.
        -- exists (Some e), (mkPosi (Some l) i false), p. split; [exact F1|]. cbn [pn px peq negb andb]. rewrite <- Q3 in Q1.
           destruct (START l i e Q2 Q1) as (R & W & A).
           ++ exact EB.
           ++ intros j x HX. rewrite Q3. destruct (Nat.ltb_spec (r - 1) j) as [C|C]; [apply (R2 j x); [lia|exact HX]|]. apply klt_kle. apply (R1 j x); [lia|exact HX].
           ++ split; [|exists R; split; [exact W|exact A]]. unfold out_of_range. cbn [s_el s_trim s_ovf s]. rewrite W, SI, DS. cbn [negb orb andb]. f_equal.
              unfold T. rewrite (overlapped_some t E HB) by exact Q2. fold T. unfold low_out, high_out. rewrite HI, A2, Q3. replace (S (r - 1)) with r by lia.
              destruct (b_ovf t); try reflexivity; [apply andb_false_r|apply andb_true_r].
Qed.
End OneTree.
