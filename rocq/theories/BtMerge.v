(* Merging nodes after a delete *)
From Verif Require Import Base UtilModel BtModel BtSpec BtOrder BtLevel BtFind BtSplit.
Local Open Scope nat_scope.

(* ---------- seek ---------- *)

(* the flat position the search goes on from *)
Definition from_next (U : level) (k i : nat) : nat := if Nat.eqb (used U k) 0 then flat U k 0 else S (flat U k i).

Lemma wt_at U k i : i < used U k -> slot_wt U k i = nth (flat U k i) (map wt (concat U)) 0.
Proof. apply slot_wt_nth. Qed.

Lemma seek_next fuel : forall U k i j,
  (i < used U k \/ used U k = 0 /\ i = 0) -> k < length U ->
  (length (concat U) - from_next U k i) + (length U - k) < fuel ->
  j < length (concat U) -> nth j (map wt (concat U)) 0 <> 0 -> from_next U k i <= j ->
  (forall x, from_next U k i <= x < j -> nth x (map wt (concat U)) 0 = 0) ->
  exists k' i', seek fuel U Next k i = Some (k', i') /\ i' < used U k' /\ flat U k' i' = j /\ k <= k'.
Proof.
  induction fuel as [|fuel IH]; intros U k i j HI HK HF HJ HW LE HZ; [lia|]. cbn [seek].
  pose proof (flat_S U k HK) as FS.
  unfold incr_at. destruct (Nat.ltb_spec (S i) (used U k)) as [G|G].
  - assert (FN : from_next U k i = flat U k (S i)).
    { unfold from_next. destruct (Nat.eqb_spec (used U k) 0); [lia|]. unfold flat. lia. }
    destruct (Nat.eqb_spec (used U k) 0) as [E0|E0]; [lia|]. cbn [orb].
    destruct (Nat.eqb_spec (slot_wt U k (S i)) 0) as [E|E].
    + rewrite wt_at in E by assumption.
      assert (flat U k (S i) <> j) by (intros EQ; rewrite EQ in E; congruence).
      destruct (IH U k (S i) j) as (k' & i' & R); auto.
      * unfold from_next in *. destruct (Nat.eqb_spec (used U k) 0); [lia|]. unfold flat in *. lia.
      * unfold from_next in *. destruct (Nat.eqb_spec (used U k) 0); [lia|]. unfold flat in *. lia.
      * intros x X. apply HZ. unfold from_next in *. destruct (Nat.eqb_spec (used U k) 0); [lia|]. unfold flat in *. lia.
      * exists k', i'. exact R.
    + exists k, (S i). split; [reflexivity|]. split; [exact G|]. split; [|lia].
      destruct (Nat.eq_dec (flat U k (S i)) j) as [|NE]; [assumption|].
      exfalso. apply E. rewrite wt_at by assumption. apply HZ. lia.
  - assert (FN : from_next U k i = flat U (S k) 0).
    { rewrite FS. unfold from_next. destruct (Nat.eqb_spec (used U k) 0) as [E0|E0]; unfold flat; lia. }
    destruct (Nat.ltb_spec (S k) (length U)) as [G2|G2].
    + destruct (Nat.eqb_spec (used U (S k)) 0) as [E0|E0]; cbn [orb].
      * assert (FN2 : from_next U (S k) 0 = flat U (S k) 0) by (unfold from_next; rewrite E0; reflexivity).
        destruct (IH U (S k) 0 j) as (k' & i' & R1 & R2 & R3 & R4); auto; try lia.
        -- intros x X. apply HZ. lia.
        -- exists k', i'. split; [exact R1|]. split; [exact R2|]. split; [exact R3|lia].
      * assert (V : 0 < used U (S k)) by lia.
        destruct (Nat.eqb_spec (slot_wt U (S k) 0) 0) as [E|E].
        -- rewrite wt_at in E by assumption.
           assert (flat U (S k) 0 <> j) by (intros EQ; rewrite EQ in E; congruence).
           assert (FN2 : from_next U (S k) 0 = S (flat U (S k) 0)).
           { unfold from_next. destruct (Nat.eqb_spec (used U (S k)) 0); [lia|]. reflexivity. }
           destruct (IH U (S k) 0 j) as (k' & i' & R1 & R2 & R3 & R4); auto; try lia.
           ++ intros x X. apply HZ. lia.
           ++ exists k', i'. split; [exact R1|]. split; [exact R2|]. split; [exact R3|lia].
        -- exists (S k), 0. split; [reflexivity|]. split; [exact V|]. split; [|lia].
           destruct (Nat.eq_dec (flat U (S k) 0) j) as [|NE]; [assumption|].
           exfalso. apply E. rewrite wt_at by assumption. apply HZ. lia.
    + exfalso. rewrite (flat_end U (S k)) in FN by lia. lia.
Qed.

Lemma seek_prev fuel : forall U k i j,
  (i < used U k \/ used U k = 0) -> k < length U ->
  flat U k (if Nat.eqb (used U k) 0 then 0 else i) + k < fuel ->
  nth j (map wt (concat U)) 0 <> 0 -> j < flat U k (if Nat.eqb (used U k) 0 then 0 else i) ->
  (forall x, j < x < flat U k (if Nat.eqb (used U k) 0 then 0 else i) -> nth x (map wt (concat U)) 0 = 0) ->
  exists k' i', seek fuel U Prev k i = Some (k', i') /\ i' < used U k' /\ flat U k' i' = j /\ k' <= k.
Proof.
  induction fuel as [|fuel IH]; intros U k i j HI HK HF HW LE HZ; [lia|]. cbn [seek].
  assert (STEP : (if Nat.eqb (used U k) 0 then decr_at U k 0 else decr_at U k i) =
                 decr_at U k (if Nat.eqb (used U k) 0 then 0 else i)) by (destruct (Nat.eqb (used U k) 0); reflexivity).
  rewrite STEP. clear STEP.
  assert (HI' : (if Nat.eqb (used U k) 0 then 0 else i) <= used U k /\ (0 < (if Nat.eqb (used U k) 0 then 0 else i) -> (if Nat.eqb (used U k) 0 then 0 else i) < used U k)).
  { destruct (Nat.eqb_spec (used U k) 0); lia. }
  set (y := if Nat.eqb (used U k) 0 then 0 else i) in *. clearbody y. destruct HI' as [HI1 HI2].
  unfold decr_at. destruct y as [|y].
  - destruct k as [|k]; [unfold flat in LE; cbn in LE; lia|].
    pose proof (flat_S U k ltac:(lia)) as FS.
    destruct (Nat.eqb_spec (used U k) 0) as [E0|E0]; cbn [orb].
    + assert (FE : flat U k 0 = flat U (S k) 0) by (rewrite FS, E0; reflexivity).
      destruct (IH U k (used U k - 1) j) as (k' & i' & R1 & R2 & R3 & R4); auto; try lia; try (rewrite E0; cbn [Nat.eqb]; lia).
      * rewrite E0. cbn [Nat.eqb]. intros x X. apply HZ. lia.
      * exists k', i'. split; [exact R1|]. split; [exact R2|]. split; [exact R3|lia].
    + assert (V : used U k - 1 < used U k) by lia.
      assert (FE : S (flat U k (used U k - 1)) = flat U (S k) 0) by (rewrite FS; unfold flat; lia).
      assert (NEB : Nat.eqb (used U k) 0 = false) by (apply Nat.eqb_neq; lia).
      destruct (Nat.eqb_spec (slot_wt U k (used U k - 1)) 0) as [E|E].
      * rewrite wt_at in E by assumption.
        assert (flat U k (used U k - 1) <> j) by (intros EQ; rewrite EQ in E; congruence).
        destruct (IH U k (used U k - 1) j) as (k' & i' & R1 & R2 & R3 & R4); auto; try lia; try (rewrite NEB; lia).
        -- rewrite NEB. intros x X. apply HZ. lia.
        -- exists k', i'. split; [exact R1|]. split; [exact R2|]. split; [exact R3|lia].
      * exists k, (used U k - 1). split; [reflexivity|]. split; [exact V|]. split; [|lia].
        destruct (Nat.eq_dec (flat U k (used U k - 1)) j) as [|NE]; [assumption|].
        exfalso. apply E. rewrite wt_at by assumption. apply HZ. lia.
  - assert (V : y < used U k) by lia.
    assert (NEB : Nat.eqb (used U k) 0 = false) by (apply Nat.eqb_neq; lia).
    rewrite NEB. cbn [orb].
    assert (FE : S (flat U k y) = flat U k (S y)) by (unfold flat; lia).
    destruct (Nat.eqb_spec (slot_wt U k y) 0) as [E|E].
    + rewrite wt_at in E by assumption.
      assert (flat U k y <> j) by (intros EQ; rewrite EQ in E; congruence).
      destruct (IH U k y j) as (k' & i' & R1 & R2 & R3 & R4); auto; try lia; try (rewrite NEB; lia).
      * rewrite NEB. intros x X. apply HZ. lia.
      * exists k', i'. auto.
    + exists k, y. split; [reflexivity|]. split; [exact V|]. split; [|lia].
      destruct (Nat.eq_dec (flat U k y) j) as [|NE]; [assumption|].
      exfalso. apply E. rewrite wt_at by assumption. apply HZ. lia.
Qed.

(* ---------- move_merge ---------- *)

(* j is the nearest node with weight *)
Definition nearest (W : list nat) (dr : dir) (k j : nat) : Prop :=
  j < length W /\ nth j W 0 <> 0 /\
  match dr with
  | Next => k < j /\ forall x, k < x < j -> nth x W 0 = 0
  | Prev => j < k /\ forall x, j < x < k -> nth x W 0 = 0
  end.

Lemma sum_zero_slots U a : (forall b, b < used U a -> slot_wt U a b = 0) -> sum_wt (nd U a) = 0.
Proof.
  intros H. unfold used, slot_wt in H. induction (nd U a) as [|s n IH]; [reflexivity|].
  cbn [sum_wt fold_right]. pose proof (H 0 ltac:(cbn; lia)) as H0. cbn in H0. rewrite H0.
  change (fold_right (fun s a => wt s + a) 0 n) with (sum_wt n). rewrite IH; [reflexivity|].
  intros b B. specialize (H (S b) ltac:(cbn; lia)). exact H.
Qed.

Lemma move_merge_spec Us : forall W p k j dr c, lk W Us -> pvalid Us p k -> c <= nth k W 0 -> nearest W dr k j ->
  exists Us', move_merge Us p dr c = Some Us' /\ lk (mv k j c W) Us' /\ shapes Us' = shapes Us.
Proof.
  induction Us as [|U r IH]; intros W [|[a b] p] k j dr c HL HP HC0 HN; cbn [lk pvalid move_merge] in *; try tauto.
  - exfalso. destruct HN as (H1 & _ & H2). destruct dr; lia.
  - destruct HL as (HW & HC & HL). destruct HP as (H1 & H2 & H3). destruct HN as (J1 & J2 & J3).
    pose proof (used_lt _ _ _ H1) as AL.
    set (U1 := set_cnt U a b (fun n => n - c)).
    assert (SH : shape U1 = shape U) by apply set_cnt_shape.
    assert (LC : length (concat U1) = length (concat U)) by (rewrite !shape_concat, SH; reflexivity).
    assert (WO : forall x, x <> k -> nth x (map wt (concat U1)) 0 = nth x W 0).
    { intros x X. unfold U1. rewrite set_cnt_wts by assumption. rewrite upd_nth_other by (rewrite H2; congruence). rewrite HW. reflexivity. }
    assert (STEP : exists a' b', seek (S (length (concat U)) + length U) U1 dr a b = Some (a', b') /\
              b' < used U a' /\ flat U a' b' = j /\ match dr with Next => a <= a' | Prev => a' <= a end).
    { assert (B1 : b < used U1 a) by (rewrite (shape_used _ _ SH); exact H1).
      assert (A1 : a < length U1) by (rewrite (shape_len _ _ SH); exact AL).
      assert (F1 : flat U1 a b = k) by (rewrite (shape_flat _ _ SH); exact H2).
      assert (N0 : Nat.eqb (used U1 a) 0 = false) by (apply Nat.eqb_neq; lia).
      assert (KL : k < length (concat U)) by (rewrite <- H2; apply flat_lt; exact H1).
      rewrite <- HW, map_length in J1. destruct dr.
      - destruct (seek_next (S (length (concat U)) + length U) U1 a b j) as (a' & b' & R1 & R2 & R3 & R4); auto.
        + rewrite (shape_len _ _ SH), LC. lia.
        + rewrite LC. exact J1.
        + rewrite WO by lia. exact J2.
        + unfold from_next. rewrite N0, F1. lia.
        + unfold from_next. rewrite N0, F1. intros x X. rewrite WO by lia. apply J3. lia.
        + exists a', b'. rewrite (shape_used _ _ SH) in R2. rewrite (shape_flat _ _ SH) in R3. auto.
      - destruct (seek_prev (S (length (concat U)) + length U) U1 a b j) as (a' & b' & R1 & R2 & R3 & R4); auto; rewrite ?N0, ?F1.
        + lia.
        + rewrite WO by lia. exact J2.
        + lia.
        + intros x X. rewrite WO by lia. apply J3. lia.
        + exists a', b'. rewrite (shape_used _ _ SH) in R2. rewrite (shape_flat _ _ SH) in R3. auto. }
    destruct STEP as (a' & b' & ES & V & F & C). rewrite ES.
    assert (NE : flat U a b <> flat U a' b') by (rewrite H2, F; destruct dr; lia).
    rewrite <- H2 in HC0.
    destruct (mv_step U W a b a' b' c HW HC H1 V NE HC0) as (M1 & M2 & M3 & M4 & M5).
    fold U1 in M1, M2, M3, M4. rewrite H2, F in M1.
    destruct (Nat.eqb_spec a a') as [<-|NA].
    + eexists. split; [reflexivity|]. split.
      * cbn [lk]. split; [exact M1|]. split; [exact M2|].
        rewrite M4, mv_same by assumption. exact HL.
      * cbn [shapes map]. rewrite M3. reflexivity.
    + destruct (IH (sums U) p a a' dr c HL H3 M5) as (r' & R1 & R2 & R3).
      { split; [rewrite sums_length; eapply used_lt; eauto|]. split.
        - rewrite sums_nth. pose proof (slot_le_sum U a' b'). rewrite slot_wt_nth, HW, F in H by assumption. lia.
        - assert (ZERO : forall x, (a < x < a' \/ a' < x < a) -> nth x (sums U) 0 = 0).
          { intros x X. rewrite sums_nth. apply sum_zero_slots. intros y Y. rewrite slot_wt_nth, HW by assumption.
            destruct dr.
            - apply J3. rewrite <- H2, <- F. split; apply flat_order; lia.
            - apply J3. rewrite <- H2, <- F. split; apply flat_order; lia. }
          destruct dr; (split; [lia|]); intros x X; apply ZERO; lia. }
      rewrite R1. eexists. split; [reflexivity|]. split.
      * cbn [lk]. split; [exact M1|]. split; [exact M2|]. rewrite M4. exact R2.
      * unfold shapes in *. cbn [map]. rewrite M3, R3. reflexivity.
Qed.

(* ---------- mbalance ---------- *)

Definition live (L : level) : Prop := Forall (fun s => wt s <> 0) (concat L).

Lemma live_node L k : live L -> Forall (fun s => wt s <> 0) (nd L k).
Proof.
  intros H. unfold nd. destruct (Nat.ltb_spec k (length L)) as [K|K].
  - apply Forall_forall. intros s HS. unfold live in H. rewrite Forall_forall in H. apply H.
    apply in_concat. exists (nth k L []). split; [apply nth_In; exact K|exact HS].
  - rewrite nth_overflow by assumption. constructor.
Qed.

Lemma live_zero n : Forall (fun s => wt s <> 0) n -> (sum_wt n = 0 <-> n = []).
Proof.
  intros H. destruct n as [|s n]; [split; reflexivity|]. inversion H; subst.
  split; [|discriminate]. cbn [sum_wt fold_right]. lia.
Qed.

Lemma live_used L k : live L -> (nth k (sums L) 0 = 0 <-> used L k = 0).
Proof.
  intros H. rewrite sums_nth, (live_zero _ (live_node L k H)). unfold used.
  destruct (nd L k); [split; reflexivity|]. split; discriminate.
Qed.

Lemma find_first_true {A} (f : A -> bool) l x : find f l = Some x -> exists a b, l = a ++ x :: b /\ f x = true /\ Forall (fun y => f y = false) a.
Proof.
  induction l as [|y l IH]; cbn [find]; [discriminate|]. destruct (f y) eqn:E.
  - intros EQ. injection EQ as <-. exists [], l. auto.
  - intros H. destruct (IH H) as (a & b & -> & F & FA). exists (y :: a), b. auto.
Qed.

Lemma seq_app_split a n l1 x l2 : seq a n = l1 ++ x :: l2 -> x = a + length l1 /\ length l1 < n /\ l1 = seq a (length l1) /\ l2 = seq (S x) (n - S (length l1)).
Proof.
  revert a n. induction l1 as [|y l1 IH]; intros a n H; destruct n as [|n]; cbn in H; try discriminate.
  - injection H as -> <-. cbn. repeat split; try lia. rewrite Nat.sub_0_r. reflexivity.
  - injection H as -> H. destruct (IH _ _ H) as (E1 & E2 & E3 & E4). cbn [length seq].
    split; [lia|]. split; [lia|]. split; [f_equal; exact E3|]. exact E4.
Qed.

Lemma next_alive_spec L k j : next_alive L k = Some j -> k < j /\ j < length L /\ 0 < used L j /\ forall x, k < x < j -> used L x = 0.
Proof.
  intros H. destruct (find_first_true _ _ _ H) as (a & b & E & F & FA).
  destruct (seq_app_split _ _ _ _ _ E) as (E1 & E2 & E3 & _).
  split; [lia|]. split; [lia|]. split.
  - unfold alive in F. destruct (Nat.eqb_spec (used L j) 0); [discriminate|lia].
  - intros x X. rewrite Forall_forall in FA. assert (IN : In x a) by (rewrite E3; apply in_seq; lia).
    specialize (FA x IN). unfold alive in FA. destruct (Nat.eqb_spec (used L x) 0); [assumption|discriminate].
Qed.

Lemma prev_alive_spec L k j : prev_alive L k = Some j -> j < k /\ 0 < used L j /\ forall x, j < x < k -> used L x = 0.
Proof.
  intros H. destruct (find_first_true _ _ _ H) as (a & b & E & F & FA).
  assert (E' : seq 0 k = rev b ++ j :: rev a).
  { rewrite <- (rev_involutive (seq 0 k)), E, rev_app_distr. cbn [rev]. rewrite <- app_assoc. reflexivity. }
  destruct (seq_app_split _ _ _ _ _ E') as (E1 & E2 & E3 & E4).
  split; [lia|]. split.
  - unfold alive in F. destruct (Nat.eqb_spec (used L j) 0); [discriminate|lia].
  - intros x X. rewrite Forall_forall in FA. assert (IN : In x a) by (apply in_rev; rewrite E4; apply in_seq; lia).
    specialize (FA x IN). unfold alive in FA. destruct (Nat.eqb_spec (used L x) 0); [assumption|discriminate].
Qed.

Lemma mbalance_spec L Us k p : live L -> k < length L -> mergeable L k = true -> 0 < used L k -> capped L -> lk (sums L) Us -> pvalid Us p k ->
  exists L' Us', mbalance L Us k p = Some (L', Us') /\ concat L' = concat L /\ length L' = length L /\ lk (sums L') Us' /\ shapes Us' = shapes Us /\
    capped L' /\ used L' k = 0 /\ forall x, x <> k -> (used L' x = 0 <-> used L x = 0).
Proof.
  intros HLV KL HM UK HCP HLK HP. unfold mergeable in HM. apply andb_prop in HM. destruct HM as [HM1 HM2].
  change (Nat.div ITEM_COUNT 2) with 16 in HM1. apply Nat.ltb_lt in HM1. apply orb_prop in HM2. rewrite !half_full_spec in HM2.
  assert (CH : exists dr j, choose L (next_alive L k) (prev_alive L k) = Some (dr, j) /\ j < length L /\ used L j < 16 /\ 0 < used L j /\
            match dr with Next => k < j /\ (forall x, k < x < j -> used L x = 0) | Prev => j < k /\ (forall x, j < x < k -> used L x = 0) end).
  { pose proof (next_alive_spec L k) as NA. pose proof (prev_alive_spec L k) as PA. unfold choose.
    destruct (next_alive L k) as [a|], (prev_alive L k) as [b|].
    - destruct (NA a eq_refl) as (A1 & A2 & A3 & A4). destruct (PA b eq_refl) as (B1 & B2 & B3).
      destruct (Nat.ltb_spec (used L a) (used L b)) as [G|G]; [exists Next, a|exists Prev, b]; split; try reflexivity; split; try lia; split; auto;
        destruct HM2 as [(j & E & HJ)|(j & E & HJ)]; injection E as ->; lia.
    - destruct (NA a eq_refl) as (A1 & A2 & A3 & A4). exists Next, a. split; [reflexivity|]. split; [lia|]. split; auto.
      destruct HM2 as [(j & E & HJ)|(j & E & HJ)]; [discriminate|injection E as ->; lia].
    - destruct (PA b eq_refl) as (B1 & B2 & B3). exists Prev, b. split; [reflexivity|]. split; [lia|]. split; auto.
      destruct HM2 as [(j & E & HJ)|(j & E & HJ)]; [injection E as ->; lia|discriminate].
    - destruct HM2 as [(j & E & HJ)|(j & E & HJ)]; discriminate. }
  destruct CH as (dr & j & CH & JL & UJ & UJ0 & NEAR). unfold mbalance. rewrite CH.
  destruct Us as [|U r].
  { exfalso. cbn [lk] in HLK. rewrite sums_length in HLK. destruct dr; lia. }
  destruct p as [|[pk pi] q]; [contradiction|].
  set (Us0 := U :: r) in *.
  assert (SW : slot_wt U pk pi = nth k (sums L) 0).
  { unfold Us0 in *. cbn [lk pvalid] in *. destruct HLK as (HW & _). destruct HP as (V & F & _). rewrite slot_wt_nth, HW, F by assumption. reflexivity. }
  rewrite SW.
  assert (NST : nearest (sums L) dr k j).
  { split; [rewrite sums_length; exact JL|]. split; [rewrite live_used by assumption; lia|].
    destruct dr; (split; [tauto|]); intros x X; apply live_used; [assumption|apply NEAR; lia|assumption|apply NEAR; lia]. }
  destruct (move_merge_spec Us0 (sums L) ((pk, pi) :: q) k j dr (nth k (sums L) 0) HLK HP (le_n _) NST) as (Us' & M1 & M2 & M3).
  rewrite M1.
  pose proof (item_move_spec L k j dr (used L k) KL JL (le_n _)) as IM. cbv zeta in IM.
  destruct IM as (I1 & I2 & I3 & I4 & I5 & I6 & I7 & _).
  { destruct dr; tauto. }
  { intros x X. destruct dr; apply NEAR; lia. }
  eexists _, Us'. split; [reflexivity|].
  assert (WM : sum_wt match dr with Next => skipn (used L k - used L k) (nd L k) | Prev => firstn (used L k) (nd L k) end = nth k (sums L) 0).
  { rewrite sums_nth. destruct dr; [rewrite Nat.sub_diag; reflexivity|]. unfold used. rewrite firstn_all. reflexivity. }
  assert (I3' : sums (item_move L k j dr (used L k)) = mv k j (nth k (sums L) 0) (sums L)) by (rewrite <- WM; exact I3).
  split; [exact I1|]. split; [exact I2|]. split; [rewrite I3'; exact M2|]. split; [exact M3|].
  split; [|split].
  - intros x. destruct (Nat.eq_dec x k) as [->|NK]; [rewrite I5; lia|].
    destruct (Nat.eq_dec x j) as [->|NJ]; [rewrite I6; unfold ITEM_COUNT; lia|]. unfold used. rewrite I7 by assumption. apply HCP.
  - rewrite I5. lia.
  - intros x X. destruct (Nat.eq_dec x j) as [->|NJ]; [rewrite I6; lia|]. unfold used. rewrite I7 by assumption. reflexivity.
Qed.

(* ---------- removing the empty children of one node ---------- *)

Definition nz (s : slot) : bool := negb (is_null s).
Definition zc (U : level) (k lo len : nat) : nat := length (filter (fun b => Nat.eqb (slot_wt U k b) 0) (seq lo len)).

Lemma null_wt s : is_cnt s -> is_null s = Nat.eqb (wt s) 0.
Proof. destruct s as [o|n]; cbn; [contradiction|]. intros _. destruct n; reflexivity. Qed.

Lemma sum_wt_cons s n : sum_wt (s :: n) = wt s + sum_wt n.
Proof. reflexivity. Qed.

Lemma filter_nz_wts n : Forall is_cnt n -> map wt (filter nz n) = filter (fun w => negb (Nat.eqb w 0)) (map wt n) /\ sum_wt (filter nz n) = sum_wt n /\ Forall is_cnt (filter nz n).
Proof.
  induction n as [|s n IH]; intros H; [repeat split; constructor|]. inversion H as [|s0 n0 HS HN]; subst s0 n0.
  destruct (IH HN) as (I1 & I2 & I3). cbn [filter map].
  assert (NZ : nz s = negb (Nat.eqb (wt s) 0)) by (unfold nz; rewrite (null_wt s HS); reflexivity). rewrite NZ.
  destruct (Nat.eqb_spec (wt s) 0) as [E|E]; cbn [negb].
  - split; [exact I1|]. split; [rewrite sum_wt_cons; lia|exact I3].
  - split; [cbn [map]; f_equal; exact I1|]. split; [rewrite !sum_wt_cons; lia|constructor; assumption].
Qed.

Lemma filter_live_sums (Ls : level) : Forall (fun s => wt s <> 0) (concat Ls) ->
  sums (filter (fun x => negb (is_empty x)) Ls) = filter (fun w => negb (Nat.eqb w 0)) (sums Ls) /\ concat (filter (fun x => negb (is_empty x)) Ls) = concat Ls.
Proof.
  induction Ls as [|n Ls IH]; intros H; [split; reflexivity|]. cbn [concat] in H. apply Forall_app in H. destruct H as [HN HL].
  destruct (IH HL) as (I1 & I2). cbn [filter sums map]. destruct n as [|s n].
  - cbn. split; assumption.
  - assert (NZ : sum_wt (s :: n) <> 0) by (rewrite (live_zero _ HN); discriminate).
    cbn [is_empty negb]. destruct (Nat.eqb_spec (sum_wt (s :: n)) 0) as [E|E]; [contradiction|]. cbn [negb map concat].
    split; [f_equal; exact I1|f_equal; exact I2].
Qed.

Lemma nulls_seq (n : node) : Forall is_cnt n -> forall (f : nat -> nat) (o : nat), (forall b s, nth_error n b = Some s -> f (o + b) = wt s) ->
  length (filter is_null n) = length (filter (fun b => Nat.eqb (f b) 0) (seq o (length n))).
Proof.
  induction n as [|s n IH]; intros H f o HF; [reflexivity|]. inversion H as [|s0 n0 HS HN]; subst s0 n0.
  cbn [filter length seq]. pose proof (HF 0 s eq_refl) as H0. rewrite Nat.add_0_r in H0. rewrite H0, (null_wt s HS).
  assert (R : length (filter is_null n) = length (filter (fun b => Nat.eqb (f b) 0) (seq (S o) (length n)))).
  { apply IH; [assumption|]. intros b s' E. rewrite <- (HF (S b) s' E). f_equal. lia. }
  destruct (Nat.eqb (wt s) 0); cbn [length]; rewrite R; reflexivity.
Qed.

Lemma zc_nulls U k : Forall is_cnt (concat U) -> zc U k 0 (used U k) = length (filter is_null (nd U k)).
Proof.
  intros H. symmetry. unfold zc, used. apply (nulls_seq (nd U k) (cnts_node U k H) (slot_wt U k) 0).
  intros b s E. unfold slot_wt. cbn [Nat.add]. rewrite E. reflexivity.
Qed.

Lemma filter_split_len {A} (f : A -> bool) l : length (filter f l) + length (filter (fun x => negb (f x)) l) = length l.
Proof. induction l as [|x l IH]; [reflexivity|]. cbn [filter]. destruct (f x); cbn [negb length]; lia. Qed.

Lemma filter_all_true {A} (f : A -> bool) l : length (filter (fun x => negb (f x)) l) = 0 -> filter f l = l.
Proof.
  induction l as [|x l IH]; [reflexivity|]. cbn [filter]. destruct (f x); cbn [negb length]; [|lia].
  intros H. f_equal. apply IH. exact H.
Qed.

Lemma remove_null_spec n start cu : length (filter is_null n) = cu -> length (filter is_null (firstn start n)) = 0 -> start <= length n ->
  remove_null n start cu = Some (filter nz n).
Proof.
  intros H1 H2 H3. unfold remove_null. change (fun s => negb (is_null s)) with nz.
  assert (SPL : filter nz n = firstn start n ++ filter nz (skipn start n)).
  { rewrite <- (firstn_skipn start n) at 1. rewrite filter_app. f_equal. apply filter_all_true. unfold nz.
    rewrite <- H2. f_equal. apply filter_ext. intros s. rewrite negb_involutive. reflexivity. }
  pose proof (filter_split_len is_null n) as LS. change (fun x => negb (is_null x)) with nz in LS.
  assert (N2 : length (filter is_null (skipn start n)) = cu).
  { rewrite <- H1. rewrite <- (firstn_skipn start n) at 2. rewrite filter_app, app_length, H2. reflexivity. }
  destruct (Nat.ltb_spec cu (length n)) as [G|G].
  - pose proof (filter_split_len is_null (skipn start n)) as LS2. change (fun x => negb (is_null x)) with nz in LS2.
    destruct (Nat.eqb_spec (length (skipn start n) - length (filter nz (skipn start n))) cu) as [E|E]; [rewrite SPL; reflexivity|lia].
  - destruct (Nat.eqb_spec cu (length n)) as [E|E]; [|lia].
    destruct (filter nz n) as [|x l]; [reflexivity|]. cbn [length] in LS. lia.
Qed.

Lemma capped_forall L : capped L <-> Forall (fun n => length n <= ITEM_COUNT) L.
Proof.
  split.
  - intros H. apply Forall_forall. intros n HN. apply In_nth with (d := []) in HN. destruct HN as (k & _ & E). rewrite <- E. apply H.
  - intros H k. unfold used, nd. destruct (Nat.ltb_spec k (length L)) as [K|K].
    + rewrite Forall_forall in H. apply H. apply nth_In. exact K.
    + rewrite nth_overflow by assumption. cbn. lia.
Qed.

Lemma app_inj_len {A} (a b c d : list A) : length a = length c -> a ++ b = c ++ d -> a = c /\ b = d.
Proof. intros H E. revert c H E. induction a as [|x a IH]; intros [|y c] H E; cbn in *; try discriminate; [auto|]. injection E as -> E. destruct (IH c) as [-> ->]; auto. Qed.

Lemma flat_set_after U k m x y : k < x -> k < length U -> flat (set_nd U k m) x y + used U k = flat U x y + length m.
Proof.
  intros X K. destruct (level_at U k K) as (A & n & B & E & LA & N). unfold used. rewrite N. subst U k. rewrite set_nd_app.
  unfold flat. rewrite !firstn_app, !(firstn_all2 A) by lia. replace (x - length A) with (S (x - length A - 1)) by lia.
  cbn [firstn]. rewrite !concat_app. cbn [concat]. rewrite !app_length. lia.
Qed.
Lemma flat_set_before U k m x y : x <= k -> flat (set_nd U k m) x y = flat U x y.
Proof.
  intros X. unfold flat. f_equal. f_equal. f_equal. unfold set_nd. revert x X. revert U.
  induction k as [|k IH]; intros U x X; [assert (x = 0) by lia; subst; reflexivity|].
  destruct x as [|x]; [reflexivity|]. destruct U as [|n U]; [reflexivity|]. cbn [upd_nth firstn]. f_equal. apply IH. lia.
Qed.

(* the part of level L below node k of U *)
Lemma kids L U R k : lk (sums L) (U :: R) -> k < length U -> exists A n B LA LN LB,
  U = A ++ n :: B /\ length A = k /\ nd U k = n /\ L = LA ++ LN ++ LB /\ length LA = length (concat A) /\ length LN = length n /\
  map wt (concat A) = sums LA /\ map wt n = sums LN /\ map wt (concat B) = sums LB.
Proof.
  intros (HW & _ & _) K. destruct (level_at U k K) as (A & n & B & E & LA & N).
  set (a := length (concat A)). set (u := length n).
  assert (LL : length L = a + u + length (concat B)).
  { rewrite <- (sums_length L), <- HW, map_length, E, concat_app. cbn [concat]. rewrite !app_length. unfold a, u. lia. }
  exists A, n, B, (firstn a L), (firstn u (skipn a L)), (skipn u (skipn a L)).
  assert (ES : L = firstn a L ++ firstn u (skipn a L) ++ skipn u (skipn a L)).
  { rewrite (firstn_skipn u), (firstn_skipn a). reflexivity. }
  assert (L1 : length (firstn a L) = a) by (rewrite firstn_length; lia).
  assert (L2 : length (firstn u (skipn a L)) = u) by (rewrite firstn_length, skipn_length; lia).
  split; [exact E|]. split; [exact LA|]. split; [exact N|]. split; [exact ES|]. split; [exact L1|]. split; [exact L2|].
  assert (HW' : map wt (concat A) ++ map wt n ++ map wt (concat B) = sums (firstn a L) ++ sums (firstn u (skipn a L)) ++ sums (skipn u (skipn a L))).
  { rewrite <- !sums_app, <- ES, <- HW, E, concat_app. cbn [concat]. rewrite !map_app. reflexivity. }
  apply app_inj_len in HW'; [|rewrite map_length, sums_length, L1; reflexivity]. destruct HW' as [W1 HW'].
  apply app_inj_len in HW'; [|rewrite map_length, sums_length, L2; reflexivity]. destruct HW' as [W2 W3]. auto.
Qed.

Lemma kids_spec L U R k start cu : lk (sums L) (U :: R) -> live L -> capped L -> capped U -> k < length U ->
  zc U k 0 (used U k) = cu -> zc U k 0 start = 0 -> start <= used U k ->
  exists L2 m, remove_null_kids L U k start cu = Some (L2, set_nd U k m) /\ concat L2 = concat L /\ capped L2 /\
    lk (sums L2) (set_nd U k m :: R) /\ length m + cu = used U k /\ Forall (fun s => wt s <> 0) m /\ capped (set_nd U k m).
Proof.
  intros HLK HLV HCL HCU KL HZ HS HST. pose proof HLK as (HW & HC & HL).
  destruct (kids L U R k HLK KL) as (A & n & B & LA & LN & LB & EU & EA & EN & EL & E1 & E2 & W1 & W2 & W3).
  assert (CN : Forall is_cnt n) by (rewrite <- EN; apply cnts_node; assumption).
  assert (RN : remove_null (nd U k) start cu = Some (filter nz (nd U k))).
  { apply remove_null_spec; [rewrite <- zc_nulls by assumption; exact HZ| |exact HST].
    assert (CF : Forall is_cnt (firstn start (nd U k))).
    { pose proof (cnts_node U k HC) as Q. rewrite <- (firstn_skipn start (nd U k)) in Q. apply Forall_app in Q. tauto. }
    rewrite (nulls_seq (firstn start (nd U k)) CF (slot_wt U k) 0).
    - rewrite firstn_length, Nat.min_l by exact HST. exact HS.
    - intros b s E. unfold slot_wt. cbn [Nat.add].
      assert (b < length (firstn start (nd U k))) by (apply nth_error_Some; rewrite E; discriminate).
      rewrite firstn_length in H. rewrite nth_error_firstn in E by lia. rewrite E. reflexivity. }
  destruct (filter_nz_wts n CN) as (F1 & F2 & F3).
  assert (LVN : Forall (fun s => wt s <> 0) (concat LA) /\ Forall (fun s => wt s <> 0) (concat LN) /\ Forall (fun s => wt s <> 0) (concat LB)).
  { unfold live in HLV. rewrite EL, !concat_app in HLV. rewrite !Forall_app in HLV. tauto. }
  destruct (filter_live_sums LN) as (G1 & G2); [tauto|].
  unfold remove_null_kids. rewrite RN. rewrite EN.
  assert (FL : flat U k 0 = length LA) by (rewrite EU, <- EA, flat_app, E1; lia).
  assert (UK : used U k = length LN) by (unfold used; rewrite EN, E2; reflexivity).
  rewrite FL, UK.
  replace (firstn (length LA) L) with LA by (rewrite EL, firstn_app, firstn_all, Nat.sub_diag; cbn [firstn]; rewrite app_nil_r; reflexivity).
  replace (skipn (length LA) L) with (LN ++ LB) by (rewrite EL, skipn_app, skipn_all, Nat.sub_diag; reflexivity).
  replace (skipn (length LA + length LN) L) with LB
    by (rewrite EL, <- skipn_add, skipn_app, skipn_all, Nat.sub_diag; cbn [app skipn]; rewrite skipn_app, skipn_all, Nat.sub_diag; reflexivity).
  replace (firstn (length LN) (LN ++ LB)) with LN by (rewrite firstn_app, firstn_all, Nat.sub_diag; cbn [firstn]; rewrite app_nil_r; reflexivity).
  eexists _, (filter nz n). split; [reflexivity|].
  assert (SET : set_nd U k (filter nz n) = A ++ filter nz n :: B) by (rewrite EU, <- EA; apply set_nd_app).
  split; [rewrite EL, !concat_app, G2; reflexivity|].
  split.
  { rewrite capped_forall in *. rewrite EL in HCL. rewrite !Forall_app in *. destruct HCL as (C1 & C2 & C3). split; [exact C1|]. split; [|exact C3].
    apply Forall_forall. intros x X. apply filter_In in X. rewrite Forall_forall in C2. apply C2. tauto. }
  split.
  { cbn [lk]. rewrite SET. split; [|split].
    - rewrite concat_app. cbn [concat]. rewrite !map_app, !sums_app, G1, F1, W1, W2, W3. reflexivity.
    - rewrite EU in HC. rewrite concat_app in *. cbn [concat] in *. rewrite !Forall_app in *. tauto.
    - assert (SS : sums (A ++ filter nz n :: B) = sums U) by (rewrite EU; unfold sums; rewrite !map_app; cbn [map]; rewrite F2; reflexivity).
      rewrite SS. exact HL. }
  split.
  { rewrite <- HZ, zc_nulls by assumption. rewrite EN. pose proof (filter_split_len is_null n) as LS.
    change (fun x => negb (is_null x)) with nz in LS. lia. }
  split.
  { apply Forall_forall. intros s S0. apply filter_In in S0. destruct S0 as [S1 S2]. unfold nz in S2.
    rewrite Forall_forall in CN. rewrite (null_wt s (CN s S1)) in S2. destruct (Nat.eqb_spec (wt s) 0); [discriminate|assumption]. }
  rewrite capped_forall in *. rewrite SET. rewrite EU in HCU. rewrite Forall_app in *. destruct HCU as [C1 C2]. inversion C2; subst.
  split; [exact C1|]. constructor; [|assumption]. pose proof (filter_split_len is_null n) as LS. change (fun x => negb (is_null x)) with nz in LS. lia.
Qed.
