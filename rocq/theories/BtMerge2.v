(* The merge loops *)
From Verif Require Import Base UtilModel BtModel BtSpec BtOrder BtLevel BtFind BtSplit BtMerge.
Local Open Scope nat_scope.

(* the body of the second loop for one child *)
Definition visit (L U : level) (Us : list level) (k i : nat) (up : path) (cu : nat) : option (level * list level * nat) :=
  if Nat.eqb (used L (flat U k i)) 0 then Some (L, Us, S cu)
  else if mergeable L (flat U k i) then
    match mbalance L Us (flat U k i) up with
    | Some (L1, U1 :: Us1) => if Nat.eqb (slot_wt U1 k i) 0 then Some (L1, U1 :: Us1, S cu) else None
    | _ => None
    end
  else Some (L, Us, cu).

Definition flush (fw : bool) (L U : level) (Us : list level) (k si cu : nat) : option (level * list level) :=
  if Nat.ltb 0 cu then
    match remove_null_kids L U k (if fw then si else 0) cu with
    | Some (L2, U2) => Some (L2, U2 :: Us)
    | None => None
    end
  else Some (L, U :: Us).

Lemma merge_loop_eq n fw L U R k i q sk si cu pc :
  merge_loop (S n) fw L (U :: R) ((k, i) :: q) sk si cu pc =
  match visit L U (U :: R) k i ((k, i) :: q) cu with
  | Some (L1, U1 :: Us1, cu1) =>
      match n with
      | O => match flush fw L1 U1 Us1 sk si cu1 with
             | Some (L2, Us2) => Some (L2, Us2, if Nat.ltb 0 cu1 then S pc else pc)
             | None => None
             end
      | _ => match (if fw then incr_path (U1 :: Us1) ((k, i) :: q) else decr_path (U1 :: Us1) ((k, i) :: q)) with
             | Some ((k', i') :: up') =>
                 if Nat.eqb sk k' then merge_loop n fw L1 (U1 :: Us1) ((k', i') :: up') sk si cu1 pc
                 else match flush fw L1 U1 Us1 sk si cu1 with
                      | Some (L2, Us2) => merge_loop n fw L2 Us2 ((k', i') :: up') k' i' 0 (S pc)
                      | None => None
                      end
             | _ => None
             end
      end
  | _ => None
  end.
Proof. reflexivity. Qed.

Lemma slot_child L U R a b : lk (sums L) (U :: R) -> live L -> b < used U a -> (slot_wt U a b = 0 <-> used L (flat U a b) = 0).
Proof.
  intros (HW & _) HLV B. rewrite slot_wt_nth, HW by assumption. apply live_used. exact HLV.
Qed.

Lemma visit_spec L U R k i q cu : lk (sums L) (U :: R) -> live L -> capped L -> pvalid (U :: R) ((k, i) :: q) (flat U k i) ->
  exists L1 U1 R1, visit L U (U :: R) k i ((k, i) :: q) cu = Some (L1, U1 :: R1, if Nat.eqb (slot_wt U1 k i) 0 then S cu else cu) /\
    concat L1 = concat L /\ lk (sums L1) (U1 :: R1) /\ shape U1 = shape U /\ shapes R1 = shapes R /\ capped L1 /\
    (forall a b, b < used U a -> (a <> k \/ b <> i) -> (slot_wt U1 a b = 0 <-> slot_wt U a b = 0)) .
Proof.
  intros HLK HLV HCP HP. unfold visit. pose proof HP as (V & _ & _).
  pose proof (slot_child L U R k i HLK HLV V) as SC.
  assert (CL : flat U k i < length L) by (rewrite <- sums_length; eapply pvalid_lt; eauto).
  destruct (Nat.eqb_spec (used L (flat U k i)) 0) as [E|E].
  - exists L, U, R. rewrite (proj2 SC E). cbn [Nat.eqb]. repeat match goal with |- _ /\ _ => split end; auto; try tauto.
  - destruct (mergeable L (flat U k i)) eqn:EM.
    + destruct (mbalance_spec L (U :: R) (flat U k i) ((k, i) :: q) HLV CL EM ltac:(lia) HCP HLK HP)
        as (L1 & Us1 & M1 & M2 & M3 & M4 & M5 & M6 & M7 & M8).
      rewrite M1. destruct Us1 as [|U1 R1]; [discriminate|].
      assert (SU : shape U1 = shape U) by (unfold shapes in M5; cbn [map] in M5; injection M5 as X Y; exact X).
      assert (SR : shapes R1 = shapes R) by (unfold shapes in *; cbn [map] in M5; injection M5 as X Y; exact Y).
      assert (LV1 : live L1) by (unfold live; rewrite M2; exact HLV).
      assert (SC1 : forall a b, b < used U a -> (slot_wt U1 a b = 0 <-> used L1 (flat U a b) = 0)).
      { intros a b B. rewrite <- (shape_flat _ _ SU). apply (slot_child L1 U1 R1); auto. rewrite (shape_used _ _ SU). exact B. }
      rewrite (proj2 (SC1 k i V) M7). cbn [Nat.eqb]. exists L1, U1, R1. rewrite (proj2 (SC1 k i V) M7). cbn [Nat.eqb].
      repeat match goal with |- _ /\ _ => split end; auto.
      intros a b B NE. rewrite SC1 by assumption. rewrite (slot_child L U R a b HLK HLV B). apply M8.
      intros EQ. destruct (flat_inj U a b k i B V EQ). tauto.
    + exists L, U, R. destruct (Nat.eqb_spec (slot_wt U k i) 0) as [Z|Z]; [tauto|].
      repeat match goal with |- _ /\ _ => split end; auto; try tauto.
Qed.

Lemma flush_spec (fw : bool) L U R k si cu : lk (sums L) (U :: R) -> live L -> capped L -> capped U -> k < length U ->
  zc U k 0 (used U k) = cu -> (if fw then zc U k 0 si = 0 /\ si <= used U k else True) ->
  exists L2 m, flush fw L U R k si cu = Some (L2, set_nd U k m :: R) /\ concat L2 = concat L /\ capped L2 /\
    lk (sums L2) (set_nd U k m :: R) /\ length m + cu = used U k /\ Forall (fun s => wt s <> 0) m /\ capped (set_nd U k m).
Proof.
  intros HLK HLV HCL HCU KL HZ HS. unfold flush. destruct (Nat.ltb_spec 0 cu) as [G|G].
  - destruct (kids_spec L U R k (if fw then si else 0) cu HLK HLV HCL HCU KL HZ) as (L2 & m & K1 & K).
    + destruct fw; [tauto|reflexivity].
    + destruct fw; [tauto|lia].
    + rewrite K1. exists L2, m. auto.
  - exists L, (nd U k). rewrite set_nd_same. split; [reflexivity|]. split; [reflexivity|]. split; [exact HCL|]. split; [exact HLK|].
    split; [unfold used in *; lia|]. split; [|exact HCU].
    apply Forall_forall. intros s HS1. apply In_nth_error in HS1. destruct HS1 as [b HB].
    assert (BU : b < used U k) by (unfold used; apply nth_error_Some; rewrite HB; discriminate).
    intros WZ. assert (C0 : cu = 0) by lia. rewrite C0 in HZ. unfold zc in HZ.
    apply length_zero_iff_nil in HZ.
    assert (IN : In b (filter (fun b => Nat.eqb (slot_wt U k b) 0) (seq 0 (used U k)))).
    { apply filter_In. split; [apply in_seq; lia|]. unfold slot_wt. rewrite HB, WZ. reflexivity. }
    rewrite HZ in IN. exact IN.
Qed.

Definition todo (fw : bool) (x c n : nat) : Prop := if fw then c <= x < c + n else x <= c < x + n.

Lemma zc_S U k lo len : zc U k lo (S len) = zc U k lo len + (if Nat.eqb (slot_wt U k (lo + len)) 0 then 1 else 0).
Proof.
  unfold zc. rewrite seq_S, filter_app, app_length. cbn [filter length]. destruct (Nat.eqb (slot_wt U k (lo + len)) 0); reflexivity.
Qed.
Lemma zc_cons U k lo len : zc U k lo (S len) = (if Nat.eqb (slot_wt U k lo) 0 then 1 else 0) + zc U k (S lo) len.
Proof. unfold zc. cbn [seq filter]. destruct (Nat.eqb (slot_wt U k lo) 0); reflexivity. Qed.
Lemma zc_ext U U' k lo len : (forall b, lo <= b < lo + len -> (slot_wt U' k b = 0 <-> slot_wt U k b = 0)) -> zc U' k lo len = zc U k lo len.
Proof.
  intros H. unfold zc. f_equal. apply filter_ext_in. intros b B. apply in_seq in B. specialize (H b B).
  destruct (Nat.eqb_spec (slot_wt U' k b) 0), (Nat.eqb_spec (slot_wt U k b) 0); tauto.
Qed.
Lemma zc_none U k lo len : (forall b, lo <= b < lo + len -> slot_wt U k b <> 0) -> zc U k lo len = 0.
Proof.
  intros H. unfold zc. destruct (filter (fun b => Nat.eqb (slot_wt U k b) 0) (seq lo len)) as [|x l] eqn:E; [reflexivity|].
  assert (IN : In x (x :: l)) by (left; reflexivity). rewrite <- E in IN. apply filter_In in IN. destruct IN as [I1 I2].
  apply in_seq in I1. apply Nat.eqb_eq in I2. exfalso. apply (H x); assumption.
Qed.
Lemma zc_app U k lo a b : zc U k lo (a + b) = zc U k lo a + zc U k (lo + a) b.
Proof. unfold zc. rewrite seq_app, filter_app, app_length. reflexivity. Qed.

Lemma no_zero_nonempty L U R : lk (sums L) (U :: R) -> live L -> (forall a b, b < used U a -> slot_wt U a b <> 0) -> nonempty L.
Proof.
  intros HLK HLV HZ x X. destruct HLK as (HW & HC & HL).
  rewrite <- (sums_length L), <- HW, map_length in X. destruct (flat_surj U x X) as (a & b & B & F).
  specialize (HZ a b B). rewrite (slot_child L U R a b ltac:(cbn; auto) HLV B), F in HZ. lia.
Qed.

Lemma slot_set_other U k m a b : a <> k -> slot_wt (set_nd U k m) a b = slot_wt U a b.
Proof. intros H. unfold slot_wt. rewrite nd_set_other by congruence. reflexivity. Qed.
Lemma used_set_other U k m a : a <> k -> used (set_nd U k m) a = used U a.
Proof. intros H. unfold used. rewrite nd_set_other by congruence. reflexivity. Qed.
Lemma used_set_same U k m : k < length U -> used (set_nd U k m) k = length m.
Proof. intros H. unfold used. rewrite nd_set_same by assumption. reflexivity. Qed.
Lemma slot_set_same U k m b : k < length U -> Forall (fun s => wt s <> 0) m -> b < length m -> slot_wt (set_nd U k m) k b <> 0.
Proof.
  intros K F B. unfold slot_wt. rewrite nd_set_same by assumption. destruct (nth_error m b) as [s|] eqn:E.
  - rewrite Forall_forall in F. apply F. eapply nth_error_In; eauto.
  - apply nth_error_None in E. lia.
Qed.

Definition loop_post (fw : bool) (L U : level) (R : list level) (k0 : nat) (L' U' : level) (R' : list level) (pc' : nat) : Prop :=
  concat L' = concat L /\ lk (sums L') (U' :: R') /\ nonempty L' /\ capped L' /\ capped U' /\ shapes R' = shapes R /\ length U' = length U /\
  (forall x, x < length U -> used U' x = 0 -> todo fw x k0 pc') /\ (if fw then k0 + pc' <= length U else pc' <= S k0).


(* the children still to be visited after the one at c *)
Definition rest (fw : bool) (x c n : nat) : Prop := if fw then c < x <= c + n else x < c <= x + n.

Lemma after_visit (fw : bool) L U R k i q si cu n :
  lk (sums L) (U :: R) -> live L -> capped L -> capped U -> Forall nonempty R ->
  pvalid (U :: R) ((k, i) :: q) (flat U k i) ->
  (forall a b, b < used U a -> slot_wt U a b = 0 ->
     (a = k /\ if fw then si <= b < i else i < b) \/ todo fw (flat U a b) (flat U k i) (S n)) ->
  cu = (if fw then zc U k 0 i else zc U k (S i) (used U k - S i)) -> (fw = true -> si <= i) ->
  exists L1 U1 R1 cu1, visit L U (U :: R) k i ((k, i) :: q) cu = Some (L1, U1 :: R1, cu1) /\
    concat L1 = concat L /\ lk (sums L1) (U1 :: R1) /\ live L1 /\ capped L1 /\ capped U1 /\ shape U1 = shape U /\ shapes R1 = shapes R /\ Forall nonempty R1 /\
    (forall a b, b < used U a -> slot_wt U1 a b = 0 ->
       (a = k /\ if fw then si <= b <= i else i <= b) \/ rest fw (flat U a b) (flat U k i) n) /\
    cu1 = (if fw then zc U1 k 0 (S i) else zc U1 k i (used U k - i)).
Proof.
  intros HLK HLV HCL HCU HNR HP HZ HCUN HSI.
  destruct (visit_spec L U R k i q cu HLK HLV HCL HP) as (L1 & U1 & R1 & V1 & V2 & V3 & V4 & V5 & V6 & V7).
  pose proof HP as (PV & _ & _).
  exists L1, U1, R1, (if Nat.eqb (slot_wt U1 k i) 0 then S cu else cu). split; [exact V1|]. split; [exact V2|]. split; [exact V3|].
  split; [unfold live; rewrite V2; exact HLV|]. split; [exact V6|].
  split; [intros x; rewrite (shape_used _ _ V4); apply HCU|]. split; [exact V4|]. split; [exact V5|].
  split; [eapply shapes_nonempty; [symmetry; exact V5|exact HNR]|]. split.
  - intros a b B ZB.
    assert (NEQ : (a <> k \/ b <> i) \/ (a = k /\ b = i)) by (destruct (Nat.eq_dec a k), (Nat.eq_dec b i); tauto).
    destruct NEQ as [NEQ|[-> ->]].
    + rewrite V7 in ZB by assumption. destruct (HZ a b B ZB) as [[-> C]|C].
      * left. split; [reflexivity|]. destruct fw; lia.
      * right. assert (flat U a b <> flat U k i) by (intros EQ; destruct (flat_inj U a b k i B PV EQ); lia).
        unfold todo in C. unfold rest. destruct fw; lia.
    + left. split; [reflexivity|]. destruct fw; [specialize (HSI eq_refl)|]; lia.
  - destruct fw.
    + rewrite zc_S. cbn [Nat.add]. rewrite (zc_ext U U1 k 0 i), <- HCUN.
      * destruct (Nat.eqb (slot_wt U1 k i) 0); lia.
      * intros b B. apply V7; lia.
    + replace (used U k - i) with (S (used U k - S i)) by lia. rewrite zc_cons.
      rewrite (zc_ext U U1 k (S i) (used U k - S i)), <- HCUN.
      * destruct (Nat.eqb (slot_wt U1 k i) 0); lia.
      * intros b B. apply V7; lia.
Qed.

(* removing the empty children when node k is left or the loop ends *)
Lemma after_flush (fw : bool) L U R k i si cu n :
  lk (sums L) (U :: R) -> live L -> capped L -> capped U -> i < used U k -> (fw = true -> si <= i) ->
  (forall a b, b < used U a -> slot_wt U a b = 0 ->
       (a = k /\ if fw then si <= b <= i else i <= b) \/ rest fw (flat U a b) (flat U k i) n) ->
  cu = (if fw then zc U k 0 (S i) else zc U k i (used U k - i)) ->
  (n = 0 \/ if fw then S i = used U k else i = 0) ->
  exists L2 m, flush fw L U R k si cu = Some (L2, set_nd U k m :: R) /\ concat L2 = concat L /\ capped L2 /\
    lk (sums L2) (set_nd U k m :: R) /\ length m + cu = used U k /\ capped (set_nd U k m) /\
    (forall a b, b < used (set_nd U k m) a -> slot_wt (set_nd U k m) a b = 0 -> a <> k /\ b < used U a /\ slot_wt U a b = 0 /\ rest fw (flat U a b) (flat U k i) n).
Proof.
  intros HLK HLV HCL HCU PV HSI HZ HCUN HEND. pose proof (used_lt _ _ _ PV) as KL.
  destruct (flush_spec fw L U R k si cu HLK HLV HCL HCU KL) as (L2 & m & F1 & F2 & F3 & F4 & F5 & F6 & F7).
  - destruct fw.
    + replace (used U k) with (S i + (used U k - S i)) by lia. rewrite zc_app, <- HCUN, zc_none; [lia|].
      intros b B Z. destruct (HZ k b ltac:(lia) Z) as [[_ C]|C]; [lia|].
      unfold rest in C. destruct HEND as [->|HEND]; [unfold flat in C; lia|lia].
    + replace (used U k) with (i + (used U k - i)) by lia. rewrite zc_app, zc_none; [cbn [Nat.add]; lia|].
      intros b B Z. destruct (HZ k b ltac:(lia) Z) as [[_ C]|C]; [lia|].
      unfold rest in C. destruct HEND as [->|HEND]; [unfold flat in C; lia|lia].
  - destruct fw; [|exact Logic.I]. specialize (HSI eq_refl). split; [|lia]. apply zc_none. intros b B Z.
    destruct (HZ k b ltac:(lia) Z) as [[_ C]|C]; [lia|]. unfold rest, flat in C. lia.
  - exists L2, m. split; [exact F1|]. split; [exact F2|]. split; [exact F3|]. split; [exact F4|]. split; [exact F5|]. split; [exact F7|].
    intros a b B Z. destruct (Nat.eq_dec a k) as [->|NA].
    + rewrite used_set_same in B by assumption. exfalso. exact (slot_set_same U k m b KL F6 B Z).
    + split; [exact NA|]. rewrite used_set_other in B by assumption. rewrite slot_set_other in Z by assumption.
      split; [exact B|]. split; [exact Z|]. destruct (HZ a b B Z) as [[C _]|C]; [contradiction|exact C].
Qed.

Lemma flat_order_inv U a b k i : b < used U a -> i < used U k -> flat U k i < flat U a b -> a <> k -> k < a.
Proof. intros B PV H NE. destruct (Nat.lt_trichotomy a k) as [G|[G|G]]; [|congruence|exact G]. pose proof (flat_order U a b k i B G). lia. Qed.

Lemma merge_loop_spec (fw : bool) k0 n : forall L U R k i q si cu pc,
  lk (sums L) (U :: R) -> live L -> capped L -> capped U -> Forall nonempty R ->
  pvalid (U :: R) ((k, i) :: q) (flat U k i) ->
  (forall a b, b < used U a -> slot_wt U a b = 0 ->
     (a = k /\ if fw then si <= b < i else i < b) \/ todo fw (flat U a b) (flat U k i) (S n)) ->
  cu = (if fw then zc U k 0 i else zc U k (S i) (used U k - S i)) -> (fw = true -> si <= i) ->
  (if fw then k = k0 + pc else k + pc = k0) -> k0 < length U ->
  (forall x, x < length U -> used U x = 0 -> if fw then k0 <= x < k else k < x <= k0) ->
  (if fw then flat U k i + S n <= length (concat U) else n <= flat U k i) ->
  exists L' U' R' pc', merge_loop (S n) fw L (U :: R) ((k, i) :: q) k si cu pc = Some (L', U' :: R', pc') /\
    loop_post fw L U R k0 L' U' R' pc'.
Proof.
  induction n as [|n IH]; intros L U R k i q si cu pc HLK HLV HCL HCU HNR HP HZ HCUN HSI HPC HK0 HE HSP; rewrite merge_loop_eq;
    pose proof HP as (PV & _ & PQ); pose proof (used_lt _ _ _ PV) as KL.
  - destruct (after_visit fw L U R k i q si cu 0 HLK HLV HCL HCU HNR HP HZ HCUN HSI)
      as (L1 & U1 & R1 & cu1 & V1 & V2 & V3 & V4 & V5 & V6 & V7 & V8 & V9 & V10 & V11).
    rewrite V1. clear V1.
    assert (UE : forall x, used U1 x = used U x) by (apply shape_used; exact V7).
    assert (FE : forall x y, flat U1 x y = flat U x y) by (apply shape_flat; exact V7).
    assert (LE : length U1 = length U) by (apply shape_len; exact V7).
    destruct (after_flush fw L1 U1 R1 k i si cu1 0 V3 V4 V5 V6) as (L2 & m & F1 & F2 & F3 & F4 & F5 & F6 & F7); auto.
    { rewrite UE. exact PV. }
    { intros a b B. rewrite UE in B. rewrite !FE. auto. }
    { rewrite UE. exact V11. }
    rewrite F1. exists L2, (set_nd U1 k m), R1, (if Nat.ltb 0 cu1 then S pc else pc). split; [reflexivity|].
    assert (LV2 : live L2) by (unfold live; rewrite F2; exact V4).
    unfold loop_post. split; [congruence|]. split; [exact F4|]. split.
    { apply (no_zero_nonempty L2 (set_nd U1 k m) R1 F4 LV2). intros a b B Z. destruct (F7 a b B Z) as (_ & _ & _ & C). unfold rest in C. destruct fw; lia. }
    split; [exact F3|]. split; [exact F6|]. split; [exact V8|]. split; [rewrite set_nd_length; exact LE|]. split.
    + intros x X U0. destruct (Nat.eq_dec x k) as [->|NK].
      * rewrite used_set_same in U0 by lia. rewrite UE in F5. rewrite (proj2 (Nat.ltb_lt 0 cu1)) by lia. unfold todo. destruct fw; lia.
      * rewrite used_set_other, UE in U0 by assumption. specialize (HE x X U0). unfold todo. destruct (Nat.ltb 0 cu1), fw; lia.
    + destruct (Nat.ltb 0 cu1), fw; lia.
  - destruct (after_visit fw L U R k i q si cu (S n) HLK HLV HCL HCU HNR HP HZ HCUN HSI)
      as (L1 & U1 & R1 & cu1 & V1 & V2 & V3 & V4 & V5 & V6 & V7 & V8 & V9 & V10 & V11).
    rewrite V1. clear V1.
    assert (UE : forall x, used U1 x = used U x) by (apply shape_used; exact V7).
    assert (FE : forall x y, flat U1 x y = flat U x y) by (apply shape_flat; exact V7).
    assert (LE : length U1 = length U) by (apply shape_len; exact V7).
    assert (PV1 : i < used U1 k) by (rewrite UE; exact PV).
    assert (PQ1 : pvalid R1 q k) by (eapply pvalid_shapes; [symmetry; exact V8|exact PQ]).
    pose proof V3 as (HW1 & HC1 & HL1).
    (* the next position *)
    assert (STEP : exists k' i' q', (if fw then incr_path (U1 :: R1) ((k, i) :: q) else decr_path (U1 :: R1) ((k, i) :: q)) = Some ((k', i') :: q') /\
       i' < used U1 k' /\ pvalid R1 q' k' /\ (if fw then flat U1 k' i' = S (flat U1 k i) else S (flat U1 k' i') = flat U1 k i) /\
       ((k' = k /\ q' = q) \/ if fw then k' = S k /\ i' = 0 /\ S i = used U1 k else S k' = k /\ i = 0 /\ S i' = used U1 k')).
    { destruct fw; cbn [incr_path decr_path].
      - pose proof (incr_at_spec U1 k i PV1) as SP. destruct (incr_at U1 k i) as [[k'|] i'].
        + destruct SP as (S1 & S2 & S3).
          { intros G. rewrite UE. destruct (Nat.eq_dec (used U (S k)) 0) as [E0|E0]; [|lia]. specialize (HE (S k) ltac:(lia) E0). lia. }
          destruct (Nat.eqb_spec k k') as [<-|NE].
          * exists k, i', q. repeat match goal with |- _ /\ _ => split end; auto.
          * destruct S3 as [S3|S3]; [congruence|]. destruct S3 as (-> & -> & S3).
            destruct (incr_path_spec R1 (sums U1) q k HL1 PQ1) as (q' & Q1 & Q2); [rewrite sums_length; eapply used_lt; eauto|exact V9|].
            rewrite Q1. exists (S k), 0, q'. repeat match goal with |- _ /\ _ => split end; auto.
        + destruct SP as (_ & S2 & S3); [|rewrite FE, !shape_concat, V7, <- shape_concat in S2; lia].
          intros G. rewrite UE. destruct (Nat.eq_dec (used U (S k)) 0) as [E0|E0]; [|lia]. specialize (HE (S k) ltac:(lia) E0). lia.
      - pose proof (decr_at_spec U1 k i PV1) as SP. destruct (decr_at U1 k i) as [[k'|] i'].
        + destruct SP as (S1 & S2 & S3).
          { intros G. rewrite UE. destruct (Nat.eq_dec (used U (k - 1)) 0) as [E0|E0]; [|lia]. specialize (HE (k - 1) ltac:(lia) E0). lia. }
          destruct (Nat.eqb_spec k k') as [<-|NE].
          * exists k, i', q. repeat match goal with |- _ /\ _ => split end; auto.
          * destruct S3 as [S3|S3]; [congruence|]. destruct S3 as (<- & -> & S3).
            destruct (decr_path_spec R1 (sums U1) q k' HL1 PQ1 V9) as (q' & Q1 & Q2).
            rewrite Q1. exists k', i', q'. repeat match goal with |- _ /\ _ => split end; auto.
        + destruct SP as (_ & S2 & S3); [|rewrite FE in S2; lia].
          intros G. rewrite UE. destruct (Nat.eq_dec (used U (k - 1)) 0) as [E0|E0]; [|lia]. specialize (HE (k - 1) ltac:(lia) E0). lia. }
    destruct STEP as (k' & i' & q' & ST & S1 & S2 & S3 & S4). rewrite ST. clear ST.
    destruct (Nat.eqb_spec k k') as [<-|NK].
    + destruct (IH L1 U1 R1 k i' q' si cu1 pc V3 V4 V5 V6 V9) as (L' & U' & R' & pc' & M1 & M2); auto.
      * cbn [pvalid]. auto.
      * intros a b B Z. rewrite UE in B. destruct (V10 a b B Z) as [[-> C]|C]; rewrite FE.
        -- left. split; [reflexivity|]. destruct fw; unfold flat in S3; lia.
        -- right. rewrite !FE in S3. rewrite FE. unfold rest in C. unfold todo. destruct fw; lia.
      * rewrite V11. destruct fw; unfold flat in S3.
        -- f_equal. lia.
        -- rewrite UE. replace (S i') with i by lia. reflexivity.
      * destruct fw; [|discriminate]. intros _. specialize (HSI eq_refl). unfold flat in S3. lia.
      * rewrite LE. exact HK0.
      * intros x X U0. rewrite UE in U0. apply HE; [lia|exact U0].
      * rewrite !FE in S3. rewrite FE, shape_concat, V7, <- shape_concat. destruct fw; lia.
      * rewrite M1. exists L', U', R', pc'. split; [reflexivity|]. unfold loop_post in *. rewrite <- LE, <- V2, <- V8. exact M2.
    + assert (S4' : if fw then k' = S k /\ i' = 0 /\ S i = used U1 k else S k' = k /\ i = 0 /\ S i' = used U1 k') by (destruct S4 as [[E _]|S4]; [congruence|exact S4]).
      clear S4.
      destruct (after_flush fw L1 U1 R1 k i si cu1 (S n) V3 V4 V5 V6 PV1 HSI) as (L2 & m & F1 & F2 & F3 & F4 & F5 & F6 & F7).
      { intros a b B. rewrite UE in B. rewrite !FE. auto. }
      { rewrite UE. exact V11. }
      { right. destruct fw; tauto. }
      rewrite F1. set (U2 := set_nd U1 k m) in *.
      assert (K1 : k < length U1) by lia.
      assert (UK' : used U2 k' = used U1 k') by (apply used_set_other; congruence).
      assert (LV2 : live L2) by (unfold live; rewrite F2; exact V4).
      assert (FF : forall x y, if fw then k < x -> flat U2 x y + cu1 = flat U1 x y else x <= k -> flat U2 x y = flat U1 x y).
      { intros x y. destruct fw; intros X.
        - pose proof (flat_set_after U1 k m x y X K1). fold U2 in H. lia.
        - apply flat_set_before. exact X. }
      assert (LC2 : length (concat U2) + cu1 = length (concat U1)).
      { pose proof (flat_set_after U1 k m (length U1) 0 K1 K1) as FA. fold U2 in FA.
        rewrite flat_end in FA by (unfold U2; rewrite set_nd_length; lia). rewrite flat_end in FA by lia. lia. }
      destruct (IH L2 U2 R1 k' i' q' i' 0 (S pc) F4 LV2 F3 F6 V9) as (L' & U' & R' & pc' & M1 & M2).
      * cbn [pvalid]. rewrite UK'. auto.
      * intros a b B Z. destruct (F7 a b B Z) as (NA & B1 & ZB & C). right.
        unfold rest in C. unfold todo. destruct fw.
        -- pose proof (flat_order_inv U1 a b k i B1 PV1 ltac:(lia) NA) as G.
           pose proof (FF a b G) as X1. pose proof (FF k' i' ltac:(lia)) as X2. lia.
        -- assert (G : a < k).
           { destruct (Nat.lt_trichotomy a k) as [G|[G|G]]; [exact G|congruence|]. pose proof (flat_order U1 k i a b PV1 G). lia. }
           pose proof (FF a b ltac:(lia)) as X1. pose proof (FF k' i' ltac:(lia)) as X2. lia.
      * destruct fw; [destruct S4' as (_ & -> & _); reflexivity|]. rewrite UK'. replace (used U1 k' - S i') with 0 by lia. reflexivity.
      * intros _. lia.
      * destruct fw; lia.
      * unfold U2. rewrite set_nd_length, LE. exact HK0.
      * intros x X U0. unfold U2 in X. rewrite set_nd_length in X. destruct (Nat.eq_dec x k) as [->|NX].
        -- destruct fw; lia.
        -- unfold U2 in U0. rewrite used_set_other, UE in U0 by assumption. specialize (HE x ltac:(lia) U0). destruct fw; lia.
      * assert (LCU : length (concat U1) = length (concat U)) by (rewrite !shape_concat, V7; reflexivity).
        pose proof (FF k' i') as X2. rewrite !FE in S3. rewrite FE in X2. destruct fw.
        -- specialize (X2 ltac:(lia)). lia.
        -- specialize (X2 ltac:(lia)). lia.
      * rewrite M1. exists L', U', R', pc'. split; [reflexivity|]. unfold loop_post in *.
        assert (LU2 : length U2 = length U) by (unfold U2; rewrite set_nd_length; exact LE).
        rewrite LU2, F2, V2, V8 in M2. exact M2.
Qed.

(* ---------- the first loop, unlinking one node, and the whole merge ---------- *)

Lemma detach_loop_spec (fw : bool) n : forall L U R k i, lk (sums L) (U :: R) -> live L -> nonempty U -> i < used U k ->
  (if fw then flat U k i + n <= length (concat U) else n <= S (flat U k i)) -> detach_loop n fw L U k i = true.
Proof.
  induction n as [|n IH]; intros L U R k i HLK HLV HNE V HSP; [reflexivity|]. cbn [detach_loop].
  rewrite (proj2 (Nat.ltb_lt _ _)) by assumption. cbn [andb].
  assert (Z : (if Nat.eqb (used L (flat U k i)) 0 then Nat.eqb (slot_wt U k i) 0 else true) = true).
  { destruct (Nat.eqb_spec (used L (flat U k i)) 0) as [E|E]; [|reflexivity]. apply Nat.eqb_eq. apply (slot_child L U R k i HLK HLV V). exact E. }
  rewrite Z. cbn [andb]. destruct n as [|n]; [reflexivity|].
  destruct fw.
  - pose proof (incr_at_spec U k i V (HNE (S k))) as SP. destruct (incr_at U k i) as [[k'|] i'].
    + destruct SP as (S1 & S2 & _). apply (IH L U R); auto. lia.
    + destruct SP as (_ & S2 & _). lia.
  - pose proof (used_lt _ _ _ V) as KL.
    pose proof (decr_at_spec U k i V (fun g => HNE (k - 1) ltac:(lia))) as SP. destruct (decr_at U k i) as [[k'|] i'].
    + destruct SP as (S1 & S2 & _). apply (IH L U R); auto. lia.
    + destruct SP as (_ & S2 & _). lia.
Qed.

Lemma del_nth_app {A} (a : list A) x b : del_nth (length a) (a ++ x :: b) = a ++ b.
Proof.
  unfold del_nth. rewrite firstn_app, firstn_all, Nat.sub_diag. cbn [firstn]. rewrite app_nil_r. f_equal.
  rewrite skipn_app, (skipn_all2 a) by lia. replace (S (length a) - length a) with 1 by lia. reflexivity.
Qed.

Lemma node_unlink_spec (L U : level) R pk pi : lk (sums L) (U :: R) -> live L -> capped L -> capped U -> pi < used U pk -> used L (flat U pk pi) = 0 ->
  exists L1 m, node_unlink L U (flat U pk pi) pk pi = Some (L1, set_nd U pk m) /\ concat L1 = concat L /\ capped L1 /\ capped (set_nd U pk m) /\
    lk (sums L1) (set_nd U pk m :: R) /\ length L1 = length L - 1 /\ (forall x, used L1 x = 0 -> x < length L1 -> exists y, y <> flat U pk pi /\ y < length L /\ used L y = 0).
Proof.
  intros HLK HLV HCL HCU V HE. pose proof HLK as (HW & HC & HL). pose proof (used_lt _ _ _ V) as PL.
  unfold node_unlink. rewrite (proj2 (slot_child L U R pk pi HLK HLV V) HE). cbn [Nat.eqb].
  destruct (kids L U R pk HLK PL) as (A & n & B & LA & LN & LB & EU & EA & EN & EL & E1 & E2 & W1 & W2 & W3).
  assert (PN : pi < length n) by (unfold used in V; rewrite EN in V; exact V).
  destruct (list_at n pi PN) as (n1 & s & n2 & En & Ln1).
  destruct (list_at LN pi) as (M1 & x & M2 & Em & Lm1); [lia|].
  assert (FL : flat U pk pi = length (LA ++ M1)) by (rewrite EU, <- EA, flat_app, app_length; lia).
  assert (ELL : L = (LA ++ M1) ++ x :: (M2 ++ LB)) by (rewrite EL, Em, <- !app_assoc; reflexivity).
  assert (XE : x = []).
  { rewrite FL in HE. unfold used in HE. rewrite ELL, nd_app1 in HE. destruct x; [reflexivity|discriminate]. }
  assert (D1 : del_nth pi (nd U pk) = n1 ++ n2) by (rewrite EN, En, <- Ln1; apply del_nth_app).
  assert (D2 : del_nth (flat U pk pi) L = (LA ++ M1) ++ M2 ++ LB) by (rewrite FL, ELL; apply del_nth_app).
  rewrite D1, D2, FL.
  eexists _, (n1 ++ n2). split; [reflexivity|].
  assert (SET : set_nd U pk (n1 ++ n2) = A ++ (n1 ++ n2) :: B) by (rewrite EU, <- EA; apply set_nd_app).
  split; [rewrite ELL, XE, !concat_app; cbn [concat app]; rewrite ?concat_app; reflexivity|].
  split; [rewrite capped_forall in *; rewrite ELL in HCL; rewrite !Forall_app in *; destruct HCL as [[? ?] HX]; inversion HX as [|x0 r0 HX1 HX2]; subst x0 r0; rewrite Forall_app in HX2; tauto|].
  split.
  { rewrite capped_forall in *. rewrite SET. rewrite EU in HCU. rewrite !Forall_app in *. destruct HCU as [C1 C2]. inversion C2 as [|x0 r0 C3 C4]; subst x0 r0.
    split; [exact C1|]. constructor; [|assumption]. rewrite En in C3. rewrite !app_length in *. cbn [length] in C3. lia. }
  assert (WS : wt s = 0 /\ map wt n1 = sums M1 /\ map wt n2 = sums M2).
  { rewrite En, Em, map_app, sums_app in W2. cbn [map sums] in W2. apply app_inj_len in W2; [|rewrite map_length, sums_length; lia].
    destruct W2 as [X1 X2]. injection X2 as X2 X3. rewrite XE in X2. split; [exact X2|]. split; [exact X1|exact X3]. }
  destruct WS as (WS & WN1 & WN2).
  split.
  { cbn [lk]. rewrite SET. split; [|split].
    - rewrite concat_app. cbn [concat]. rewrite !map_app, !sums_app, W1, W3, WN1, WN2, <- !app_assoc. reflexivity.
    - rewrite EU, En in HC. rewrite concat_app in *. cbn [concat] in *. rewrite !Forall_app in *. destruct HC as (C1 & (C2 & C3) & C4).
      inversion C3; subst. tauto.
    - assert (SS : sums (A ++ (n1 ++ n2) :: B) = sums U).
      { rewrite EU, En. unfold sums. rewrite !map_app. cbn [map]. rewrite !sum_wt_app, sum_wt_cons, WS. reflexivity. }
      rewrite SS. exact HL. }
  split; [rewrite ELL, !app_length; cbn [length]; rewrite ?app_length; lia|].
  intros y Y0 YL. destruct (Nat.ltb_spec y (length (LA ++ M1))) as [G|G].
  - exists y. split; [lia|]. split; [rewrite ELL, app_length; lia|]. rewrite ELL. unfold used, nd in *.
    rewrite app_nth1 in Y0 by assumption. rewrite app_nth1 by assumption. exact Y0.
  - exists (S y). split; [lia|]. split; [rewrite ELL; rewrite app_length in *; cbn [length]; lia|]. rewrite ELL. unfold used, nd in *.
    rewrite app_nth2 in Y0 by assumption. rewrite app_nth2 by lia. replace (S y - length (LA ++ M1)) with (S (y - length (LA ++ M1))) by lia. exact Y0.
Qed.

(* what merging establishes *)
Definition merge_post (L : level) (Us : list level) (b : bool) (X : list level) : Prop :=
  exists L' Us', X = L' :: Us' /\ concat L' = concat L /\ lk (sums L') Us' /\ Forall capped X /\ length X = S (length Us) /\
    if b then Forall nonempty (removelast X) else Forall nonempty X.

Lemma live_all L U R : live L -> nonempty L -> lk (sums L) (U :: R) -> live U.
Proof.
  intros HLV HNE (HW & _). unfold live. apply Forall_forall. intros s HS Z. apply In_nth_error in HS. destruct HS as [i HI].
  assert (E : nth i (sums L) 0 = 0).
  { rewrite <- HW. apply nth_error_nth. rewrite nth_error_map, HI. cbn. rewrite Z. reflexivity. }
  assert (IL : i < length L).
  { rewrite <- (sums_length L), <- HW, map_length. apply nth_error_Some. rewrite HI. discriminate. }
  rewrite live_used in E by assumption. specialize (HNE i IL). lia.
Qed.

Lemma merge_post_cons L L1 U1 Us1 b X : concat L1 = concat L -> nonempty L1 -> capped L1 -> lk (sums L1) (U1 :: Us1) ->
  merge_post U1 Us1 b X -> merge_post L (U1 :: Us1) b (L1 :: X).
Proof.
  intros H1 H2 H3 (HW & HC & HL) (U' & Us' & -> & P1 & P2 & P3 & P4 & P5).
  exists L1, (U' :: Us'). split; [reflexivity|]. split; [exact H1|]. split; [cbn [lk]; rewrite P1; auto|].
  split; [constructor; assumption|]. split; [cbn [length] in *; lia|]. destruct b.
  - change (removelast (L1 :: U' :: Us')) with (L1 :: removelast (U' :: Us')). constructor; assumption.
  - constructor; assumption.
Qed.

Lemma merge_post_len L Us Us2 b X : length Us = length Us2 -> merge_post L Us b X -> merge_post L Us2 b X.
Proof. intros H (L' & Us' & P). exists L', Us'. rewrite <- H. exact P. Qed.

Lemma shapes_len Us Us' : shapes Us = shapes Us' -> length Us = length Us'.
Proof. intros H. rewrite <- (map_length shape Us), <- (map_length shape Us'). exact (f_equal (@length _) H). Qed.

Lemma merge_spec fuel : forall (fw : bool) cur k L Us p, length Us < fuel ->
  live L -> lk (sums L) Us -> Forall nonempty Us -> capped L -> Forall capped Us -> pvalid Us p k ->
  (forall x, x < length L -> used L x = 0 -> todo fw x k cur) -> (if fw then k + cur <= length L else cur <= S k) ->
  exists b X, merge fuel fw cur k L Us p = Some (b, X) /\ merge_post L Us b X.
Proof.
  induction fuel as [|fuel IH]; intros fw cur k L Us p HF HLV HLK HNU HCL HCU HP HE HSP; [lia|].
  assert (KL : k < length L) by (rewrite <- sums_length; eapply pvalid_lt; eauto).
  assert (DONE : nonempty L -> merge_post L Us false (L :: Us)).
  { intros HNE. exists L, Us. split; [reflexivity|]. split; [reflexivity|]. split; [exact HLK|]. split; [constructor; assumption|].
    split; [reflexivity|]. constructor; assumption. }
  cbn [merge]. destruct cur as [|[|cur]].
  - exists false, (L :: Us). split; [reflexivity|]. apply DONE. intros x X. destruct (Nat.eq_dec (used L x) 0) as [E|E]; [|lia].
    specialize (HE x X E). unfold todo in HE. destruct fw; lia.
  - assert (HE1 : forall x, x < length L -> x <> k -> 0 < used L x).
    { intros x X NE. destruct (Nat.eq_dec (used L x) 0) as [E|E]; [|lia]. specialize (HE x X E). unfold todo in HE. destruct fw; lia. }
    destruct Us as [|U R].
    + exists true, [L]. split; [reflexivity|]. exists L, []. split; [reflexivity|]. split; [reflexivity|]. split; [exact HLK|].
      split; [constructor; assumption|]. split; [reflexivity|constructor].
    + destruct p as [|[pk pi] q]; [contradiction|]. pose proof HP as (PV & PF & PQ).
      inversion HCU as [|U0 r0 CU CR]; subst U0 r0. inversion HNU as [|U0 r0 NU NR]; subst U0 r0.
      assert (GO : forall L1 U1 R1, concat L1 = concat L -> capped L1 -> shape U1 = shape U -> shapes R1 = shapes R -> lk (sums L1) (U1 :: R1) ->
         length L1 = length L -> used L1 k = 0 -> (forall x, x < length L -> x <> k -> 0 < used L1 x) ->
         exists b X, match node_unlink L1 U1 k pk pi with
                     | None => None
                     | Some (L1, U1) => match merge fuel fw 1 pk U1 R1 q with Some (b, X) => Some (b, L1 :: X) | None => None end
                     end = Some (b, X) /\ merge_post L (U :: R) b X).
      { intros L1 U1 R1 A1 A2 A3 A4 A5 A6 A7 A8.
        assert (LV1 : live L1) by (unfold live; rewrite A1; exact HLV).
        assert (CU1 : capped U1) by (intros x; rewrite (shape_used _ _ A3); apply CU).
        assert (PF1 : flat U1 pk pi = k) by (rewrite (shape_flat _ _ A3); exact PF).
        assert (PV1 : pi < used U1 pk) by (rewrite (shape_used _ _ A3); exact PV).
        assert (PL : pk < length U1) by (eapply used_lt; eauto).
        destruct (node_unlink_spec L1 U1 R1 pk pi A5 LV1 A2 CU1 PV1) as (L2 & m & N1 & N2 & N3 & N4 & N5 & N6 & N7); [rewrite PF1; exact A7|].
        rewrite PF1 in N1. rewrite N1.
        assert (NE2 : nonempty L2).
        { intros x X. destruct (Nat.eq_dec (used L2 x) 0) as [E|E]; [|lia]. destruct (N7 x E X) as (y & Y1 & Y2 & Y3).
          rewrite PF1 in Y1. assert (Y4 : y < length L) by (rewrite <- A6; exact Y2). specialize (A8 y Y4 Y1). lia. }
        assert (LV2 : live L2) by (unfold live; rewrite N2; exact LV1).
        pose proof N5 as (_ & _ & NL).
        destruct (IH fw 1 pk (set_nd U1 pk m) R1 q) as (b & X & M1 & M2).
        - rewrite (shapes_len _ _ A4). cbn [length] in HF. lia.
        - eapply live_all; eauto.
        - exact NL.
        - eapply shapes_nonempty; [symmetry; exact A4|exact NR].
        - exact N4.
        - eapply shapes_capped; [symmetry; exact A4|exact CR].
        - eapply pvalid_shapes; [symmetry; exact A4|exact PQ].
        - intros x X E. rewrite set_nd_length in X. destruct (Nat.eq_dec x pk) as [->|NX]; [unfold todo; destruct fw; lia|].
          rewrite used_set_other in E by assumption. specialize (NU x). rewrite <- (shape_len _ _ A3), <- (shape_used _ _ A3) in NU. specialize (NU X). lia.
        - rewrite set_nd_length. destruct fw; lia.
        - rewrite M1. exists b, (L2 :: X). split; [reflexivity|].
          apply (merge_post_len L (set_nd U1 pk m :: R1)); [cbn [length]; rewrite (shapes_len _ _ A4); reflexivity|].
          apply merge_post_cons; auto. congruence. }
      destruct (Nat.eqb_spec (used L k) 0) as [E|E].
      * apply GO; auto.
      * destruct (mergeable L k) eqn:EM.
        -- destruct (mbalance_spec L (U :: R) k ((pk, pi) :: q) HLV KL EM ltac:(lia) HCL HLK HP) as (L1 & Us1 & B1 & B2 & B3 & B4 & B5 & B6 & B7 & B8).
           rewrite B1. destruct Us1 as [|U1 R1]; [discriminate|].
           unfold shapes in B5. cbn [map] in B5. injection B5 as SU SR.
           apply GO; auto. intros x X NE. specialize (B8 x NE). specialize (HE1 x X NE). lia.
        -- exists false, (L :: U :: R). split; [reflexivity|]. apply DONE. intros x X. destruct (Nat.eq_dec x k) as [->|NE]; [lia|auto].
  - destruct Us as [|U R].
    { exfalso. cbn [lk] in HLK. rewrite sums_length in HLK. cbn [pvalid] in HP. destruct p as [|[? ?] ?]; [|contradiction]. subst k. destruct fw; lia. }
    destruct p as [|[pk pi] q]; [contradiction|]. pose proof HP as (PV & PF & PQ). pose proof HLK as (HW & HC & HL).
    inversion HCU as [|U0 r0 CU CR]; subst U0 r0. inversion HNU as [|U0 r0 NU NR]; subst U0 r0.
    pose proof (used_lt _ _ _ PV) as PL.
    assert (LC : length (concat U) = length L) by (rewrite <- (map_length wt), HW, sums_length; reflexivity).
    rewrite (detach_loop_spec fw (S (S cur)) L U R pk pi HLK HLV NU PV) by (rewrite PF, LC; destruct fw; lia).
    destruct (merge_loop_spec fw pk (S cur) L U R pk pi q pi 0 0 HLK HLV HCL CU NR) as (L' & U' & R' & pc' & M1 & M2).
    + rewrite PF. exact HP.
    + intros a b B Z. right. rewrite PF. apply HE; [rewrite <- LC; apply flat_lt; exact B|]. apply (slot_child L U R a b HLK HLV B). exact Z.
    + assert (ZZ : forall b, b < used U pk -> slot_wt U pk b = 0 -> if fw then pi <= b else b <= pi).
      { intros b B Z. specialize (HE (flat U pk b)). rewrite <- LC in HE. specialize (HE (flat_lt _ _ _ B) (proj1 (slot_child L U R pk b HLK HLV B) Z)).
        unfold todo in HE. rewrite <- PF in HE. unfold flat in HE. destruct fw; lia. }
      symmetry. destruct fw; apply zc_none; intros b B Z; specialize (ZZ b ltac:(lia) Z); lia.
    + intros _. lia.
    + destruct fw; lia.
    + exact PL.
    + intros x X E. specialize (NU x X). lia.
    + rewrite PF, LC. destruct fw; lia.
    + rewrite M1. destruct M2 as (P1 & P2 & P3 & P4 & P5 & P6 & P7 & P8 & P9).
      assert (LV' : live L') by (unfold live; rewrite P1; exact HLV). pose proof P2 as (_ & _ & NL).
      destruct (IH fw pc' pk U' R' q) as (b & X & N1 & N2).
      * rewrite (shapes_len _ _ P6). cbn [length] in HF. lia.
      * eapply live_all; eauto.
      * exact NL.
      * eapply shapes_nonempty; [symmetry; exact P6|exact NR].
      * exact P5.
      * eapply shapes_capped; [symmetry; exact P6|exact CR].
      * eapply pvalid_shapes; [symmetry; exact P6|exact PQ].
      * intros x XL E. apply P8; [lia|exact E].
      * rewrite P7. exact P9.
      * rewrite N1. exists b, (L' :: X). split; [reflexivity|].
        apply (merge_post_len L (U' :: R')); [cbn [length]; rewrite (shapes_len _ _ P6); reflexivity|].
        apply merge_post_cons; auto.
Qed.

(* ---------- the root ---------- *)

Lemma lk_top_len W Us : lk W Us -> forall U, last Us [] = U -> Us <> [] -> length U = 1.
Proof.
  revert W. induction Us as [|V r IH]; intros W H U E N; [contradiction|]. cbn [lk] in H. destruct H as (_ & _ & HL).
  destruct r as [|V2 r]; [cbn in E; subst; cbn in HL; rewrite sums_length in HL; exact HL|].
  eapply IH; [exact HL|exact E|discriminate].
Qed.

Lemma lk_drop_top Us : forall W U, lk W (Us ++ [U]) -> used U 0 = 1 -> lk W Us.
Proof.
  induction Us as [|V r IH]; intros W U H UE; cbn [app lk] in *.
  - destruct H as (HW & _ & HL). rewrite sums_length in HL. rewrite <- HW, map_length.
    destruct U as [|n [|n2 U]]; try discriminate. cbn [concat]. rewrite app_nil_r. exact UE.
  - destruct H as (HW & HC & HL). split; [exact HW|]. split; [exact HC|]. eapply IH; eauto.
Qed.

Definition well (T : list level) : Prop :=
  match T with [] => False | L :: Us => lk (sums L) Us /\ Forall nonempty T /\ Forall capped T end.

Lemma collapse_spec fuel : forall L Us, lk (sums L) Us -> Forall nonempty (L :: Us) -> Forall capped (L :: Us) ->
  exists Us', collapse fuel (L :: Us) = L :: Us' /\ well (L :: Us') /\ length Us' <= length Us.
Proof.
  induction fuel as [|fuel IH]; intros L Us HLK HN HC; cbn [collapse].
  - exists Us. split; [reflexivity|]. split; [cbn; auto|lia].
  - destruct (Nat.eqb (used (last (L :: Us) []) 0) 1 && Nat.ltb 1 (length (L :: Us))) eqn:E.
    + apply andb_prop in E. destruct E as [E1 E2]. apply Nat.eqb_eq in E1. apply Nat.ltb_lt in E2. cbn [length] in E2.
      destruct (exists_last (l := Us)) as (Us1 & U & EU); [destruct Us; [cbn in E2; lia|discriminate]|]. subst Us.
      assert (LR : removelast (L :: Us1 ++ [U]) = L :: Us1) by (change (L :: Us1 ++ [U]) with ((L :: Us1) ++ [U]); apply removelast_last).
      assert (LL : last (L :: Us1 ++ [U]) [] = U) by (change (L :: Us1 ++ [U]) with ((L :: Us1) ++ [U]); apply last_last).
      rewrite LR. rewrite LL in E1.
      destruct (IH L Us1) as (Us' & C1 & C2 & C3).
      * eapply lk_drop_top; eauto.
      * change (L :: Us1 ++ [U]) with ((L :: Us1) ++ [U]) in HN. apply Forall_app in HN. tauto.
      * change (L :: Us1 ++ [U]) with ((L :: Us1) ++ [U]) in HC. apply Forall_app in HC. tauto.
      * exists Us'. rewrite app_length. split; [exact C1|]. split; [exact C2|]. lia.
    + exists Us. split; [reflexivity|]. split; [cbn; auto|lia].
Qed.

(* an empty root means an empty tree *)
Lemma empty_root L Us : lk (sums L) Us -> Forall nonempty (removelast (L :: Us)) -> used (last (L :: Us) []) 0 = 0 -> concat L = [].
Proof.
  revert L. induction Us as [|U r IH]; intros L HLK HN HU.
  - cbn in HLK, HU. rewrite sums_length in HLK. destruct L as [|n [|n2 L]]; try discriminate. unfold used, nd in HU. cbn in HU.
    destruct n; [reflexivity|discriminate].
  - destruct HLK as (HW & HC & HL).
    change (removelast (L :: U :: r)) with (L :: removelast (U :: r)) in HN. inversion HN; subst.
    change (last (L :: U :: r) []) with (last (U :: r) []) in HU.
    rewrite (IH U HL) in HW by assumption. cbn in HW. destruct L; [reflexivity|discriminate].
Qed.

Lemma node_merge_spec (fw : bool) cur k L Us p :
  live L -> lk (sums L) Us -> Forall nonempty Us -> capped L -> Forall capped Us -> pvalid Us p k ->
  (forall x, x < length L -> used L x = 0 -> todo fw x k cur) -> (if fw then k + cur <= length L else cur <= S k) ->
  exists T', node_merge fw cur k (L :: Us) p = Some T' /\ length T' <= length (L :: Us) /\
    (T' = [] /\ concat L = [] \/ well T' /\ concat (lev T' 0) = concat L).
Proof.
  intros HLV HLK HNU HCL HCU HP HE HSP. unfold node_merge.
  destruct (merge_spec (S (length (L :: Us))) fw cur k L Us p) as (b & X & M1 & M2); auto.
  rewrite M1. destruct M2 as (L' & Us' & -> & P1 & P2 & P3 & P4 & P5). destruct b.
  - destruct (Nat.eqb_spec (used (last (L' :: Us') []) 0) 0) as [E|E].
    + exists []. split; [reflexivity|]. split; [cbn; lia|]. left. split; [reflexivity|]. rewrite <- P1. eapply empty_root; eauto.
    + destruct (collapse_spec (length (L' :: Us')) L' Us' P2) as (Us2 & C1 & C2 & C3).
      * destruct (exists_last (l := L' :: Us')) as (T1 & U & EU); [discriminate|]. rewrite EU in *.
        rewrite removelast_last in P5. rewrite last_last in E. apply Forall_app. split; [exact P5|]. constructor; [|constructor].
        intros x X. assert (L1 : length U = 1).
        { destruct T1 as [|V T1]; cbn [app] in EU.
          - injection EU as -> ->. cbn in P2. rewrite sums_length in P2. exact P2.
          - injection EU as -> EU2. eapply lk_top_len; [exact P2| |].
            + rewrite EU2. apply last_last.
            + rewrite EU2. destruct T1; discriminate. }
        assert (x = 0) by lia. subst x. lia.
      * exact P3.
      * rewrite C1. exists (L' :: Us2). split; [reflexivity|]. split; [cbn [length] in *; lia|]. right. split; [exact C2|]. exact P1.
  - exists (L' :: Us'). split; [reflexivity|]. split; [cbn [length] in *; lia|]. right. split; [cbn; auto|]. exact P1.
Qed.
