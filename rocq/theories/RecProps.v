(* Property theorems about log records (C24). *)
From Verif Require Import Base RecModel RecSpec RecProofs.
Local Open Scope N_scope.

(* C24: whatever was logged, replaying its record does what is to be done for it, whatever the bytes that
   were not initialised, and whatever follows the record. *)
Theorem C24_roundtrip jk c c' o rest :
  wf o -> timed c c' o -> redo c' (write jk c o ++ rest) = Some (expected c c' o).
Proof. apply round_trip. Qed.

(* every record says how long it is and is a multiple of 8 bytes long *)
Theorem C24_framed jk c o : wf o ->
  blen (write jk c o) = 8 + u32_at (write jk c o) 4 /\ u32_at (write jk c o) 4 mod 8 = 0.
Proof. apply write_framed. Qed.

Definition it0 : ritem :=
  RItem 0 [107; 101; 121] [118; 97; 108; 13; 10] 7 1600 99 0 0 0%Z (255, []).
Definition bt0 : ritem :=
  RItem 4 [98; 116] [13; 10] 3 0 5 4 2 (-1)%Z (0, [10; 0; 0; 0; 0; 0; 0; 0]).
Definition clk0 : clock := Clock 600 1700000000.
Definition clk1 : clock := Clock 10 1700000500.

(* the hypotheses hold of a value that is still alive after the restart, of one that has expired, and of a
   B+tree with a maximum bkey range *)
Example C24_alive : wf (OLink it0) /\ timed clk0 clk1 (OLink it0) /\
  redo clk1 (write (fun n => N.of_nat n) clk0 (OLink it0)) =
  Some (CKvLink [107; 101; 121] 7 510 [118; 97; 108; 13; 10] 99).
Proof.
  split; [|split; [|vm_compute; reflexivity]].
  - unfold wf, wf_item. cbn. repeat split; try lia.
  - unfold timed, clocks. cbn. lia.
Qed.
Example C24_expired : timed clk0 (Clock 10 1700001000) (OLink it0) /\
  redo (Clock 10 1700001000) (write (fun _ => 170) clk0 (OLink it0)) = Some CNothing.
Proof. split; [unfold timed, clocks; cbn; lia|vm_compute; reflexivity]. Qed.
Example C24_btree : wf (OLink bt0) /\ timed clk0 clk1 (OLink bt0) /\
  redo clk1 (write (fun _ => 85) clk0 (OLink bt0)) =
  Some (CCollLink 4 [98; 116] (RAttr 3 0 (-1)%Z 4 true false (Some (0, [10; 0; 0; 0; 0; 0; 0; 0])))).
Proof.
  split; [|split; [|vm_compute; reflexivity]].
  - unfold wf, wf_item. cbn. repeat split; try lia. right. split; cbn; [lia|reflexivity].
  - unfold timed, clocks. cbn. lia.
Qed.
Example C24_insert : wf (OBtIns bt0 (2, [1; 2]) [9] [104; 105] true) /\
  timed clk0 clk1 (OBtIns bt0 (2, [1; 2]) [9] [104; 105] true) /\
  redo clk1 (write (fun _ => 85) clk0 (OBtIns bt0 (2, [1; 2]) [9] [104; 105] true)) =
  Some (CBtIns [98; 116] (Some (RAttr 3 0 (-1)%Z 4 true false (Some (255, [])))) (2, [1; 2]) [9] [104; 105]).
Proof.
  split; [|split; [|vm_compute; reflexivity]].
  - unfold wf, wf_item, wf_bkey, small. cbn. repeat split; try lia.
  - unfold timed, clocks. cbn. lia.
Qed.
Example C24_logical :
  wf (OBtLgc bt0 (0, [1; 0; 0; 0; 0; 0; 0; 0]) (255, []) (Some (EFilter [3] 1 [4; 5] 2 0 1 1)) 0 10 false).
Proof.
  unfold wf, wf_item, wf_bkey, wf_filter. cbn. repeat split; try lia.
  left; reflexivity.
Qed.

(* a maximum bkey range that is taken away again (set to null) is logged, but at replay the old one stays:
   the call made for the record says nothing about the range *)
Theorem C24_range_removal_refuted jk c c' it rest :
  wf_item it -> clocks c c' it -> fst (r_maxbkr it) = 255 ->
  exists e, redo c' (write jk c (OSetRange it) ++ rest) =
    Some (CSetColl (r_key it) e (r_mcnt it) (r_ovfl it) (r_mflags it) None) /\
  redo c' (write jk c (OSetRange it) ++ rest) <> Some (expected c c' (OSetRange it)).
Proof.
  intros W HC Z. cbn [write].
  assert (E : exists e, redo c' (w_setattr jk c 4 it ++ rest) =
    Some (CSetColl (r_key it) e (r_mcnt it) (r_ovfl it) (r_mflags it) None)).
  { exists (match still c' (meaning c (r_exp it)) with None => 1 | Some e => e end).
    destruct W as (W1 & W2 & W3 & W4 & W5 & W6 & W7 & W8).
    destruct (rel_abs c c' it W5 HC) as (A1 & A2 & A3). destruct (int_inv _ W7) as (I1 & I2).
    unfold w_setattr. cbn [N.eqb Pos.eqb orb]. rewrite Z. cbn [negb BKEY_NULL N.eqb Pos.eqb].
    frame b F D.
    change (redo_setattr c' b = Some (CSetColl (r_key it) (match still c' (meaning c (r_exp it)) with None => 1 | Some e => e end)
       (r_mcnt it) (r_ovfl it) (r_mflags it) None)).
    unfold redo_setattr. change (u8_at b 1) with 4. change (u8_at b 18) with 255. cbn [N.eqb Pos.eqb negb BKEY_NULL].
    change (u8_at b 16) with (r_ovfl it). change (u8_at b 17) with (r_mflags it).
    read (u16_at b 8) as (blen (r_key it)) by exact (rd16 _ W2).
    read (u32_at b 12) as (abs_exptime c (r_exp it)) by exact (rd32 _ A1).
    read (u32_at b 20) as (of_int (r_mcnt it)) by exact (rd32 _ I2).
    rewrite A2, I1. do 2 f_equal. unfold b. rewrite (sub_l0 F D 24 _ eq_refl).
    unfold D. cbn [app]. rewrite copy_all by reflexivity. apply sub_here; reflexivity. }
  destruct E as (e & E). exists e. split; [exact E|]. rewrite E. cbn [expected]. discriminate.
Qed.

(* flushing a prefix of 255 bytes is logged as a flush of everything *)
Theorem C24_long_flush_refuted jk c c' p rest : blen p = 255 ->
  redo c' (write jk c (OFlush (Some p)) ++ rest) = Some (CFlush None).
Proof.
  intros L. cbn [write]. unfold w_flush. rewrite L. change (255 mod 256) with 255. reflexivity.
Qed.
Example C24_long_flush : blen (repeat 97 255) = 255.
Proof. reflexivity. Qed.

(* Snapshots: the record of a collection is followed by those of its elements. *)
Definition elem (ty nekey : N) (ekey eflag value : bytes) : Prop :=
  match ty with
  | 1 | 2 => ekey = [] /\ nekey = 0 /\ eflag = []
  | 3 => nekey = blen ekey /\ nekey < 256 /\ eflag = []
  | 4 => wf_bkey (nekey, ekey) /\ blen eflag < 256
  | _ => False
  end.

(* an element with at most ten bytes (bkey or field, eflag and value together) is replayed as it was *)
Theorem C24_snapshot_elem_partial jk ty nekey ekey eflag value p rest :
  elem ty nekey ekey eflag value -> blen (ekey ++ eflag ++ value) <= 10 ->
  (24 <= length (w_snap_elem jk ty nekey ekey eflag value ++ rest))%nat ->
  apply_snap_elem ty p (w_snap_elem jk ty nekey ekey eflag value) rest =
  Some (CElem ty (nekey, ekey) eflag value).
Proof.
  intros E S10 L. rewrite !blen_app in S10. unfold apply_snap_elem.
  set (x := _ ++ rest) in *. set (b := set_item x p).
  assert (TY : ty = 1 \/ ty = 2 \/ ty = 3 \/ ty = 4).
  { unfold elem in E. destruct ty as [|[[]|[|[]|]|]]; try (exfalso; exact E); auto. }
  assert (RK : (ty = 4 -> blen ekey = real_nbkey nekey) /\ (ty = 3 -> blen ekey = nekey)).
  { split; intros ->; cbn in E; [destruct E as ((_ & E) & _); exact E|symmetry; apply E]. }
  destruct RK as (RK4 & RK3).
  assert (R8 : forall k, (k < 24)%nat -> u8_at b k = nth k x 0) by (intros; apply set_item_nth; assumption).
  assert (NB : u32_at b 8 = blen value).
  { unfold u32_at. unfold u8_at in R8. rewrite !R8 by lia. 
    change (u32_at x 8 = blen value). unfold x, w_snap_elem, put. apply (rd32 (blen value)). lia. }
  assert (XD : exists R, x = ([15; (if ty =? 1 then 7 else if ty =? 2 then 11 else if ty =? 3 then 15 else 19); jk 2%nat; jk 3%nat] ++
     le32 (align8 (6 + (if ty =? 3 then nekey else if ty =? 4 then real_nbkey nekey else 0)
           + (if ty =? 4 then blen eflag else 0) + blen value)) ++
     le32 (blen value) ++ [if (ty =? 3) || (ty =? 4) then nekey else jk 12%nat;
       if ty =? 4 then if ty =? 4 then blen eflag else 0 else jk 13%nat]) ++ snap_data ty ekey eflag value ++ R).
  { unfold x, w_snap_elem, put. cbv zeta.
    set (n := if ty =? 3 then nekey else _). set (m := if ty =? 4 then blen eflag else 0).
    rewrite (copy_all (if ty =? 3 then ekey ++ value else if ty =? 4 then ekey ++ eflag ++ value else value)).
    - rewrite <- !app_assoc. eexists. reflexivity.
    - unfold n, m. destruct TY as [->|[->|[->| ->]]]; cbn [N.eqb Pos.eqb].
      + reflexivity.
      + reflexivity.
      + rewrite blen_app, (RK3 eq_refl). lia.
      + rewrite !blen_app, (RK4 eq_refl). lia. }
  destruct XD as (R & XD).
  match type of XD with x = ?f ++ _ => set (F := f) in XD end.
  assert (BF : blen F = 14) by reflexivity.
  assert (SB : forall o n, 14 + o + n <= 24 -> sub_at b (14 + o) n = sub_at (snap_data ty ekey eflag value ++ R) o n).
  { intros o n H. unfold b. rewrite set_item_sub by (assumption || lia). rewrite XD. apply (sub_l F _ 14 _ _ BF). }
  assert (SB0 : forall n, n <= 10 -> sub_at b 14 n = sub_at (snap_data ty ekey eflag value ++ R) 0 n).
  { intros n H. rewrite <- (SB 0 n) by lia. reflexivity. }
  unfold redo_snap_elem. rewrite NB. rewrite (R8 12%nat), (R8 13%nat) by lia.
  assert (N12 : nth 12 x 0 = if (ty =? 3) || (ty =? 4) then nekey else jk 12%nat) by (rewrite XD; reflexivity).
  assert (N13 : nth 13 x 0 = if ty =? 4 then if ty =? 4 then blen eflag else 0 else jk 13%nat) by (rewrite XD; reflexivity).
  rewrite N12, N13. clear N12 N13.
  destruct TY as [->|[->|[->| ->]]]; cbn [N.eqb Pos.eqb orb]; unfold snap_data in SB, SB0; cbn [N.eqb Pos.eqb] in SB, SB0.
  - cbn in E. destruct E as (-> & -> & ->). do 2 f_equal. rewrite SB0 by lia. apply sub_here; reflexivity.
  - cbn in E. destruct E as (-> & -> & ->). do 2 f_equal. rewrite SB0 by lia. apply sub_here; reflexivity.
  - cbn in E. destruct E as (E & _ & ->). do 2 f_equal.
    + f_equal. rewrite SB0 by lia. rewrite <- app_assoc. apply sub_here. symmetry; exact E.
    + rewrite SB by lia. rewrite <- app_assoc. rewrite (sub_l0 ekey) by (symmetry; exact E). apply sub_here; reflexivity.
  - specialize (RK4 eq_refl). rewrite RK4 in S10. do 2 f_equal.
    + f_equal. rewrite SB0 by lia. rewrite <- app_assoc. apply sub_here. exact RK4.
    + rewrite SB by lia. rewrite <- !app_assoc. rewrite (sub_l0 ekey) by exact RK4. apply sub_here; reflexivity.
    + rewrite <- N.add_assoc, SB by lia. rewrite <- !app_assoc. rewrite (sub_l ekey) by exact RK4.
      rewrite (sub_l0 eflag) by reflexivity. apply sub_here; reflexivity.
Qed.
Example C24_snapshot_elem_small :
  apply_snap_elem 3 140000000 (w_snap_elem (fun _ => 1) 3 2 [102; 49] [] [118; 49; 13; 10]) (repeat 0 24) =
  Some (CElem 3 (2, [102; 49]) [] [118; 49; 13; 10]).
Proof. vm_compute. reflexivity. Qed.

(* Longer elements are not: the address of the collection is stored over the eleventh to the eighteenth
   byte before they are inserted.  For the elements of lists and sets of at least 18 bytes: *)
Theorem C24_snapshot_elem_refuted jk ty value p rest :
  ty = 1 \/ ty = 2 -> 18 <= blen value < 4294967296 ->
  apply_snap_elem ty p (w_snap_elem jk ty 0 [] [] value) rest =
  Some (CElem ty (0, []) [] (firstn 10 value ++ le64 p ++ skipn 18 value)).
Proof.
  intros TY LV. unfold apply_snap_elem. set (x := _ ++ rest).
  assert (XD : exists F R, x = F ++ value ++ R /\ blen F = 14 /\ u32_at x 8 = blen value).
  { unfold x, w_snap_elem. cbv zeta. destruct TY as [-> | ->]; cbn [N.eqb Pos.eqb orb].
    - unfold put. rewrite (copy_all value) by lia. rewrite <- (app_assoc _ (value ++ _) rest), <- (app_assoc value).
      eexists _, _. split; [reflexivity|split; [reflexivity|]].
      apply (rd32 (blen value)); lia.
    - unfold put. rewrite (copy_all value) by lia. rewrite <- (app_assoc _ (value ++ _) rest), <- (app_assoc value).
      eexists _, _. split; [reflexivity|split; [reflexivity|]].
      apply (rd32 (blen value)); lia. }
  destruct XD as (F & R & XD & BF & U).
  assert (L32 : (32 <= length x)%nat).
  { rewrite XD, !app_length. unfold blen in *. lia. }
  unfold redo_snap_elem.
  assert (NB : u32_at (set_item x p) 8 = blen value).
  { rewrite <- U. unfold u32_at. rewrite !set_item_nth by lia. reflexivity. }
  rewrite NB.
  assert (TT : (ty =? 1) || (ty =? 2) = true) by (destruct TY as [-> | ->]; reflexivity). rewrite TT.
  do 2 f_equal.
  replace (blen value) with ((blen value + 14) - 14) by lia.
  rewrite set_item_window by (assumption || lia).
  rewrite XD at 1. rewrite (sub_l0 F _ 14 _ BF). f_equal.
  - unfold sub_at. change (N.to_nat 0) with 0%nat. change (N.to_nat 10) with 10%nat. cbn [skipn].
    rewrite firstn_app. unfold blen in LV.
    replace (10 - length value)%nat with 0%nat by lia. rewrite (firstn_O R), app_nil_r. reflexivity.
  - rewrite firstn_app. change (length (le64 p)) with 8%nat. rewrite firstn_all2 by (cbn [length le64 le32 app]; lia).
    f_equal. rewrite XD. rewrite skipn_app. unfold blen in BF.
    rewrite (skipn_all2 F) by lia. cbn [app]. replace (32 - length F)%nat with 18%nat by lia.
    rewrite skipn_app. unfold blen in LV. replace (18 - length value)%nat with 0%nat by lia. rewrite (skipn_O R).
    rewrite (firstn_app _ (skipn 18 value)), skipn_length.
    unfold blen. rewrite firstn_all2 by (rewrite skipn_length; lia).
    replace (N.to_nat (N.of_nat (length value) + 14 - 24) - 8 - (length value - 18))%nat with 0%nat by lia.
    rewrite firstn_O, app_nil_r. reflexivity.
Qed.
Example C24_snapshot_elem_lost :
  apply_snap_elem 1 140000000 (w_snap_elem (fun _ => 1) 1 0 [] [] (repeat 97 20)) [] <>
  Some (CElem 1 (0, []) [] (repeat 97 20)).
Proof. vm_compute. discriminate. Qed.

(* The elements that follow the record of a B+tree with a maximum bkey range belong to it, but the collection
   they are added to is looked up with the first bytes of the range instead of the key. *)
Theorem C24_snapshot_btree_partial jk c it rest :
  wf_item it -> r_type it <> 0 -> r_type it <> 4 \/ fst (r_maxbkr it) = 255 ->
  coll_link_key (write jk c (OLink it) ++ rest) = Some (r_key it).
Proof.
  intros (W1 & W2 & W3 & W4 & W5 & W6 & W7 & W8) T0 HR. cbn [write]. unfold w_link.
  assert (TN : (r_type it =? 0) = false) by (apply N.eqb_neq; exact T0).
  set (mb := if r_type it =? 4 then fst (r_maxbkr it) else BKEY_NULL).
  assert (MB : mb = BKEY_NULL).
  { unfold mb. destruct (N.eqb_spec (r_type it) 4); [|reflexivity]. destruct HR as [HR|HR]; [congruence|exact HR]. }
  rewrite TN. frame b F D. unfold coll_link_key.
  change (u8_at b 0) with 0. change (u8_at b 1) with (link_updtype (r_type it)).
  assert (LU : (link_updtype (r_type it) =? 0) = false).
  { unfold link_updtype. destruct (N.eqb_spec (r_type it) 1); [reflexivity|].
    destruct (N.eqb_spec (r_type it) 2); [reflexivity|]. destruct (N.eqb_spec (r_type it) 3); [reflexivity|].
    destruct (N.eqb_spec (r_type it) 4); [reflexivity|]. lia. }
  rewrite LU. cbn [N.eqb negb orb].
  read (u16_at b 10) as (blen (r_key it)) by exact (rd16 _ W2).
  f_equal. unfold b. rewrite (sub_l0 F D 32 _ eq_refl).
  assert (DE : exists R, D = r_key it ++ r_data it ++ R).
  { unfold D. rewrite MB. cbn [N.eqb Pos.eqb BKEY_NULL negb]. rewrite andb_false_r. cbn [app].
    rewrite (copy_all (r_key it ++ r_data it)) by apply blen_app. rewrite <- app_assoc. eexists; reflexivity. }
  destruct DE as (R & DE). rewrite DE. apply sub_here; reflexivity.
Qed.
Theorem C24_snapshot_btree_refuted :
  exists it, wf_item it /\ r_type it = 4 /\ forall jk c,
    coll_link_key (write jk c (OLink it)) <> Some (r_key it).
Proof.
  exists bt0. split; [|split; [reflexivity|]].
  - unfold wf_item. cbn. repeat split; try lia. right. split; cbn; [lia|reflexivity].
  - intros jk c. vm_compute. discriminate.
Qed.

Print Assumptions C24_roundtrip.
Print Assumptions C24_framed.
Print Assumptions C24_range_removal_refuted.
Print Assumptions C24_long_flush_refuted.
Print Assumptions C24_snapshot_elem_partial.
Print Assumptions C24_snapshot_elem_refuted.
Print Assumptions C24_snapshot_btree_partial.
Print Assumptions C24_snapshot_btree_refuted.
