(* The checkpoint: captured items and the records written meanwhile *)
From Verif Require Import Base RpModel RpSpec RpBody RpBody2 RpDel RpAct.
From Verif Require BtModel BtSpec BtOps BtRun BtIns BtOrder ListModel ListSpec.
From Coq Require Import Permutation.
Local Open Scope nat_scope.

(* ---------- writing and reading the elements of a captured item ---------- *)

Lemma elems_app b xs ys : redo_elems b (xs ++ ys) = match redo_elems b xs with Some b' => redo_elems b' ys | None => None end.
Proof. revert b. induction xs as [|x xs IH]; intros b; cbn [app redo_elems]; [reflexivity|]. destruct (redo_ins b x); [apply IH|reflexivity]. Qed.

Lemma lst_elems mx ov rd l : (1 <= mx)%Z -> forall l0, (ListSpec.size (l0 ++ l) <= mx)%Z -> redo_elems (Lst mx ov rd l0) (map (IList (-1) (-1)) l) = Some (Lst mx ov rd (l0 ++ l)).
Proof.
  intros M. induction l as [|v l IH]; intros l0 S; cbn [map redo_elems]; [rewrite app_nil_r; reflexivity|].
  assert (R : redo_ins (Lst mx ov rd l0) (IList (-1) (-1) v) = Some (Lst mx ov rd (l0 ++ [v]))).
  { cbn [redo_ins]. change (negb (-1 =? -1)%Z) with false. cbn [andb]. unfold ListSpec.insert_result. cbv zeta.
    assert (P : ListSpec.position (-1) (ListSpec.size l0) = ListSpec.size l0) by (unfold ListSpec.position; cbn; lia). rewrite P.
    unfold ListSpec.size in *. rewrite app_length in S. cbn [length] in S.
    rewrite (proj2 (Z.ltb_ge (Z.of_nat (length l0)) 0)) by lia. rewrite Z.ltb_irrefl. cbn [orb]. change (0 <=? -1)%Z with false. cbv iota.
    rewrite (proj2 (Z.ltb_ge mx (- -1))) by lia. rewrite (proj2 (Z.ltb_lt (Z.of_nat (length l0)) mx)) by lia.
    unfold ListSpec.put_at. rewrite Nat2Z.id, firstn_all, skipn_all. reflexivity. }
  rewrite R, IH; [rewrite <- app_assoc; reflexivity|]. rewrite <- app_assoc. exact S.
Qed.

Lemma st_elems mx rd l : forall l0, length l0 + length l <= mx -> NoDup (l ++ l0) -> redo_elems (St mx rd l0) (map ISet l) = Some (St mx rd (rev l ++ l0)).
Proof.
  induction l as [|v l IH]; intros l0 S ND; cbn [map redo_elems]; [reflexivity|]. cbn [length app] in *. inversion ND as [|? ? N1 N2]; subst.
  cbn [redo_ins]. rewrite (proj2 (Nat.leb_gt mx (length l0))) by lia. cbn [orb].
  destruct (memb v l0) eqn:M; [apply memb_In in M; exfalso; apply N1; apply in_or_app; auto|].
  rewrite IH; [cbn [rev]; rewrite <- app_assoc; reflexivity|cbn [length]; lia|].
  apply NoDup_Add with (a := v) (l := l ++ l0); [|auto]. apply Add_app.
Qed.

Lemma mp_elems mx rd l : forall l0, length l0 + length l <= mx -> NoDup (map fst (l ++ l0)) -> redo_elems (Mp mx rd l0) (map (fun p => IMap (fst p) (snd p)) l) = Some (Mp mx rd (rev l ++ l0)).
Proof.
  induction l as [|v l IH]; intros l0 S ND; cbn [map redo_elems]; [reflexivity|]. cbn [length app map] in *. inversion ND as [|? ? N1 N2]; subst.
  cbn [redo_ins]. destruct (memf (fst v) l0) eqn:M.
  { unfold memf in M. apply memb_In in M. exfalso. apply N1. rewrite map_app. apply in_or_app. auto. }
  rewrite (proj2 (Nat.leb_gt mx (length l0))) by lia. destruct v as [f v]. cbn [fst snd] in *.
  rewrite IH; [cbn [rev]; rewrite <- app_assoc; reflexivity|cbn [length]; lia|].
  rewrite map_app in *. cbn [map fst]. apply NoDup_Add with (a := f) (l := map fst l ++ map fst l0); [|auto]. apply Add_app.
Qed.

Lemma ins_last e l : (forall x, In x l -> BtSpec.klt (BtModel.bk x) (BtModel.bk e) = true) -> BtSpec.ins e l = l ++ [e].
Proof.
  induction l as [|x l IH]; intros H; [reflexivity|]. cbn [BtSpec.ins app]. rewrite (BtOrder.klt_asym _ _ (H x (or_introl eq_refl))), IH; [reflexivity|].
  intros y HY. apply H. right. exact HY.
Qed.
Lemma sorted_split l0 e l : BtSpec.sorted (l0 ++ e :: l) -> forall x, In x l0 -> BtSpec.klt (BtModel.bk x) (BtModel.bk e) = true.
Proof.
  induction l0 as [|y l0 IH]; cbn [app]; intros H x HX; [contradiction|]. destruct H as (H1 & H2). destruct HX as [->|HX]; [apply H1, in_or_app; right; left; reflexivity|]. apply IH; auto.
Qed.

Lemma bt_elems rd tr l : forall mx ov ty l0, BtSpec.sorted (l0 ++ l) -> length (l0 ++ l) <= mx -> (forall e, In e (l0 ++ l) -> BtSpec.type_of (BtModel.bk e) = ty) ->
  (forall s, BtSpec.s_el s = l0 -> BtSpec.s_max s = mx -> BtSpec.s_ovf s = ov -> BtSpec.s_trim s = tr -> BtSpec.s_range s = None -> (l0 <> [] -> BtSpec.s_type s = ty) ->
   exists s', redo_elems (Bt rd s) (map IBt l) = Some (Bt rd s') /\ BtSpec.s_el s' = l0 ++ l /\ BtSpec.s_max s' = mx /\ BtSpec.s_ovf s' = ov /\ BtSpec.s_range s' = None /\ (l0 ++ l <> [] -> BtSpec.s_type s' = ty)).
Proof.
  induction l as [|e l IH]; intros mx ov ty l0 SO LE TY s S1 S2 S3 S4 S5 S6; cbn [map redo_elems].
  { exists s. rewrite app_nil_r. auto 10. }
  pose proof (sorted_split _ _ _ SO) as LT.
  assert (LK : BtSpec.lookup (BtModel.bk e) l0 = None).
  { destruct (BtSpec.lookup (BtModel.bk e) l0) as [x|] eqn:L; [|reflexivity]. unfold BtSpec.lookup in L. apply find_some in L. destruct L as (L1 & L2). apply BtOrder.keq_eq in L2.
    specialize (LT x L1). rewrite <- L2, BtOrder.klt_irrefl in LT. discriminate. }
  assert (R : exists s1, redo_ins (Bt rd s) (IBt e) = Some (Bt rd s1) /\ BtSpec.s_el s1 = l0 ++ [e] /\ BtSpec.s_max s1 = mx /\ BtSpec.s_ovf s1 = ov /\ BtSpec.s_trim s1 = tr /\ BtSpec.s_range s1 = None /\ BtSpec.s_type s1 = ty).
  { cbn [redo_ins BtSpec.s_step]. assert (TE : BtSpec.type_of (BtModel.bk e) = ty) by (apply TY, in_or_app; right; left; reflexivity).
    assert (BT : BtSpec.s_has_type s && BtSpec.s_bad_type s (BtModel.bk e) = false).
    { unfold BtSpec.s_has_type, BtSpec.s_bad_type. rewrite S1, S5. destruct l0; [reflexivity|]. rewrite S6 by discriminate. rewrite <- TE. destruct (BtModel.bk e); reflexivity. }
    rewrite BT, S1, LK. destruct l0 as [|z l0].
    - unfold BtSpec.s_new. rewrite S1. eexists. split; [reflexivity|]. cbn. auto 10.
    - rewrite new_plain; [|rewrite S1; discriminate|exact S5]. rewrite S1, S2. rewrite app_length in LE. cbn [length] in LE.
      rewrite (proj2 (Nat.ltb_lt (length (z :: l0)) mx)) by (cbn [length]; lia). rewrite ins_last by exact LT. eexists. split; [reflexivity|]. cbn.
      repeat (split; [auto|]). apply S6. discriminate. }
  destruct R as (s1 & R & A1 & A2 & A3 & A4 & A5 & A6). rewrite R.
  replace (l0 ++ e :: l) with ((l0 ++ [e]) ++ l) in * by (rewrite <- app_assoc; reflexivity).
  apply (IH mx ov ty (l0 ++ [e]) SO LE TY s1); auto.
Qed.

Lemma capture_ok b : wf_body b -> sameo (redo_elems (shell b) (elems_of b)) (Some b).
Proof.
  destruct b as [v|mx ov rd l|mx rd l|mx rd l|rd s]; cbn [wf_body shell elems_of].
  - intros _. reflexivity.
  - intros (W1 & W2). rewrite lst_elems; [|exact W1|exact W2]. apply same_refl.
  - intros (W0 & W1 & W2). rewrite st_elems; [|exact W1|rewrite app_nil_r; exact W2]. cbn. rewrite app_nil_r. auto using Permutation_sym, Permutation_rev.
  - intros (W0 & W1 & W2). rewrite mp_elems; [|exact W1|rewrite app_nil_r; exact W2]. cbn. rewrite app_nil_r. auto using Permutation_sym, Permutation_rev.
  - intros (W1 & W2 & W3 & W4 & W5).
    destruct (bt_elems rd (BtSpec.s_trim s) (BtSpec.s_el s) (BtSpec.s_max s) (BtSpec.s_ovf s) (BtSpec.s_type s) [] W1 W2) with
      (s := BtSpec.mkSp [] (BtSpec.s_max s) (BtSpec.s_ovf s) (BtSpec.s_trim s) BtModel.TUnknown (BtSpec.s_range s)) as (s' & R & A1 & A2 & A3 & A4 & A5); auto.
    { intros e HE. exact (proj1 (Forall_forall _ _) W4 e HE). }
    { congruence. }
    rewrite R. cbn in *. repeat (split; [congruence|]). destruct (BtSpec.s_el s) as [|z l] eqn:EL.
    + right. split; [exact A1|exact A4].
    + left. apply A5. discriminate.
Qed.

(* ---------- records of one key in a log ---------- *)

Definition redo_key (T : N) (k : bytes) (y : option item) (r : rec) : option item :=
  match r with
  | RKey j r1 => if beqb j k then redo1 T y r1 else y
  | RFlush p => if covers p k then None else y
  end.
Definition keyed (T : N) (k : bytes) (rs : list rec) (y : option item) : option item := fold_left (redo_key T k) rs y.

Lemma recover_keyed T rs k : forall t, fold_left (redo T) rs t k = keyed T k rs (t k).
Proof.
  induction rs as [|r rs IH]; intros t; [reflexivity|]. cbn [fold_left keyed]. rewrite IH. unfold keyed. f_equal.
  destruct r as [j r|p]; cbn [redo redo_key]; unfold upd; [|reflexivity]. destruct (beqb_spec j k) as [->|]; reflexivity.
Qed.

Definition away (k : bytes) (r : rec) : Prop := match r with RKey j _ => beqb j k = false | RFlush p => covers p k = false end.
Lemma keyed_app T k a b y : keyed T k (a ++ b) y = keyed T k b (keyed T k a y).
Proof. apply fold_left_app. Qed.
Lemma keyed_away T k rs y : Forall (away k) rs -> keyed T k rs y = y.
Proof.
  intros F. induction F as [|r rs A F IH]; [reflexivity|]. unfold keyed in *. cbn [fold_left]. destruct r; cbn in *; rewrite A; exact IH.
Qed.
Lemma keyed_own T k rs y : keyed T k (map (RKey k) rs) y = fold_left (redo1 T) rs y.
Proof. revert y. induction rs as [|r rs IH]; intros y; [reflexivity|]. unfold keyed in *. cbn [map fold_left redo_key]. rewrite beqb_refl. apply IH. Qed.
Lemma own_away j k rs : beqb j k = false -> Forall (away k) (map (RKey j) rs).
Proof. intros H. apply Forall_forall. intros r HR. apply in_map_iff in HR. destruct HR as (x & <- & _). exact H. Qed.

(* records of k that only change an item that is there, or of other keys *)
Definition softk (k : bytes) (r : rec) : Prop := match r with RKey j r1 => beqb j k = true -> soft r1 | RFlush p => covers p k = false end.
Definition normk (k : bytes) (r : rec) : Prop := match r with RKey j r1 => beqb j k = true -> norng r1 | RFlush p => True end.
Lemma away_softk k r : away k r -> softk k r.
Proof. destruct r; cbn; [|auto]. congruence. Qed.
Lemma keyed_eqv T k q rs : forall y1 y2, Forall (normk k) rs -> (q = false -> Forall (softk k) rs) -> eqv T q y1 y2 -> eqv T q (keyed T k rs y1) (keyed T k rs y2).
Proof.
  induction rs as [|r rs IH]; intros y1 y2 N S E; [exact E|]. unfold keyed in *. cbn [fold_left]. inversion N as [|? ? N1 N2]; subst. apply IH; [exact N2| |].
  - intros Q. specialize (S Q). inversion S; assumption.
  - destruct r as [j r|p]; cbn [redo_key].
    + destruct (beqb j k) eqn:J; [|exact E]. apply redo1_eqv; [apply N1; exact J| |exact E]. intros Q. specialize (S Q). inversion S as [|? ? S1 S2]; subst. apply S1. exact J.
    + destruct (covers p k); [apply eqv_refl|exact E].
Qed.
Lemma keyed_none T k rs : forall y, Forall (softk k) rs -> valid T y = None -> valid T (keyed T k rs y) = None.
Proof.
  induction rs as [|r rs IH]; intros y S V; [exact V|]. unfold keyed in *. cbn [fold_left]. inversion S as [|? ? S1 S2]; subst. apply IH; [exact S2|].
  destruct r as [j r|p]; cbn [redo_key].
  - destruct (beqb j k) eqn:J; [|exact V]. apply (soft_none T [r] y); [|exact V]. constructor; [left; apply S1; exact J|constructor].
  - cbn in S1. rewrite S1. exact V.
Qed.

(* ---------- the record of a captured item ---------- *)

Definition cap_rec (cap : item) : rec1 := RSnap (i_fl cap) (i_exp cap) (shell (i_body cap)) (elems_of (i_body cap)).
Lemma snap_now T now k p y : (now <= T)%N -> redo_key T k y (snap_rec now p) = redo_key T k y (RKey (fst p) (cap_rec (snd p))).
Proof.
  intros NT. unfold snap_rec, cap_rec. cbn [redo_key]. destruct (beqb (fst p) k); [|reflexivity]. unfold redo1. rewrite (abs_expired now T _ NT).
  destruct (expired T (i_exp (snd p))) eqn:X; [reflexivity|]. rewrite (abs_same now T _ NT X). reflexivity.
Qed.
Lemma cap_sim T it : wf_body (i_body it) -> eqv T true (Some it) (redo1 T None (cap_rec it)).
Proof.
  intros W. unfold cap_rec, redo1. destruct (expired T (i_exp it)) eqn:X.
  - apply eqv_none; [cbn; rewrite X; reflexivity|reflexivity].
  - pose proof (capture_ok _ W) as C. destruct (redo_elems _ _) as [b|]; cbn in C; [|contradiction]. apply eqv_intro; cbn; auto using same_sym.
Qed.

(* the same item met again with other attributes *)
Lemma retain_elems cur cap : same_body (shell cur) (shell cap) -> elems_of (retain cur cap) = elems_of cap /\ same_body (shell (retain cur cap)) (shell cap).
Proof. destruct cur, cap; cbn; try tauto. Qed.
Lemma cap_eqv T q a b : i_fl a = i_fl b -> elems_of (i_body a) = elems_of (i_body b) -> same_body (shell (i_body a)) (shell (i_body b)) ->
  i_exp a = i_exp b \/ q = false /\ expired T (i_exp a) = false /\ expired T (i_exp b) = false ->
  eqv T q (redo1 T None (cap_rec a)) (redo1 T None (cap_rec b)).
Proof.
  intros F E S X. unfold cap_rec, redo1. rewrite E. pose proof (redo_elems_same (elems_of (i_body b)) _ _ S) as R.
  destruct X as [X|(-> & X & Y)].
  - rewrite X. destruct (expired T (i_exp b)); [apply eqv_refl|]. destruct (redo_elems (shell (i_body a)) _), (redo_elems (shell (i_body b)) _); cbn in R; try contradiction; [|apply eqv_refl].
    apply eqv_intro; cbn; auto.
  - rewrite X, Y. destruct (redo_elems (shell (i_body a)) _), (redo_elems (shell (i_body b)) _); cbn in R; try contradiction; [|apply eqv_refl].
    apply eqv_intro; cbn; auto.
Qed.
