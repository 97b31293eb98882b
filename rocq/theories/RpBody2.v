From Verif Require Import Base RpModel RpSpec RpBody.
From Verif Require BtModel BtSpec BtOrder BtOps BtIns BtRefine BtRun BtGet2 ListModel ListSpec.
From Coq Require Import Permutation.
Local Open Scope nat_scope.

(* ---------- B+tree inserts ---------- *)

Lemma bad_free s k : Forall (fun e => BtSpec.type_of (BtModel.bk e) = BtSpec.s_type s) (BtSpec.s_el s) -> BtSpec.s_el s <> [] -> BtSpec.s_range s = None ->
  BtSpec.s_has_type s && BtSpec.s_bad_type s k = false -> BtSpec.type_of k = BtSpec.s_type s.
Proof.
  intros T NE _ H. unfold BtSpec.s_has_type, BtSpec.s_bad_type in H. destruct (BtSpec.s_el s) as [|x l]; [congruence|]. cbn in H.
  apply Forall_cons_iff in T. destruct T as (T & _). rewrite <- T in *. destruct (BtModel.bk x), k; cbn in *; congruence.
Qed.

Lemma new_plain s e : BtSpec.s_el s <> [] -> BtSpec.s_range s = None -> BtSpec.s_new s e =
  if Nat.ltb (length (BtSpec.s_el s)) (BtSpec.s_max s) then (BtModel.INew None, BtSpec.with_el s (BtSpec.ins e (BtSpec.s_el s)))
  else
    let mark x := if BtSpec.signals (BtSpec.s_ovf s) then BtSpec.with_trim x true else x in
    if BtSpec.drops_low (BtSpec.s_ovf s) then
      match BtSpec.s_first (BtSpec.s_el s) with
      | Some mn => if BtSpec.klt (BtModel.bk e) (BtModel.bk mn) then (BtModel.IErr BtModel.EBKEYOOR, mark s)
                   else (BtModel.INew (Some mn), mark (BtSpec.with_el s (tl (BtSpec.ins e (BtSpec.s_el s)))))
      | None => (BtModel.IErr BtModel.EOVERFLOW, s)
      end
    else if BtSpec.drops_high (BtSpec.s_ovf s) then
      match BtSpec.s_last (BtSpec.s_el s) with
      | Some mx => if BtSpec.klt (BtModel.bk mx) (BtModel.bk e) then (BtModel.IErr BtModel.EBKEYOOR, mark s)
                   else (BtModel.INew (Some mx), mark (BtSpec.with_el s (removelast (BtSpec.ins e (BtSpec.s_el s)))))
      | None => (BtModel.IErr BtModel.EOVERFLOW, s)
      end
    else (BtModel.IErr BtModel.EOVERFLOW, s).
Proof.
  intros NE R. unfold BtSpec.s_new, BtSpec.range_verdict. rewrite R. destruct (BtSpec.s_el s) as [|z l]; [congruence|]. reflexivity.
Qed.

Definition kept (s s' : BtSpec.sp) : Prop :=
  BtSpec.s_max s = BtSpec.s_max s' /\ BtSpec.s_ovf s = BtSpec.s_ovf s' /\ BtSpec.s_range s = BtSpec.s_range s'.

Lemma wf_sub s l : wf_bt s -> BtSpec.sorted l -> length l <= BtSpec.s_max s -> Forall (fun e => BtSpec.type_of (BtModel.bk e) = BtSpec.s_type s) l -> wf_bt (BtSpec.with_el s l).
Proof. intros (A & B & C & D & F) S L T. repeat split; cbn; auto. Qed.

Lemma tl_sorted l : BtSpec.sorted l -> BtSpec.sorted (tl l).
Proof. destruct l; cbn; [auto|tauto]. Qed.
Lemma Forall_sub {A} (P : A -> Prop) l l' : (forall x, In x l' -> In x l) -> Forall P l -> Forall P l'.
Proof. intros H F. apply Forall_forall. intros x HX. exact (proj1 (Forall_forall _ _) F x (H x HX)). Qed.
Lemma tl_In {A} (l : list A) x : In x (tl l) -> In x l.
Proof. destruct l; cbn; auto. Qed.

Lemma new_wf s e r s' : wf_bt s -> BtSpec.lookup (BtModel.bk e) (BtSpec.s_el s) = None -> BtSpec.s_has_type s && BtSpec.s_bad_type s (BtModel.bk e) = false ->
  BtSpec.s_new s e = (r, s') -> wf_bt s' /\ kept s s' /\ (match r with BtModel.IErr _ => same_bt s s' | _ => True end).
Proof.
  intros W LK BT E. pose proof W as (W1 & W2 & W3 & W4 & W5). destruct (BtSpec.s_el s) as [|z l] eqn:EL.
  { unfold BtSpec.s_new in E. rewrite EL in E. injection E as <- <-. split; [|split; [unfold kept; cbn; auto|exact Logic.I]].
    split; [cbn; tauto|]. split; [cbn; lia|]. split; [exact W3|]. split; [cbn; repeat constructor|exact W5]. }
  assert (NE : BtSpec.s_el s <> []) by (rewrite EL; discriminate).
  assert (NL : length (BtSpec.s_el s) <> 0) by (rewrite EL; discriminate).
  rewrite <- EL in *. clear z l EL. rewrite (new_plain s e NE W5) in E.
  pose proof (bad_free s _ W4 NE W5 BT) as TE.
  pose proof (BtOps.ins_sorted e (BtSpec.s_el s) W1 (proj1 (BtRun.lookup_none_key _ _) LK)) as IS.
  assert (IT : Forall (fun x => BtSpec.type_of (BtModel.bk x) = BtSpec.s_type s) (BtSpec.ins e (BtSpec.s_el s))).
  { apply Forall_forall. intros x HX. apply BtOps.ins_In in HX. destruct HX as [->|HX]; [exact TE|]. exact (proj1 (Forall_forall _ _) W4 x HX). }
  pose proof (BtOps.ins_length e (BtSpec.s_el s)) as IL.
  assert (MK : forall (c : bool) q, wf_bt q -> wf_bt (if c then BtSpec.with_trim q true else q)) by (intros [] q Q; exact Q).
  assert (KK : forall (c : bool) q, kept s q -> kept s (if c then BtSpec.with_trim q true else q)) by (intros [] q Q; exact Q).
  assert (SK : forall (c : bool), same_bt s (if c then BtSpec.with_trim s true else s)) by (intros []; [unfold same_bt; cbn; auto 10|apply same_bt_refl]).
  assert (KW : forall q, kept s (BtSpec.with_el s q)) by (intros; unfold kept; cbn; auto).
  assert (K0 : kept s s) by (unfold kept; auto).
  destruct (Nat.ltb_spec (length (BtSpec.s_el s)) (BtSpec.s_max s)) as [C|C].
  { injection E as <- <-. split; [|split; [apply KW|exact Logic.I]]. apply wf_sub; auto. lia. }
  cbv zeta in E. destruct (BtSpec.drops_low _); [|destruct (BtSpec.drops_high _)].
  - destruct (BtSpec.s_first _) as [mn|]; [|injection E as <- <-; auto using same_bt_refl].
    destruct (BtSpec.klt _ _); injection E as <- <-; [auto|]. split; [|auto]. apply MK. apply wf_sub; auto.
    + apply tl_sorted; exact IS.
    + rewrite tl_length. lia.
    + eapply Forall_sub; [|exact IT]. apply tl_In.
  - destruct (BtSpec.s_last _) as [mn|]; [|injection E as <- <-; auto using same_bt_refl].
    destruct (BtSpec.klt _ _); injection E as <- <-; [auto|]. split; [|auto]. apply MK. apply wf_sub; auto.
    + apply BtRefine.removelast_sorted; exact IS.
    + rewrite BtRefine.removelast_length. lia.
    + eapply Forall_sub; [|exact IT]. apply BtRefine.removelast_In.
  - injection E as <- <-. auto using same_bt_refl.
Qed.

Lemma put_wf s e : wf_bt s -> wf_bt (BtSpec.with_el s (BtSpec.put e (BtSpec.s_el s))).
Proof.
  intros W. pose proof W as (W1 & W2 & W3 & W4 & W5). apply wf_sub; auto.
  - eapply BtOps.sorted_keys; [symmetry; apply BtOps.put_keys|exact W1].
  - rewrite BtRun.put_length. exact W2.
  - apply Forall_forall. intros x HX. apply (in_map BtModel.bk) in HX. rewrite BtOps.put_keys in HX. apply in_map_iff in HX. destruct HX as (y & Y1 & Y2).
    rewrite <- Y1. exact (proj1 (Forall_forall _ _) W4 y Y2).
Qed.

Lemma found_free s k x : wf_bt s -> BtSpec.lookup k (BtSpec.s_el s) = Some x -> BtModel.bk x = k /\ BtSpec.s_has_type s && BtSpec.s_bad_type s k = false.
Proof.
  intros (W1 & W2 & W3 & W4 & W5) L. apply (BtRun.lookup_In _ _ _ W1) in L. destruct L as (L1 & L2). split; [exact L2|].
  pose proof (proj1 (Forall_forall _ _) W4 x L1) as T. cbn in T. subst k. unfold BtSpec.s_bad_type. rewrite <- T. destruct (BtModel.bk x); apply andb_false_r.
Qed.

Lemma bt_ins_ok o b b' r : wf_body b -> bt_ins o b = Some (b', r) -> ins_ok b b' r.
Proof.
  destruct b; cbn [bt_ins]; try discriminate. cbn [wf_body]. intros W. pose proof W as (W1 & W2 & W3 & W4 & W5).
  assert (SAME : ins_ok (Bt rd s) (Bt rd s) None) by (split; [exact W|]; split; apply same_refl).
  destruct (bt_upserts o) eqn:UP; [|intros [= <- <-]; exact SAME].
  assert (FIN : forall s' q, wf_bt s' -> kept s s' -> (match q with Some x => redo_ins (Bt rd s) x = Some (Bt rd s') | None => same_bt s s' end) -> ins_ok (Bt rd s) (Bt rd s') q).
  { intros s' q Q1 (K1 & K2 & K3) Q2. split; [exact Q1|]. split; [cbn; rewrite K1, K2, K3; auto 10|]. destruct q; [rewrite Q2; apply sameo_refl|]. split; [reflexivity|exact Q2]. }
  assert (PUT : forall e x, BtSpec.lookup (BtModel.bk e) (BtSpec.s_el s) = Some x -> redo_ins (Bt rd s) (IBt e) = Some (Bt rd (BtSpec.with_el s (BtSpec.put e (BtSpec.s_el s))))).
  { intros e x L. cbn [redo_ins BtSpec.s_step]. rewrite (proj2 (found_free s _ x W L)), L. reflexivity. }
  assert (NEW : forall e x s', BtSpec.lookup (BtModel.bk e) (BtSpec.s_el s) = None -> BtSpec.s_has_type s && BtSpec.s_bad_type s (BtModel.bk e) = false ->
     BtSpec.s_new s e = (x, s') -> (match x with BtModel.IErr _ => False | _ => True end) -> redo_ins (Bt rd s) (IBt e) = Some (Bt rd s')).
  { intros e x s' L BT E X. cbn [redo_ins BtSpec.s_step]. rewrite BT, L, E. destruct x; [reflexivity|reflexivity|contradiction]. }
  assert (K0 : forall l, kept s (BtSpec.with_el s l)) by (intros; unfold kept; cbn; auto).
  destruct o; try discriminate; cbn [BtSpec.s_step bt_elem].
  - destruct (BtSpec.s_has_type s && _) eqn:BT; [intros [= <- <-]; exact SAME|]. destruct (BtSpec.lookup _ _) eqn:L.
    + destruct rep; intros [= <- <-]; [|exact SAME]. apply FIN; [apply put_wf; exact W|auto|]. eapply PUT. exact L.
    + destruct (BtSpec.s_new s e) as [x s'] eqn:E. destruct (new_wf s e x s' W L BT E) as (N1 & N2 & N3).
      destruct x; intros [= <- <-]; apply FIN; auto; eapply NEW; eauto; exact Logic.I.
  - destruct (BtSpec.s_el s) as [|z l] eqn:EL; [intros [= <- <-]; exact SAME|]. rewrite <- EL in *. clear z l EL.
    destruct (BtSpec.s_bad_type s _) eqn:BT; [intros [= <- <-]; exact SAME|]. destruct (BtSpec.lookup b (BtSpec.s_el s)) as [x|] eqn:L; [|intros [= <- <-]; exact SAME].
    destruct (BtSpec.s_eflag u (BtModel.ef x)) as [f|] eqn:F; [|intros [= <- <-]; exact SAME]. intros [= <- <-].
    apply FIN; [apply put_wf; exact W|auto|]. apply (PUT (BtModel.mkE (BtModel.bk x) f _) x). cbn [BtModel.bk]. rewrite (proj1 (found_free s _ x W L)). exact L.
  - destruct (BtSpec.s_has_type s && _) eqn:BT; [intros [= <- <-]; exact SAME|]. destruct (BtSpec.lookup b (BtSpec.s_el s)) as [x|] eqn:L.
    + destruct (UtilModel.safe_strtoull _) as [n|]; [|intros [= <- <-]; exact SAME]. destruct (Nat.eqb _ _); [intros [= <- <-]; exact SAME|]. cbv zeta. intros [= <- <-].
      apply FIN; [apply put_wf; exact W|auto|]. apply (PUT (BtModel.mkE (BtModel.bk x) (BtModel.ef x) _) x). cbn [BtModel.bk]. rewrite (proj1 (found_free s _ x W L)). exact L.
    + destruct create; [|intros [= <- <-]; exact SAME]. destruct (BtSpec.s_new s (BtModel.mkE b f (BtSpec.s_num initial))) as [x s'] eqn:E.
      destruct (new_wf s (BtModel.mkE b f (BtSpec.s_num initial)) x s' W L BT E) as (N1 & N2 & N3).
      destruct x; intros [= <- <-]; apply FIN; auto; apply (NEW (BtModel.mkE b f (BtSpec.s_num initial)) _ _ L BT E Logic.I).
Qed.
