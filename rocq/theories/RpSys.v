(* The whole server for one key: invariant over all histories *)
From Verif Require Import Base RpModel RpSpec RpBody RpBody2 RpDel RpAct RpScan.
From Coq Require Import Permutation.
Local Open Scope nat_scope.

Definition pend_recs (ps : list entry) : list rec := map (fun p => RKey (fst p) (cap_rec (snd p))) ps.
Definition scan_log (a : scan) : list rec := sc_snap a ++ pend_recs (sc_pend a) ++ sc_new a.

Definition agrees (k : bytes) (x : option item) (new : list rec) (cap : item) : Prop :=
  forall it, x = Some it -> i_id it = i_id cap ->
    i_fl it = i_fl cap /\ i_exp it = i_exp cap /\ same_body (shell (i_body it)) (shell (i_body cap)) /\ Forall (softk k) new.
Definition scan_inv (T : N) (k : bytes) (x : option item) (nid : N) (a : scan) : Prop :=
  sc_first a k = false /\ NoDup (map fst (sc_pend a)) /\ Forall (normk k) (sc_new a) /\
  (sc_vis a k = false -> Forall (away k) (sc_snap a) /\ ~ In k (map fst (sc_pend a)) /\ Forall (away k) (sc_new a)) /\
  (sc_vis a k = true -> eqv T true x (keyed T k (scan_log a) None)) /\
  (forall cap, In (k, cap) (sc_pend a) -> Forall (away k) (sc_snap a) /\ (i_id cap < nid)%N /\ agrees k x (sc_new a) cap).
Definition inv (T : N) (k : bytes) (s : sys) : Prop :=
  (now s <= T)%N /\ wf_opt (tab s k) /\ (forall it, tab s k = Some it -> (i_id it < nid s)%N) /\
  eqv T true (tab s k) (keyed T k (base s) None) /\
  match sc s with None => True | Some a => scan_inv T k (tab s k) (nid s) a end.

Lemma away_normk k r : away k r -> normk k r.
Proof. destruct r; cbn; [congruence|auto]. Qed.
Lemma pend_away k ps : ~ In k (map fst ps) -> Forall (away k) (pend_recs ps).
Proof.
  intros H. apply Forall_forall. intros r HR. apply in_map_iff in HR. destruct HR as (p & <- & HP). cbn. apply beqb_neq. intros E. apply H. rewrite <- E. apply in_map. exact HP.
Qed.
Lemma keyed_pend T k ps cap y : NoDup (map fst ps) -> In (k, cap) ps -> keyed T k (pend_recs ps) y = redo1 T y (cap_rec cap).
Proof.
  revert y. induction ps as [|p ps IH]; intros y ND HI; [contradiction|]. cbn [map] in ND. inversion ND as [|? ? N1 N2]; subst. unfold keyed. cbn [pend_recs map fold_left redo_key].
  destruct HI as [->|HI].
  - cbn [fst snd]. rewrite beqb_refl. apply keyed_away. apply pend_away. exact N1.
  - destruct (beqb_spec (fst p) k) as [E|E]; [|apply IH; assumption]. exfalso. apply N1. rewrite E. apply (in_map fst) in HI. exact HI.
Qed.

Lemma refresh_keys k x ps : map fst (refresh_all k x ps) = map fst ps.
Proof. unfold refresh_all. rewrite map_map. apply map_ext. intros p. destruct (beqb k (fst p)); reflexivity. Qed.
Lemma refresh_other j k x ps y T : j <> k -> keyed T k (pend_recs (refresh_all j x ps)) y = keyed T k (pend_recs ps) y.
Proof.
  intros NE. revert y. induction ps as [|p ps IH]; intros y; [reflexivity|]. unfold keyed in *. cbn [refresh_all map pend_recs fold_left]. destruct (beqb_spec j (fst p)) as [E|E]; [|apply IH].
  cbn [redo_key fst snd]. rewrite <- E. rewrite (proj2 (beqb_neq j k) NE). apply IH.
Qed.
Lemma refresh_In_other j k x ps cap : j <> k -> In (k, cap) (refresh_all j x ps) <-> In (k, cap) ps.
Proof.
  intros NE. unfold refresh_all. rewrite in_map_iff. split.
  - intros (p & E & HP). destruct (beqb_spec j (fst p)) as [J|J]; [|congruence]. injection E as E1 E2. congruence.
  - intros HI. exists (k, cap). cbn [fst]. rewrite (proj2 (beqb_neq j k) NE). auto.
Qed.
Lemma refresh_In k x ps cap : In (k, cap) (refresh_all k x ps) <-> exists c0, In (k, c0) ps /\ cap = refresh x c0.
Proof.
  unfold refresh_all. rewrite in_map_iff. split.
  - intros ((j & c) & E & HP). cbn [fst snd] in E. destruct (beqb_spec k j) as [->|J]; [|injection E as E1 E2; congruence]. injection E as <-. eauto.
  - intros (c & HI & ->). exists (k, c). cbn [fst snd]. rewrite beqb_refl. auto.
Qed.

Lemma eqv_valid_now T now q x y : (now <= T)%N -> eqv T q x y -> eqv T q (valid now x) y.
Proof. intros NT. unfold eqv. rewrite (valid_later now T x NT). auto. Qed.
Lemma wf_valid now x : wf_opt x -> wf_opt (valid now x).
Proof. destruct x as [it|]; cbn; auto. destruct (expired now (i_exp it)); cbn; auto. Qed.

Lemma outcome_id now nid it c x' rs : outcome now nid it c x' rs -> forall it', x' = Some it' -> i_id it' = i_id it \/ i_id it' = nid.
Proof.
  intros O it' E. destruct O as [|fl e v w _ _|ob rs F S G|a e' _ _ _|a b e' _ _ _ _ _]; try discriminate; try (injection E as <-; auto).
  destruct ob; [|discriminate]. injection E as <-. auto.
Qed.

Lemma attr_eqv T e y1 y2 : eqv T false y1 y2 -> eqv T true (redo1 T y1 (RAttr e)) (redo1 T y2 (RAttr e)).
Proof.
  intros E. unfold redo1. unfold eqv in E. destruct (valid T y1), (valid T y2); try contradiction; [|apply eqv_refl]. destruct E as (A & B & C). apply eqv_intro; cbn; auto.
Qed.

Lemma cmd_inv T k s j c b : inv T k s -> calm T k s (ECmd j c b) -> inv T k (cmd_step s j c b).
Proof.
  intros (NT & WF & ID & REL & SC) CA. unfold cmd_step. destruct (act (now s) (nid s) (valid (now s) (tab s j)) c) as [x' rs] eqn:ACT.
  destruct (beqb_spec j k) as [->|NE].
  2:{ assert (NEb : beqb j k = false) by (apply beqb_neq; exact NE). pose proof (own_away j k rs NEb) as OA.
      unfold inv. cbn [now nid tab base sc]. unfold upd. rewrite NEb. split; [exact NT|]. split; [exact WF|]. split; [intros it HI; specialize (ID it HI); lia|].
      split; [rewrite keyed_app, (keyed_away T k (map (RKey j) rs)) by exact OA; exact REL|]. destruct (sc s) as [a|]; [|exact Logic.I].
      destruct SC as (S1 & S2 & S3 & S4 & S5 & S6). cbn [sc_vis sc_first sc_snap sc_pend sc_new].
      set (R := if dual _ j then map (RKey j) rs else []). assert (AR : Forall (away k) R) by (unfold R; destruct (dual _ j); [exact OA|constructor]). clearbody R.
      unfold scan_inv, scan_log. cbn [sc_vis sc_first sc_snap sc_pend sc_new]. rewrite NEb, refresh_keys. split; [exact S1|]. split; [exact S2|].
      split; [apply Forall_app; split; [exact S3|]; eapply Forall_impl; [|exact AR]; apply away_normk|].
      split; [|split].
      - intros V. destruct (S4 V) as (A & B & C). split; [exact A|]. split; [exact B|apply Forall_app; auto].
      - intros V. specialize (S5 V). unfold scan_log in S5. rewrite !keyed_app in *. rewrite refresh_other by exact NE. rewrite (keyed_away T k R) by exact AR. exact S5.
      - intros cap HC. apply (proj1 (refresh_In_other j k x' _ cap NE)) in HC. destruct (S6 cap HC) as (A & B & C). split; [exact A|]. split; [lia|].
        intros it HI HD. destruct (C it HI HD) as (C1 & C2 & C3 & C4). repeat (split; [assumption|]). apply Forall_app. split; [exact C4|]. eapply Forall_impl; [|exact AR]. apply away_softk. }
  cbn [calm] in CA. destruct (CA eq_refl) as (CAR & CP). clear CA.
  set (x := valid (now s) (tab s k)) in *.
  assert (WX : wf_opt x) by (apply wf_valid; exact WF).
  assert (SIM : forall y, eqv T true (tab s k) y -> wf_opt x' /\ Forall norng rs /\ eqv T true x' (fold_left (redo1 T) rs y)).
  { intros y E. eapply act_sim; [exact NT|exact WX|exact CAR|exact ACT|]. apply eqv_valid_now; assumption. }
  destruct (SIM _ REL) as (WX' & NR & REL').
  assert (NK : Forall (normk k) (map (RKey k) rs)).
  { apply Forall_forall. intros r HR. apply in_map_iff in HR. destruct HR as (r0 & <- & H0). cbn. intros _. exact (proj1 (Forall_forall _ _) NR r0 H0). }
  assert (ID' : forall it, x' = Some it -> (exists it0, x = Some it0 /\ i_id it = i_id it0) \/ i_id it = nid s).
  { intros it HI. destruct x as [it0|] eqn:EX.
    - destruct (outcome_id _ _ _ _ _ _ (act_some T _ _ _ _ _ _ WX CAR ACT) it HI) as [H|H]; [left; eauto|right; exact H].
    - right. destruct (act_none T _ _ _ _ _ None NT CAR ACT eq_refl) as (_ & _ & _ & H). apply H. exact HI. }
  assert (XT : forall it, x = Some it -> tab s k = Some it) by (intros it HI; apply (valid_some _ _ _ HI)).
  unfold inv. cbn [now nid tab base sc]. unfold upd at 1 2 3 4. rewrite beqb_refl. split; [exact NT|]. split; [exact WX'|].
  split. { intros it HI. destruct (ID' it HI) as [(it0 & H1 & H2)|H]; [specialize (ID it0 (XT _ H1)); lia|lia]. }
  split; [rewrite keyed_app, keyed_own; exact REL'|]. destruct (sc s) as [a|] eqn:SCS; [|exact Logic.I].
  destruct SC as (S1 & S2 & S3 & S4 & S5 & S6). unfold dual. cbn [sc_vis sc_first sc_snap sc_pend sc_new]. rewrite S1, beqb_refl, orb_false_r.
  set (vis' := sc_vis a k || b && negb (is_some x)).
  unfold scan_inv, scan_log. cbn [sc_vis sc_first sc_snap sc_pend sc_new]. rewrite beqb_refl, refresh_keys. fold vis'. split; [exact S1|]. split; [exact S2|].
  split; [apply Forall_app; split; [exact S3|]; destruct vis'; [exact NK|constructor]|].
  split; [|split].
  - intros V. rewrite V, app_nil_r. unfold vis' in V. apply orb_false_iff in V. destruct V as (V & _). exact (S4 V).
  - intros V. rewrite V. rewrite !keyed_app, keyed_own. destruct (sc_vis a k) eqn:VK.
    + specialize (S5 eq_refl). unfold scan_log in S5. rewrite !keyed_app in S5.
      destruct (in_dec (list_eq_dec N.eq_dec) k (map fst (sc_pend a))) as [PI|PI].
      2:{ rewrite (keyed_away T k (pend_recs (sc_pend a))) in S5 by (apply pend_away; exact PI).
          rewrite (keyed_away T k (pend_recs _)) by (apply pend_away; rewrite refresh_keys; exact PI). apply SIM. exact S5. }
      apply in_map_iff in PI. destruct PI as ((k0 & cap) & E0 & PI). cbn [fst] in E0. subst k0.
      destruct (S6 cap PI) as (A1 & A2 & A3). rewrite (keyed_away T k (sc_snap a)) in * by exact A1. rewrite (keyed_pend T k _ cap) in S5 by assumption.
      assert (PI' : In (k, refresh x' cap) (refresh_all k x' (sc_pend a))) by (apply refresh_In; eauto).
      rewrite (keyed_pend T k _ (refresh x' cap)); [|rewrite refresh_keys; exact S2|exact PI'].
      unfold refresh. destruct x' as [it'|]; [|apply SIM; exact S5]. destruct (N.eqb_spec (i_id it') (i_id cap)) as [IE|IE]; [|apply SIM; exact S5].
      destruct (ID' it' eq_refl) as [(it & EX & IO)|ION]; [|lia].
      destruct (A3 it (XT it EX) ltac:(congruence)) as (F1 & F2 & F3 & F4).
      assert (PEND : pending s k) by (unfold pending; rewrite SCS; apply (in_map fst) in PI; exact PI). specialize (CP PEND).
      rewrite EX in ACT, CAR, WX. pose proof (act_some T _ _ _ _ _ _ WX CAR ACT) as OC. inversion OC as [|fl e v w E1 E2 E3 E4|ob rs0 E1 E2 E3 E4 E5|xa e' E1 E2 E3 E4 E5|xa bb e' E1 E2 E3 E4 E5 E6 E7].
      * subst it'. cbn [i_id] in IE. lia.
      * destruct ob as [bo|]; [|discriminate]. injection E4 as <-. destruct (E3 bo eq_refl) as (G1 & G2). cbn [with_body i_exp i_body i_id i_fl] in *.
        assert (SH : same_body (shell bo) (shell (i_body cap))) by (eapply same_trans; [apply same_sym; exact G2|exact F3]).
        destruct (retain_elems _ _ SH) as (R1 & R2).
        eapply eqv_trans; [apply (proj2 (proj2 (SIM _ S5)))|]. apply fold_eqv; [exact NR|discriminate|]. apply keyed_eqv; [exact S3|discriminate|].
        apply eqv_sym. apply cap_eqv; cbn; auto.
      * subst it' rs. cbn [with_exp i_exp i_body i_id i_fl] in *. destruct (retain_elems _ _ F3) as (R1 & R2). cbn [fold_left] in *.
        destruct (expired T e') eqn:X'.
        { apply eqv_none; [cbn; rewrite X'; reflexivity|]. apply (soft_none T [RAttr (abs_exp (now s) e')]); [repeat constructor|]. apply keyed_none; [exact F4|].
          unfold cap_rec, redo1. cbn [i_exp]. rewrite X'. reflexivity. }
        { assert (X : expired T (i_exp it) = false).
          { rewrite E1 in CAR. cbn [carried] in CAR. destruct CAR as (_ & _ & _ & C4). destruct (expired T (i_exp it)) eqn:X; [|reflexivity]. rewrite (C4 eq_refl e' E3) in X'. discriminate. }
          eapply eqv_trans; [apply (proj2 (proj2 (SIM _ S5)))|]. cbn [fold_left]. apply attr_eqv. apply keyed_eqv; [exact S3|intros _; exact F4|].
          apply eqv_sym. apply cap_eqv; cbn; auto. right. split; [reflexivity|]. split; [exact X'|]. rewrite <- F2. exact X. }
      * specialize (CP xa E1). congruence.
    + cbn [orb] in vis'. destruct (S4 eq_refl) as (A & B & C). unfold vis' in V. apply andb_true_iff in V. destruct V as (_ & V). apply negb_true_iff in V.
      assert (EX : x = None) by (destruct x; [discriminate|reflexivity]).
      rewrite (keyed_away T k (sc_snap a)) by exact A. rewrite (keyed_away T k (pend_recs _)) by (apply pend_away; rewrite refresh_keys; exact B). rewrite (keyed_away T k (sc_new a)) by exact C.
      apply SIM. apply eqv_none; [|reflexivity]. rewrite <- (valid_later (now s) T _ NT). fold x. rewrite EX. reflexivity.
  - intros cap' HC. apply refresh_In in HC. destruct HC as (cap & PI & ->). destruct (S6 cap PI) as (A1 & A2 & A3).
    assert (VK : vis' = true).
    { unfold vis'. destruct (sc_vis a k) eqn:VK; [reflexivity|]. destruct (S4 eq_refl) as (_ & B & _). exfalso. apply B. apply (in_map fst) in PI. exact PI. }
    rewrite VK. split; [exact A1|]. split.
    { unfold refresh. destruct x' as [it'|]; [destruct (N.eqb _ _)|]; cbn; lia. }
    intros it' HI HD. subst x'. unfold refresh in *. destruct (N.eqb_spec (i_id it') (i_id cap)) as [IE|IE]; [|congruence].
    destruct (ID' it' eq_refl) as [(it & EX & IO)|ION]; [|lia]. destruct (A3 it (XT it EX) ltac:(congruence)) as (F1 & F2 & F3 & F4).
    assert (PEND : pending s k) by (unfold pending; rewrite SCS; apply (in_map fst) in PI; exact PI). specialize (CP PEND).
    rewrite EX in ACT, CAR, WX. pose proof (act_some T _ _ _ _ _ _ WX CAR ACT) as OC.
    inversion OC as [|fl e v w E1 E2 E3 E4|ob rs0 E1 E2 E3 E4 E5|xa e' E1 E2 E3 E4 E5|xa bb e' E1 E2 E3 E4 E5 E6 E7].
    + subst it'. cbn [i_id] in IE. lia.
    + destruct ob as [bo|]; [|discriminate]. injection E4 as <-. destruct (E3 bo eq_refl) as (G1 & G2). cbn [with_body i_exp i_body i_id i_fl] in *.
      assert (SH : same_body (shell bo) (shell (i_body cap))) by (eapply same_trans; [apply same_sym; exact G2|exact F3]).
      destruct (retain_elems _ _ SH) as (R1 & R2). split; [exact F1|]. split; [reflexivity|]. split; [eapply same_trans; [exact SH|apply same_sym; exact R2]|].
      apply Forall_app. split; [exact F4|]. apply Forall_forall. intros r HR. apply in_map_iff in HR. destruct HR as (r0 & <- & H0). cbn. intros _. apply elem_soft. exact (proj1 (Forall_forall _ _) E1 r0 H0).
    + subst it' rs. cbn [with_exp i_exp i_body i_id i_fl] in *. destruct (retain_elems _ _ F3) as (R1 & R2).
      split; [exact F1|]. split; [reflexivity|]. split; [eapply same_trans; [exact F3|apply same_sym; exact R2]|]. apply Forall_app. split; [exact F4|]. repeat constructor.
    + specialize (CP xa E1). congruence.
Qed.

Lemma flush_inv T k s p lg : inv T k s -> calm T k s (if lg : bool then EFlush p else EFlushDue p) -> inv T k (flush_step s p lg).
Proof.
  intros (NT & WF & ID & REL & SC) CA. unfold flush_step, inv. cbn [now nid tab base sc]. destruct (covers p k) eqn:CV.
  - destruct lg; cbn [calm] in CA; specialize (CA CV).
    + split; [exact NT|]. split; [exact Logic.I|]. split; [discriminate|]. split; [rewrite keyed_app; unfold keyed at 1; cbn [fold_left redo_key]; rewrite CV; apply eqv_refl|].
      destruct (sc s) as [a|]; [|exact Logic.I]. destruct SC as (S1 & S2 & S3 & S4 & S5 & S6). unfold scan_inv, scan_log. cbn [sc_vis sc_first sc_snap sc_pend sc_new].
      split; [exact S1|]. split; [exact S2|]. split; [apply Forall_app; split; [exact S3|repeat constructor]|]. split; [intros V; congruence|]. split.
      * intros _. rewrite !app_assoc, keyed_app. unfold keyed at 1. cbn [fold_left redo_key]. rewrite CV. apply eqv_refl.
      * intros cap HC. destruct (S6 cap HC) as (A & B & C). split; [exact A|]. split; [exact B|]. intros it HI. discriminate.
    + rewrite app_nil_r. split; [exact NT|]. split; [exact Logic.I|]. split; [discriminate|]. rewrite CA in *. split; [exact REL|]. destruct (sc s) as [a|]; [|exact Logic.I].
      destruct a as [v0 f0 s0 p0 n0]. cbn [RpModel.sc_vis RpModel.sc_first RpModel.sc_snap RpModel.sc_pend RpModel.sc_new]. rewrite app_nil_r. exact SC.
  - assert (AW : Forall (away k) (if lg then [RFlush p] else [])) by (destruct lg; repeat constructor; exact CV). set (R := if lg then [RFlush p] else []) in *. clearbody R. 
    split; [exact NT|]. split; [exact WF|]. split; [exact ID|]. split; [rewrite keyed_app, (keyed_away T k R) by exact AW; exact REL|].
    destruct (sc s) as [a|]; [|exact Logic.I]. destruct SC as (S1 & S2 & S3 & S4 & S5 & S6). unfold scan_inv, scan_log. cbn [sc_vis sc_first sc_snap sc_pend sc_new].
    split; [exact S1|]. split; [exact S2|]. split; [apply Forall_app; split; [exact S3|]; eapply Forall_impl; [|exact AW]; apply away_normk|].
    split; [intros V; destruct (S4 V) as (A & B & C); split; [exact A|]; split; [exact B|apply Forall_app; auto]|]. split.
    + intros V. specialize (S5 V). unfold scan_log in S5. rewrite !app_assoc in *. rewrite keyed_app, (keyed_away T k R) by exact AW. exact S5.
    + intros cap HC. destruct (S6 cap HC) as (A & B & C). split; [exact A|]. split; [exact B|]. intros it HI HD. destruct (C it HI HD) as (C1 & C2 & C3 & C4).
      repeat (split; [assumption|]). apply Forall_app. split; [exact C4|]. eapply Forall_impl; [|exact AW]. apply away_softk.
Qed.

Lemma captured_keys (t : table) n ks : (forall k, In k ks -> is_some (valid n (t k)) = true) ->
  map fst (flat_map (fun k => match valid n (t k) with Some it => [(k, it)] | None => [] end) ks) = ks.
Proof.
  induction ks as [|k ks IH]; intros H; [reflexivity|]. cbn [flat_map]. rewrite map_app, IH by (intros j HJ; apply H; right; exact HJ).
  specialize (H k (or_introl eq_refl)). destruct (valid n (t k)); [reflexivity|discriminate].
Qed.
Lemma captured_In (t : table) n ks k cap : In (k, cap) (flat_map (fun k => match valid n (t k) with Some it => [(k, it)] | None => [] end) ks) <-> In k ks /\ valid n (t k) = Some cap.
Proof.
  rewrite in_flat_map. split.
  - intros (j & HJ & HI). destruct (valid n (t j)) as [it|] eqn:V; [|contradiction]. destruct HI as [E|[]]. injection E as -> ->. auto.
  - intros (HK & V). exists k. rewrite V. split; [exact HK|left; reflexivity].
Qed.

Theorem step_inv T k s e s' : inv T k s -> calm T k s e -> step s e s' -> inv T k s'.
Proof.
  intros I CA ST. inversion ST; subst.
  - apply cmd_inv; assumption.
  - apply (flush_inv T k s p true); assumption.
  - apply (flush_inv T k s p false); assumption.
  - destruct I as (NT & R). split; [exact CA|exact R].
  - destruct I as (NT & WF & ID & REL & _). unfold inv. cbn [now nid tab base sc]. do 4 (split; [assumption|]). unfold scan_inv, scan_log. cbn.
    split; [exact CA|]. split; [constructor|]. split; [constructor|]. split; [intros _; split; [constructor|]; split; [tauto|constructor]|]. split; [discriminate|]. intros cap [].
  - destruct I as (NT & WF & ID & REL & SC). unfold inv. cbn [now nid tab base sc]. do 4 (split; [assumption|]). rewrite H in SC. destruct SC as (S1 & S2 & S3 & S4 & S5 & S6).
    unfold scan_inv, scan_log. cbn [sc_vis sc_first sc_snap sc_pend sc_new]. split; [reflexivity|].
    assert (CK : map fst (flat_map (fun k => match valid (now s) (tab s k) with Some it => [(k, it)] | None => [] end) ks) = ks).
    { apply captured_keys. intros j HJ. apply H2 in HJ. tauto. }
    rewrite CK. split; [exact H1|]. split; [exact S3|]. split; [|split].
    + intros V. apply orb_false_iff in V. destruct V as (V1 & V2). destruct (S4 V1) as (A & B & C). split; [exact A|]. split; [|exact C]. intros HI. apply H2 in HI. destruct HI as (HI & _). congruence.
    + intros V. rewrite !keyed_app. destruct (sc_vis a k) eqn:VK.
      * specialize (S5 eq_refl). unfold scan_log in S5. rewrite H0, !keyed_app in S5. rewrite (keyed_away T k (pend_recs _)); [exact S5|]. apply pend_away. rewrite CK. intros HI. apply H2 in HI. destruct HI as (_ & HI & _). congruence.
      * cbn [orb] in V. destruct (S4 eq_refl) as (A & B & C). rewrite (keyed_away T k (sc_snap a)) by exact A. rewrite (keyed_away T k (sc_new a)) by exact C.
        destruct (valid (now s) (tab s k)) as [it|] eqn:VT.
        { assert (IK : In k ks) by (apply H2; rewrite VT; auto). rewrite (keyed_pend T k _ it); [|rewrite CK; exact H1|apply captured_In; auto].
          destruct (valid_some _ _ _ VT) as (ET & _). rewrite ET in *. apply cap_sim. exact WF. }
        { rewrite keyed_away; [|apply pend_away; rewrite CK; intros HI; apply H2 in HI; rewrite VT in HI; cbn in HI; intuition congruence].
          apply eqv_none; [|reflexivity]. rewrite <- (valid_later (now s) T _ NT), VT. reflexivity. }
    + intros cap HC. apply captured_In in HC. destruct HC as (HK & HV). apply H2 in HK. destruct HK as (HK1 & HK2 & _). destruct (S4 HK2) as (A & B & C).
      destruct (valid_some _ _ _ HV) as (ET & _). split; [exact A|]. split; [apply ID; exact ET|]. intros it HI _. rewrite ET in HI. injection HI as <-.
      split; [reflexivity|]. split; [reflexivity|]. split; [apply same_refl|]. eapply Forall_impl; [|exact C]. apply away_softk.
  - destruct I as (NT & WF & ID & REL & SC). unfold inv. cbn [now nid tab base sc]. do 4 (split; [assumption|]). rewrite H in SC. destruct SC as (S1 & S2 & S3 & S4 & S5 & S6).
    rewrite H0 in *. cbn [map] in S2, S4. inversion S2 as [|? ? N1 N2]; subst. unfold scan_inv, scan_log. cbn [sc_vis sc_first sc_snap sc_pend sc_new].
    split; [exact S1|]. split; [exact N2|]. split; [exact S3|]. split; [|split].
    + intros V. destruct (S4 V) as (A & B & C). split; [|split; [intros HI; apply B; right; exact HI|exact C]]. apply Forall_app. split; [exact A|]. constructor; [|constructor].
      cbn. apply beqb_neq. intros E. apply B. left. exact E.
    + intros V. specialize (S5 V). unfold scan_log in S5. rewrite H0 in S5. rewrite !keyed_app in *. cbn [pend_recs map] in S5. unfold keyed at 2 in S5. cbn [fold_left] in S5.
      unfold keyed at 3. cbn [fold_left]. rewrite (snap_now T (now s) k p _ NT). exact S5.
    + intros cap HC. destruct (S6 cap (or_intror HC)) as (A & B & C). split; [|split; [exact B|exact C]]. apply Forall_app. split; [exact A|]. constructor; [|constructor].
      cbn. apply beqb_neq. intros E. apply N1. rewrite E. apply (in_map fst) in HC. exact HC.
  - destruct I as (NT & WF & ID & REL & SC). unfold inv. cbn [now nid tab base sc]. do 3 (split; [assumption|]). rewrite H in SC. destruct SC as (S1 & S2 & S3 & S4 & S5 & S6).
    split; [|exact Logic.I]. destruct (sc_vis a k) eqn:V.
    + specialize (S5 eq_refl). unfold scan_log in S5. rewrite H0 in S5. exact S5.
    + destruct (S4 eq_refl) as (A & B & C). rewrite keyed_away by (apply Forall_app; auto). apply eqv_none; [|reflexivity]. rewrite <- (valid_later (now s) T _ NT).
      destruct (valid (now s) (tab s k)) eqn:VT; [|reflexivity]. specialize (H1 k). rewrite VT in H1. specialize (H1 eq_refl). congruence.
  - destruct I as (NT & WF & ID & REL & SC). unfold inv. cbn [now nid tab base sc]. auto.
Qed.

Lemma start_inv T k t0 : (t0 <= T)%N -> inv T k (start t0).
Proof. intros H. unfold inv, start. cbn. split; [exact H|]. split; [exact Logic.I|]. split; [discriminate|]. split; [exact Logic.I|exact Logic.I]. Qed.

Theorem history_inv T k t0 es s : (t0 <= T)%N -> history (calm T k) t0 es s -> inv T k s.
Proof. intros H HI. induction HI; [apply start_inv; exact H|]. eapply step_inv; eassumption. Qed.

Lemma inv_restored T k s : inv T k s -> restored (valid T (tab s k)) (valid T (recover T (base s) k)).
Proof.
  intros (_ & _ & _ & REL & _). unfold recover. rewrite recover_keyed. unfold eqv in REL. unfold restored. destruct (valid T (tab s k)), (valid T (keyed T k (base s) None)); auto.
  destruct REL as (A & B & C). auto.
Qed.
