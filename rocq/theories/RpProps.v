(* Properties of recovery: C49 replay of the log, C29 checkpoint, C31 expiry *)
From Verif Require Import Base RpModel RpSpec RpBody RpAct RpScan RpSys.
From Verif Require BtModel BtSpec ListModel ListSpec.
From Coq Require Import Permutation.
Local Open Scope nat_scope.

(* ---------- C49: recovery from the log restores the item of a key ---------- *)

(* at any moment of any history whose commands on the key the log carries, whatever happens to other keys *)
Theorem C49_log_restores_key_partial T k t0 es s :
  (t0 <= T)%N -> history (calm T k) t0 es s -> restored (valid T (tab s k)) (valid T (recover T (base s) k)).
Proof. intros H HI. apply inv_restored. eapply history_inv; eassumption. Qed.

(* ---------- C29: snapshot and new log ---------- *)

(* when the checkpoint completes recovery reads the snapshot and the records of the new log only *)
Theorem C29_checkpoint_complete_partial T k t0 es s a s' :
  (t0 <= T)%N -> history (calm T k) t0 es s -> sc s = Some a -> step s EClose s' ->
  base s' = sc_snap a ++ sc_new a /\ tab s' = tab s /\ restored (valid T (tab s k)) (valid T (recover T (sc_snap a ++ sc_new a) k)).
Proof.
  intros H HI SC ST. pose proof (history_inv T k t0 es s H HI) as I. pose proof (step_inv T k s EClose s' I Logic.I ST) as I'. inversion ST; subst. rewrite SC in H0. injection H0 as <-.
  split; [reflexivity|]. split; [reflexivity|]. exact (inv_restored T k _ I').
Qed.

(* and from then on the new log carries the commands that follow *)
Theorem C29_after_checkpoint_partial T k t0 es s s1 s2 e1 e2 :
  (t0 <= T)%N -> history (calm T k) t0 es s -> step s EClose s1 -> calm T k s1 e1 -> step s1 e1 s2 ->
  history (calm T k) t0 (es ++ [EClose] ++ [e1]) s2 /\
  (calm T k s2 e2 -> forall s3, step s2 e2 s3 -> restored (valid T (tab s3 k)) (valid T (recover T (base s3) k))).
Proof.
  intros H HI S1 C1 S2. assert (H1 : history (calm T k) t0 (es ++ [EClose]) s1) by (eapply h_step; [exact HI|exact Logic.I|exact S1]).
  assert (H2 : history (calm T k) t0 ((es ++ [EClose]) ++ [e1]) s2) by (eapply h_step; eassumption). rewrite <- app_assoc in H2. split; [exact H2|].
  intros C2 s3 S3. eapply C49_log_restores_key_partial; [exact H|]. eapply h_step; eassumption.
Qed.

(* a checkpoint that fails changes nothing of what recovery reads *)
Theorem C29_failed_checkpoint s s' : step s EAbort s' -> base s' = base s /\ tab s' = tab s.
Proof. intros H. inversion H; subst. auto. Qed.

(* ---------- C31: the last value, if not expired ---------- *)

Definition untouched (k : bytes) (e : ev) : Prop :=
  match e with ECmd j _ _ => j <> k | EFlush p | EFlushDue p => covers p k = false | _ => True end.
Inductive then_quiet (P : sys -> ev -> Prop) (k : bytes) : sys -> sys -> Prop :=
| tq_end s : then_quiet P k s s
| tq_step s e s1 s2 : then_quiet P k s s1 -> untouched k e -> P s1 e -> step s1 e s2 -> then_quiet P k s s2.

Lemma quiet_tab P k s s' : then_quiet P k s s' -> tab s' k = tab s k.
Proof.
  induction 1 as [s|s e s1 s2 Q IH U C ST]; [reflexivity|]. rewrite <- IH. inversion ST; subst; try reflexivity; cbn in U.
  - unfold cmd_step. destruct (act _ _ _ _). cbn. unfold upd. rewrite (proj2 (beqb_neq _ _) U). reflexivity.
  - unfold flush_step. cbn. rewrite U. reflexivity.
  - unfold flush_step. cbn. rewrite U. reflexivity.
Qed.
Lemma quiet_history P t0 k es s s' : history P t0 es s -> then_quiet P k s s' -> exists es', history P t0 es' s'.
Proof.
  intros H Q. induction Q as [s|s e s1 s2 Q IH U C ST]; [eauto|]. destruct (IH H) as (es' & H'). exists (es' ++ [e]). eapply h_step; eassumption.
Qed.

(* k is stored, then nothing is done to it for as long as one likes: recovery at any later time T gives this very
   value if it has not expired, otherwise nothing *)
Theorem C31_last_value_partial T k t0 es s fl e v b s1 s2 :
  (t0 <= T)%N -> history (calm T k) t0 es s -> calm T k s (ECmd k (KStore fl e v) b) ->
  (match valid (now s) (tab s k) with Some it => exists w, i_body it = KV w | None => True end) ->
  step s (ECmd k (KStore fl e v) b) s1 -> then_quiet (calm T k) k s1 s2 ->
  if expired T e then valid T (recover T (base s2) k) = None
  else exists it, valid T (recover T (base s2) k) = Some it /\ i_fl it = fl /\ i_exp it = e /\ i_body it = KV v.
Proof.
  intros H HI CA KVs ST Q.
  assert (H1 : history (calm T k) t0 (es ++ [ECmd k (KStore fl e v) b]) s1) by (eapply h_step; eassumption).
  destruct (quiet_history _ _ _ _ _ _ H1 Q) as (es' & H2). pose proof (C49_log_restores_key_partial T k t0 es' s2 H H2) as R.
  rewrite (quiet_tab _ _ _ _ Q) in R. inversion ST; subst.
  assert (TB : tab (cmd_step s k (KStore fl e v) b) k = Some (mkItem (nid s) fl e (KV v))).
  { unfold cmd_step. cbn [act]. destruct (valid (now s) (tab s k)) as [[id f0 e0 b0]|]; [destruct KVs as (w & KVs); cbn in KVs; subst b0|]; cbn; unfold upd; rewrite beqb_refl; reflexivity. }
  rewrite TB in R. cbn [valid i_exp] in R. destruct (expired T e).
  - destruct (valid T (recover T (base s2) k)); [contradiction|reflexivity].
  - destruct (valid T (recover T (base s2) k)) as [it|]; [|contradiction]. exists it. cbn in R. destruct R as (R1 & R2 & R3). destruct (i_body it); try contradiction. subst. auto.
Qed.
(* k is deleted: nothing comes back *)
Theorem C31_deleted_stays_away_partial T k t0 es s b s1 s2 :
  (t0 <= T)%N -> history (calm T k) t0 es s -> step s (ECmd k KRemove b) s1 -> then_quiet (calm T k) k s1 s2 ->
  valid T (recover T (base s2) k) = None.
Proof.
  intros H HI ST Q.
  assert (H1 : history (calm T k) t0 (es ++ [ECmd k KRemove b]) s1) by (eapply h_step; [exact HI| |exact ST]; cbn; intros _; split; [exact Logic.I|discriminate]).
  destruct (quiet_history _ _ _ _ _ _ H1 Q) as (es' & H2). pose proof (C49_log_restores_key_partial T k t0 es' s2 H H2) as R.
  rewrite (quiet_tab _ _ _ _ Q) in R. inversion ST; subst.
  assert (TB : tab (cmd_step s k KRemove b) k = None) by (unfold cmd_step; cbn [act]; destruct (valid (now s) (tab s k)); cbn; unfold upd; rewrite beqb_refl; reflexivity).
  rewrite TB in R. cbn in R. destruct (valid T (recover T (base s2) k)); [contradiction|reflexivity].
Qed.
(* recovery never offers an item that has expired *)
Theorem C31_nothing_expired T rs k it : valid T (recover T rs k) = Some it -> expired T (i_exp it) = false.
Proof. intros H. apply (valid_some _ _ _ H). Qed.

(* ---------- examples ---------- *)

Definition go (s : sys) (e : ev) : sys :=
  match e with
  | ECmd k c b => cmd_step s k c b
  | EFlush p => flush_step s p true
  | EFlushDue p => flush_step s p false
  | ETick d => mkSys (now s + d) (nid s) (tab s) (base s) (sc s)
  | EOpen first => mkSys (now s) (nid s) (tab s) (base s) (Some (mkScan (fun _ => false) first [] [] []))
  | EDump => match sc s with
             | Some a => match sc_pend a with
                         | p :: r => mkSys (now s) (nid s) (tab s) (base s) (Some (mkScan (sc_vis a) (sc_first a) (sc_snap a ++ [snap_rec (now s) p]) r (sc_new a)))
                         | [] => s end
             | None => s end
  | EScan f ks => match sc s with
                  | Some a => mkSys (now s) (nid s) (tab s) (base s)
                      (Some (mkScan (fun k => sc_vis a k || f k) (fun _ => false) (sc_snap a)
                        (flat_map (fun k => match valid (now s) (tab s k) with Some it => [(k, it)] | None => [] end) ks) (sc_new a)))
                  | None => s end
  | EClose => match sc s with Some a => mkSys (now s) (nid s) (tab s) (sc_snap a ++ sc_new a) None | None => s end
  | EAbort => mkSys (now s) (nid s) (tab s) (base s) None
  end.
Definition ks : bytes := [107]%N.
Definition everything : bytes -> bool := fun _ => true.
Definition nothing : bytes -> bool := fun _ => false.
(* a history on the one key [ks]; the whole table is scanned at once *)
Definition one_key (s : sys) : Prop := forall j, j <> ks -> tab s j = None.
Definition allowed (s : sys) (e : ev) : bool :=
  match e with
  | ECmd k _ _ => beqb k ks
  | EOpen _ => negb (is_some (sc s))
  | EScan f l => match sc s with
                 | Some a => f ks && negb (sc_vis a ks) && is_nil (sc_pend a) && (if is_some (valid (now s) (tab s ks)) then match l with [j] => beqb j ks | _ => false end else is_nil l)
                 | None => false
                 end
  | EDump => match sc s with Some a => negb (is_nil (sc_pend a)) | None => false end
  | EClose => match sc s with Some a => is_nil (sc_pend a) && sc_vis a ks | None => false end
  | _ => true
  end.
Lemma go_step s e : one_key s -> allowed s e = true -> step s e (go s e) /\ one_key (go s e).
Proof.
  intros O A. destruct e; cbn [go allowed] in *.
  - apply beqb_eq in A. subst k. split; [constructor|]. intros j NJ. unfold cmd_step. destruct (act _ _ _ _). cbn. unfold upd. rewrite (proj2 (beqb_neq ks j)); auto.
  - split; [constructor|]. intros j NJ. unfold flush_step. cbn. destruct (covers p j); auto.
  - split; [constructor|]. intros j NJ. unfold flush_step. cbn. destruct (covers p j); auto.
  - split; [constructor|exact O].
  - split; [constructor; destruct (sc s); [discriminate|reflexivity]|exact O].
  - destruct (sc s) as [a|] eqn:E1; [|discriminate]. split; [|exact O]. apply andb_true_iff in A. destruct A as [A A4]. apply andb_true_iff in A. destruct A as [A A3]. apply andb_true_iff in A. destruct A as [A1 A2].
    assert (L : ks0 = if is_some (valid (now s) (tab s ks)) then [ks] else []).
    { destruct (is_some _).
      - destruct ks0 as [|j [|]]; try discriminate. apply beqb_eq in A4. subst. reflexivity.
      - destruct ks0; [reflexivity|discriminate]. }
    apply st_scan; auto.
    + destruct (sc_pend a); [reflexivity|discriminate].
    + rewrite L. destruct (is_some _); repeat constructor. intros [].
    + intros k. rewrite L. destruct (list_eq_dec N.eq_dec k ks) as [->|NE].
      * rewrite A1. destruct (sc_vis a ks); [discriminate|]. destruct (is_some (valid (now s) (tab s ks))); cbn; intuition congruence.
      * rewrite (O k NE). cbn. destruct (is_some _); cbn; intuition congruence.
  - destruct (sc s) as [a|] eqn:E1; [|discriminate]. destruct (sc_pend a) as [|p r] eqn:E2; [discriminate|]. split; [|exact O]. apply st_dump; assumption.
  - destruct (sc s) as [a|] eqn:E1; [|discriminate]. apply andb_true_iff in A. destruct A as [A1 A2]. split; [|exact O]. apply st_close; auto.
    + destruct (sc_pend a); [reflexivity|discriminate].
    + intros k HK. destruct (list_eq_dec N.eq_dec k ks) as [->|NE]; [exact A2|]. rewrite (O k NE) in HK. discriminate.
  - split; [constructor|exact O].
Qed.
Fixpoint all_ok (P : sys -> ev -> bool) (s : sys) (es : list ev) : bool :=
  match es with [] => true | e :: r => allowed s e && P s e && all_ok P (go s e) r end.
Lemma go_history (P : sys -> ev -> Prop) (Pb : sys -> ev -> bool) t0 : (forall s e, Pb s e = true -> P s e) ->
  forall es es0 s, history P t0 es0 s -> one_key s -> all_ok Pb s es = true -> history P t0 (es0 ++ es) (fold_left go es s).
Proof.
  intros PB. induction es as [|e es IH]; intros es0 s H O A; [rewrite app_nil_r; exact H|]. cbn [all_ok] in A. apply andb_true_iff in A. destruct A as (A & A3). apply andb_true_iff in A. destruct A as (A1 & A2).
  destruct (go_step s e O A1) as (ST & O').
  cbn [fold_left]. replace (es0 ++ e :: es) with ((es0 ++ [e]) ++ es) by (rewrite <- app_assoc; reflexivity). apply IH; auto. eapply h_step; eauto.
Qed.
Lemma go_run (P : sys -> ev -> Prop) Pb es : (forall s e, Pb s e = true -> P s e) -> all_ok Pb (start 0) es = true -> history P 0 es (fold_left go es (start 0)).
Proof. intros PB A. apply (go_history P Pb 0 PB es [] (start 0)); [constructor|intros j _; reflexivity|exact A]. Qed.

Lemma go_one_key Pb es : forall s, one_key s -> all_ok Pb s es = true -> one_key (fold_left go es s).
Proof.
  induction es as [|e es IH]; intros s O A; [exact O|]. cbn [all_ok] in A. apply andb_true_iff in A. destruct A as (A & A3). apply andb_true_iff in A. destruct A as (A1 & A2).
  cbn [fold_left]. apply IH; [|exact A3]. apply go_step; assumption.
Qed.

Definition made_okb (cr : option creation) : bool :=
  match cr with
  | Some (_, _, Lst mx _ _ _) => (1 <=? mx)%Z
  | Some (_, _, St mx _ _) | Some (_, _, Mp mx _ _) => Nat.leb 1 mx
  | Some (_, _, Bt _ s) => Nat.leb 1 (BtSpec.s_max s)
  | _ => true
  end.
Definition carriedb (T : N) (x : option item) (c : kcmd) : bool :=
  match c with
  | KStore _ e _ => negb (is_some (valid T x)) || negb (expired T e)
  | KCreate fl e b => made_okb (Some (fl, e, b))
  | KLIns cr _ _ | KSIns cr _ | KMIns cr _ _ _ | KBIns cr _ => made_okb cr
  | KAttr a =>
      negb (is_some (x_rng a)) && negb (match x_max a with Some O => true | _ => false end) &&
      match x with
      | Some it => match i_body it with KV _ => negb (has_info a) | _ => true end &&
                   (negb (expired T (i_exp it)) || match x_exp a with Some e => expired T e | None => true end)
      | None => true
      end
  | _ => true
  end.
Definition calmb (T : N) (s : sys) (e : ev) : bool :=
  match e with
  | ECmd _ c _ => carriedb T (valid (now s) (tab s ks)) c && match c with KAttr a => negb (has_info a) | _ => true end
  | EFlush p => match sc s with Some a => sc_vis a ks | None => true end
  | EFlushDue p => negb (is_some (tab s ks))
  | ETick d => (now s + d <=? T)%N
  | EOpen first => negb (first ks)
  | _ => true
  end.
Lemma made_okb_ok cr : made_okb cr = true -> made_ok cr.
Proof. destruct cr as [[[fl e] [v|mx ov rd l|mx rd l|mx rd l|rd s]]|]; cbn [made_okb made_ok]; auto; try apply Nat.leb_le. apply Z.leb_le. Qed.
Lemma carriedb_ok T x c : carriedb T x c = true -> carried T x c.
Proof.
  destruct c; cbn [carriedb carried]; auto using made_okb_ok.
  - destruct (valid T x), (expired T e); cbn; auto; discriminate.
  - intros A. apply andb_true_iff in A. destruct A as (A & A3). apply andb_true_iff in A. destruct A as (A1 & A2).
    split; [destruct (x_rng x0); [discriminate|reflexivity]|]. split; [intros E; rewrite E in A2; discriminate|]. destruct x as [it|]; [|exact Logic.I].
    apply andb_true_iff in A3. destruct A3 as (A3 & A4). split; [destruct (i_body it); auto; destruct (has_info x0); [discriminate|reflexivity]|].
    intros EX e E. rewrite EX, E in A4. exact A4.
Qed.
Lemma calmb_ok T s e : calmb T s e = true -> calm T ks s e.
Proof.
  destruct e; cbn [calmb calm]; auto.
  - intros A EK. apply andb_true_iff in A. destruct A as (A1 & A2). split; [apply carriedb_ok; exact A1|]. intros _ a ->. destruct (has_info a); [discriminate|reflexivity].
  - intros A _. destruct (sc s); auto.
  - intros A _. destruct (tab s ks); [discriminate|reflexivity].
  - apply N.leb_le.
  - destruct (first ks); [discriminate|reflexivity].
Qed.

Definition va : bytes := [97]%N.
Definition vb : bytes := [98]%N.
Definition vc : bytes := [99]%N.
Definition lst : creation := (0%N, Never, Lst 5 ListModel.OvError true []).
Definition recovered (T : N) (s : sys) : option item := valid T (recover T (base s) ks).
Definition live (T : N) (s : sys) : option item := valid T (tab s ks).
Definition run (es : list ev) : sys := fold_left go es (start 0).
Definition cmd (c : kcmd) : ev := ECmd ks c false.
Definition attrs : xattr := mkX None None None false None None.

(* a calm history with a checkpoint during which the list changes before and after it is met *)
Definition ex_events : list ev :=
  [cmd (KLIns (Some lst) 0 va); cmd (KLIns None (-1) vb); EOpen nothing; cmd (KLIns None (-1) vc);
   EScan everything [ks]; cmd (KLDel 0 0 false false); cmd (KAttr (mkX (Some (At 100)) None None false None None)); EDump;
   cmd (KLIns None 0 va); EClose; cmd (KLDel (-1) (-1) true true); ETick 7].
Example C29_nontrivial :
  history (calm 50 ks) 0 ex_events (run ex_events) /\ length (base (run ex_events)) = 5 /\
  option_map i_body (tab (run ex_events) ks) = Some (Lst 5 ListModel.OvError true [va; vb]) /\
  recovered 50 (run ex_events) = Some (mkItem 0 0 (At 100) (Lst 5 ListModel.OvError true [va; vb])).
Proof. split; [apply go_run with (Pb := calmb 50); [apply calmb_ok|vm_compute; reflexivity]|vm_compute; auto]. Qed.
Example C29_complete_nontrivial : exists es s a s',
  history (calm 50 ks) 0 es s /\ sc s = Some a /\ step s EClose s' /\ length (sc_snap a) = 1 /\ length (sc_new a) = 3.
Proof.
  exists (firstn 9 ex_events), (run (firstn 9 ex_events)). eexists. exists (go (run (firstn 9 ex_events)) EClose).
  split; [apply go_run with (Pb := calmb 50); [apply calmb_ok|vm_compute; reflexivity]|]. split; [vm_compute; reflexivity|]. split.
  - apply go_step; [|vm_compute; reflexivity]. apply (go_one_key (calmb 50)); [intros j _; reflexivity|vm_compute; reflexivity].
  - vm_compute. auto.
Qed.

Definition bempty (mx : nat) (o : BtModel.ovact) : creation := (0%N, Never, Bt true (BtSpec.mkSp [] mx o false BtModel.TUnknown None)).
Definition bins (k : BtModel.bkey) (v : bytes) : BtModel.op := BtModel.Insert (BtModel.mkE k [] v) false false true 9.
(* a map, a set and a B+tree one after the other under the same key *)
Definition ex_kinds : list ev :=
  [cmd (KMIns (Some (3%N, At 70, Mp 4 true [])) false va vb); cmd (KMIns None false vb vb); cmd (KMUpd va vc); cmd KRemove;
   cmd (KSIns (Some (3%N, At 70, St 4 true [])) va); cmd (KSIns None vb); cmd (KSDel [va; vb] true);
   cmd (KStore 5 Never va); cmd (KStore 6 (At 60) vb); EFlush None;
   cmd (KBIns (Some (bempty 2 BtModel.OvSmallest)) (bins (BtModel.U64 5) va)); cmd (KBIns None (bins (BtModel.U64 3) va)); cmd (KBIns None (bins (BtModel.U64 9) vc))].
Example C49_nontrivial :
  history (calm 50 ks) 0 ex_kinds (run ex_kinds) /\ length (base (run ex_kinds)) = 14 /\
  option_map i_body (recovered 50 (run ex_kinds)) =
    Some (Bt true (BtSpec.mkSp [BtModel.mkE (BtModel.U64 5) [] va; BtModel.mkE (BtModel.U64 9) [] vc] 2 BtModel.OvSmallest true BtModel.TU64 None)).
Proof. split; [apply go_run with (Pb := calmb 50); [apply calmb_ok|vm_compute; reflexivity]|vm_compute; auto]. Qed.
Example C31_nontrivial :
  let es := [cmd (KStore 5 Never va)] in
  history (calm 50 ks) 0 es (run es) /\ calm 50 ks (run es) (cmd (KStore 6 (At 60) vb)) /\
  step (run es) (cmd (KStore 6 (At 60) vb)) (go (run es) (cmd (KStore 6 (At 60) vb))).
Proof.
  split; [apply go_run with (Pb := calmb 50); [apply calmb_ok|vm_compute; reflexivity]|]. split; [apply calmb_ok; vm_compute; reflexivity|]. constructor.
Qed.

(* ---------- what recovery does not restore ---------- *)

Definition anyb : sys -> ev -> bool := fun _ _ => true.
Definition any : sys -> ev -> Prop := fun _ _ => True.
Ltac by_run es := exists es, (run es); split; [apply go_run with (Pb := anyb); [intros; exact Logic.I|vm_compute; reflexivity]|vm_compute; auto].

(* C31: overwritten by a value that has expired at the time of recovery, the older value is back *)
Theorem C31_old_value_refuted : exists es s, history any 0 es s /\
  es = [cmd (KStore 0 Never va); cmd (KStore 0 (At 10) vb)] /\ live 20 s = None /\ recovered 20 s = Some (mkItem 0 0 Never (KV va)).
Proof. by_run [cmd (KStore 0 Never va); cmd (KStore 0 (At 10) vb)]. Qed.
(* C31: stored with a short life that a later setattr prolonged; recovery loses the item *)
Theorem C31_prolonged_refuted : exists es s, history any 0 es s /\
  es = [cmd (KStore 0 (At 10) va); cmd (KAttr (mkX (Some (At 1000)) None None false None None))] /\
  option_map i_body (live 20 s) = Some (KV va) /\ recovered 20 s = None.
Proof. by_run [cmd (KStore 0 (At 10) va); cmd (KAttr (mkX (Some (At 1000)) None None false None None))]. Qed.

(* C49: the flush of a prefix, and its replay, remove the keys of the prefix and nothing else *)
Lemma before_colon_ok k : match before_colon k with Some p => exists r, k = p ++ 58%N :: r /\ ~ In 58%N p | None => ~ In 58%N k end.
Proof.
  induction k as [|c k IH]; cbn; [tauto|]. destruct (N.eqb_spec c 58) as [->|NE]; [exists k; cbn; tauto|].
  destruct (before_colon k) as [p|].
  - destruct IH as (r & -> & N). exists r. split; [reflexivity|]. intros [Q|Q]; auto.
  - intros [Q|Q]; auto.
Qed.
Lemma colon_unique (p q r t : bytes) : p ++ 58%N :: r = q ++ 58%N :: t -> ~ In 58%N p -> ~ In 58%N q -> p = q.
Proof.
  revert q. induction p as [|a p IH]; intros [|b q]; cbn; intros E N1 N2; auto.
  - injection E as E _. subst. tauto.
  - injection E as E _. subst. tauto.
  - injection E as -> E. f_equal. apply IH; auto.
Qed.
Lemma covers_belongs k q : covers (Some q) k = true <-> belongs k q.
Proof.
  unfold covers, prefix_name. destruct k as [|c k].
  - destruct q; cbn; split; intros H; try discriminate; auto. destruct H as (r & E & _). discriminate.
  - pose proof (before_colon_ok k) as B. destruct (before_colon k) as [p|]; rewrite beqb_eq; (split; [intros ->|intros H]).
    + destruct B as (r & -> & N). exists r. auto.
    + destruct B as (r & -> & N). destruct q as [|d q].
      * elim (H c _ eq_refl). apply in_app_iff. right. now left.
      * destruct H as (t & E & M). injection E as <- E. f_equal. symmetry. eapply colon_unique; eauto.
    + intros d r E. now injection E as <- <-.
    + destruct q as [|d q]; auto. destruct H as (t & E & M). injection E as <- E. elim B. rewrite E. apply in_app_iff. right. now left.
Qed.
Theorem C49_flush_scope s q logged k now t :
  (belongs k q -> tab (flush_step s (Some q) logged) k = None /\ redo now t (RFlush (Some q)) k = None) /\
  (~ belongs k q -> tab (flush_step s (Some q) logged) k = tab s k /\ redo now t (RFlush (Some q)) k = t k).
Proof.
  unfold flush_step. cbn [tab redo]. rewrite <- covers_belongs. destruct (covers (Some q) k); split; intros H; try tauto; try discriminate; auto.
Qed.
Example flush_scope_ex : belongs [97; 58; 98]%N [97]%N /\ belongs [58; 98; 58; 99]%N [58; 98]%N /\ belongs [58; 98]%N [] /\ ~ belongs [97]%N [97]%N.
Proof.
  split; [|split; [|split]].
  - exists [98]%N. cbn. tauto.
  - exists [99]%N. cbn. split; [reflexivity|]. intros [Q|[]]. discriminate.
  - intros c r [= <- <-] [Q|[]]. discriminate.
  - intros (r & E & _). discriminate.
Qed.

(* C29: flush_all during a checkpoint, then a store of a key the scan has not met *)
Theorem C29_flush_refuted : exists es s, history any 0 es s /\
  es = [EOpen nothing; EFlush None; cmd (KStore 0 Never va); EScan everything [ks]; EDump; EClose] /\
  option_map i_body (live 20 s) = Some (KV va) /\ recovered 20 s = None.
Proof. by_run [EOpen nothing; EFlush None; cmd (KStore 0 Never va); EScan everything [ks]; EDump; EClose]. Qed.
(* C29: elements deleted and maxcount lowered between the moment the scan meets a list and the moment it is written *)
Definition ev_maxcount : list ev :=
  [cmd (KLIns (Some lst) 0 va); cmd (KLIns None (-1) vb); cmd (KLIns None (-1) vc); EOpen nothing; EScan everything [ks];
   cmd (KLDel 0 1 false false); cmd (KAttr (mkX None (Some 1) None false None None)); EDump; EClose].
Theorem C29_maxcount_refuted : exists es s, history any 0 es s /\ es = ev_maxcount /\
  option_map i_body (live 20 s) = Some (Lst 1 ListModel.OvError true [vc]) /\ recovered 20 s = None.
Proof. by_run ev_maxcount. Qed.
(* C29: before the first call of the scan, keys may be taken for passed: the insert is in the snapshot and in the log *)
Definition ev_first : list ev :=
  [cmd (KLIns (Some lst) 0 va); EOpen everything; cmd (KLIns None (-1) vb); EScan everything [ks]; EDump; EClose].
Theorem C29_first_call_refuted : exists es s, history any 0 es s /\ es = ev_first /\
  option_map i_body (live 20 s) = Some (Lst 5 ListModel.OvError true [va; vb]) /\ recovered 20 s = None.
Proof. by_run ev_first. Qed.

(* C49: a delayed flush is not logged *)
Theorem C49_delayed_flush_refuted : exists es s, history any 0 es s /\
  es = [cmd (KStore 0 Never va); EFlushDue None] /\ live 20 s = None /\ recovered 20 s = Some (mkItem 0 0 Never (KV va)).
Proof. by_run [cmd (KStore 0 Never va); EFlushDue None]. Qed.
Definition trim_of (x : option item) : option bool := match x with Some it => match i_body it with Bt _ s => Some (BtSpec.s_trim s) | _ => None end | None => None end.
(* C49: an insert refused as out of range sets the trimmed mark, which is not logged *)
Theorem C49_trimmed_mark_refuted : exists es s, history any 0 es s /\
  es = [cmd (KBIns (Some (bempty 1 BtModel.OvSmallest)) (bins (BtModel.U64 5) va)); cmd (KBIns None (bins (BtModel.U64 3) va))] /\
  trim_of (live 20 s) = Some true /\ trim_of (recovered 20 s) = Some false.
Proof. by_run [cmd (KBIns (Some (bempty 1 BtModel.OvSmallest)) (bins (BtModel.U64 5) va)); cmd (KBIns None (bins (BtModel.U64 3) va))]. Qed.
Definition setrng (r : option BtModel.bkey) (j : option BtModel.bkey) : ev := cmd (KAttr (mkX None None None false (Some r) j)).
(* C49: maxbkeyrange unset: the replay keeps the old range, a later insert fails there and the B+tree is dropped *)
Definition ev_unset : list ev :=
  [cmd (KBIns (Some (bempty 5 BtModel.OvError)) (bins (BtModel.U64 5) va)); setrng (Some (BtModel.U64 10)) None; setrng None None;
   cmd (KBIns None (bins (BtModel.U64 50) vb))].
Theorem C49_range_unset_refuted : exists es s, history any 0 es s /\ es = ev_unset /\
  option_map (fun it => length (elems_of (i_body it))) (live 20 s) = Some 2 /\ recovered 20 s = None.
Proof. by_run ev_unset. Qed.
(* C49: maxbkeyrange of the other bkey type on an emptied B+tree *)
Definition ev_bktype : list ev :=
  [cmd (KBIns (Some (bempty 5 BtModel.OvError)) (bins (BtModel.U64 5) va)); cmd (KBDel (BtModel.Delete (BtModel.mkR (BtModel.U64 5) None) None 0) false false);
   setrng (Some (BtModel.Bin [1]%N)) None; cmd (KBIns None (bins (BtModel.Bin [7]%N) vb))].
Theorem C49_bkey_type_refuted : exists es s, history any 0 es s /\ es = ev_bktype /\
  option_map (fun it => length (elems_of (i_body it))) (live 20 s) = Some 1 /\ recovered 20 s = None.
Proof. by_run ev_bktype. Qed.
(* C49: setattr maxcount on a plain item is answered OK and logged; the replay removes the item *)
Theorem C49_plain_item_refuted : exists es s, history any 0 es s /\
  es = [cmd (KStore 0 Never va); cmd (KAttr (mkX None (Some 100) None false None None))] /\ option_map i_body (live 20 s) = Some (KV va) /\ recovered 20 s = None.
Proof. by_run [cmd (KStore 0 Never va); cmd (KAttr (mkX None (Some 100) None false None None))]. Qed.
(* C49: setattr maxbkeyrange on a list: what lies behind the attributes is logged as the range *)
Theorem C49_list_range_refuted : exists es s, history any 0 es s /\
  es = [cmd (KLIns (Some lst) 0 va); setrng (Some (BtModel.U64 1)) (Some (BtModel.U64 77))] /\
  option_map i_body (live 20 s) = Some (Lst 5 ListModel.OvError true [va]) /\ recovered 20 s = None.
Proof. by_run [cmd (KLIns (Some lst) 0 va); setrng (Some (BtModel.U64 1)) (Some (BtModel.U64 77))]. Qed.

Print Assumptions C49_log_restores_key_partial.
Print Assumptions C49_flush_scope.
Print Assumptions C29_checkpoint_complete_partial.
Print Assumptions C29_after_checkpoint_partial.
Print Assumptions C29_failed_checkpoint.
Print Assumptions C31_last_value_partial.
Print Assumptions C31_deleted_stays_away_partial.
Print Assumptions C31_nothing_expired.
Print Assumptions C31_old_value_refuted.
Print Assumptions C31_prolonged_refuted.
Print Assumptions C29_flush_refuted.
Print Assumptions C29_maxcount_refuted.
Print Assumptions C29_first_call_refuted.
Print Assumptions C49_delayed_flush_refuted.
Print Assumptions C49_trimmed_mark_refuted.
Print Assumptions C49_range_unset_refuted.
Print Assumptions C49_bkey_type_refuted.
Print Assumptions C49_plain_item_refuted.
Print Assumptions C49_list_range_refuted.
