(* Progress of the log buffer: draining, and waiting for room. *)
From Verif Require Import Base LbModel LbSpec LbProofs LbInv.
Open Scope N_scope.

Section Sizes.
  Variable SZ FQ : N.
  Hypothesis FQ2 : 2 <= FQ.
  Hypothesis SZ1 : 0 < SZ.

  (* one call of do_log_buff_flush without other threads in between *)
  Definition cycle (all async : bool) : list lop := [Flush1 all; Flush2 async; Flush3; Flush4].
  Definition rest (async : bool) : list lop := [Flush2 async; Flush3; Flush4].
  Fixpoint cycles (k : nat) (all async : bool) : list lop := match k with O => [] | S n => cycle all async ++ cycles n all async end.

  Lemma lrun_app l1 : forall l2 s, lrun SZ FQ (l1 ++ l2) s = lrun SZ FQ l2 (lrun SZ FQ l1 s).
  Proof. induction l1 as [|o l1 IH]; intros l2 s; [reflexivity|]. cbn [app lrun]. apply IH. Qed.
  Lemma wrun_app l1 : forall l2 s w, wrun SZ FQ (l1 ++ l2) s w = wrun SZ FQ l2 (lrun SZ FQ l1 s) (wrun SZ FQ l1 s w).
  Proof. induction l1 as [|o l1 IH]; intros l2 s w; [reflexivity|]. cbn [app lrun wrun]. apply IH. Qed.
  Lemma lawful_app l1 : forall l2 s w, lawful SZ FQ (l1 ++ l2) s w <-> lawful SZ FQ l1 s w /\ lawful SZ FQ l2 (lrun SZ FQ l1 s) (wrun SZ FQ l1 s w).
  Proof.
    induction l1 as [|o l1 IH]; intros l2 s w; cbn [app lrun wrun lawful]; [tauto|]. rewrite IH. tauto.
  Qed.

  Definition flushes (l : list lop) : Prop := Forall (fun o => match o with Flush1 _ | Flush2 _ | Flush3 | Flush4 => True | _ => False end) l.
  Lemma flushes_lawful l : flushes l -> forall s w, lawful SZ FQ l s w /\ wrun SZ FQ l s w = w.
  Proof.
    induction 1 as [|o l H _ IH]; intros s w; [split; [exact Logic.I|reflexivity]|]. cbn [lawful wrun].
    pose proof (IH (lstep SZ FQ o s) w) as [X Y]. destruct o; try contradiction; cbn [allowed wstep]; (split; [split; [exact Logic.I|exact X]|exact Y]).
  Qed.
  Lemma flushes_cycle all a : flushes (cycle all a).
  Proof. repeat constructor. Qed.
  Lemma flushes_cycles k all a : flushes (cycles k all a).
  Proof. induction k as [|k IH]; [constructor|]. apply Forall_app. split; [apply flushes_cycle|exact IH]. Qed.
  Lemma flushes_rest a : flushes (rest a).
  Proof. repeat constructor. Qed.
  Lemma inv_flushes cl l s w : Inv SZ FQ cl s w -> flushes l -> Inv SZ FQ cl (lrun SZ FQ l s) w.
  Proof.
    intros I H. revert s I. induction H as [|o l H _ IH]; intros s I; [exact I|]. cbn [lrun]. apply IH.
    destruct o; try contradiction; cbn [lstep]; [apply inv_flush1|apply inv_flush2|apply inv_flush3|apply inv_flush4]; assumption.
  Qed.

  Lemma rest_idle a s : b_ph (lrun SZ FQ (rest a) s) = Idle.
  Proof.
    unfold rest. cbn [lrun lstep]. unfold flush2. destruct (b_ph s) as [|n d c|n d|n] eqn:PH.
    - unfold flush3. rewrite PH. unfold flush4. rewrite PH. exact PH.
    - destruct c as [wd|]; unfold flush3; cbn [b_ph]; destruct (0 <? n); reflexivity.
    - unfold flush3. rewrite PH. destruct (0 <? n); reflexivity.
    - unfold flush3. rewrite PH. unfold flush4. rewrite PH. reflexivity.
  Qed.
  Lemma rest_que a s : b_que (lrun SZ FQ (rest a) s) =
    match b_ph s with
    | Picked n _ _ | Ready n _ =>
        if 0 <? n then {| q_at := upd (q_at (b_que s)) (q_bgn (b_que s)) (0, false); q_bgn := nxt FQ (q_bgn (b_que s)); q_end := q_end (b_que s); q_dw := q_dw (b_que s); q_dwsize := q_dwsize (b_que s) |}
        else b_que s
    | Written _ => {| q_at := upd (q_at (b_que s)) (q_bgn (b_que s)) (0, false); q_bgn := nxt FQ (q_bgn (b_que s)); q_end := q_end (b_que s); q_dw := q_dw (b_que s); q_dwsize := q_dwsize (b_que s) |}
    | Idle => b_que s
    end.
  Proof.
    unfold rest. cbn [lrun lstep]. unfold flush2. destruct (b_ph s) as [|n d c|n d|n] eqn:PH.
    - unfold flush3. rewrite PH. unfold flush4. rewrite PH. reflexivity.
    - destruct c as [wd|]; unfold flush3; cbn [b_ph]; destruct (0 <? n); reflexivity.
    - unfold flush3. rewrite PH. destruct (0 <? n); reflexivity.
    - unfold flush3. rewrite PH. unfold flush4. rewrite PH. reflexivity.
  Qed.

  (* what is left to do *)
  Definition work (s : lb) : N := used FQ s + (if 0 <? open_n (b_que s) then 1 else 0).
  Lemma work_eq s es ob od : qrel FQ (b_que s) es ob od -> work s = len es + (match ob with [] => 0 | _ => 1 end).
  Proof.
    intro Q. unfold work. rewrite (qrel_used FQ FQ2 _ _ _ _ s eq_refl Q). destruct Q as (_ & _ & _ & _ & O & _). rewrite O.
    destruct ob; [reflexivity|]. destruct (N.ltb_spec 0 (len (n :: ob))) as [_|X]; [reflexivity|cbn in X; lia].
  Qed.

  (* the outcome of one flush call *)
  Lemma cycle_work cl s w all a : Inv SZ FQ cl s w -> b_ph s = Idle ->
    (used FQ s <> 0 \/ (all = true /\ work s <> 0)) ->
    work (lrun SZ FQ (cycle all a) s) + 1 = work s.
  Proof.
    intros (ea & eb & m & ob & od & Q & DW & ME & R & F & FL & I7 & I8 & CL & M) PH W.
    unfold cycle. cbn [lrun]. change (lrun SZ FQ (cycle all a) s) with (lrun SZ FQ (rest a) (flush1 FQ all s)).
    change (lstep SZ FQ Flush4 (lstep SZ FQ Flush3 (lstep SZ FQ (Flush2 a) (lstep SZ FQ (Flush1 all) s)))) with (lrun SZ FQ (rest a) (flush1 FQ all s)).
    destruct (mark (b_que s)) as [q1 c] eqn:MK.
    assert (Q1 : qrel FQ q1 (ea ++ eb) ob od).
    { unfold mark in MK. destruct (q_dw (b_que s)) as [e|]; [destruct (q_bgn (b_que s) =? e)|]; injection MK as <- <-; exact Q. }
    destruct (pick_rel SZ FQ FQ2 SZ1 all s q1 (ea ++ eb) ob od (b_ring s) Q1 R) as (q2 & n & d & es2 & ob2 & od2 & PK & Q2 & R2 & W2 & Z2 & B2 & SH & PN & PD).
    pose proof (flush1_eq FQ all s q1 c q2 n d false PH MK PK) as FE. rewrite FE.
    set (s1 := {| b_ring := pick_ring n (b_ring s); b_que := q2; b_lsn := b_lsn s; b_file := b_file s; b_ph := Picked n d c; b_bad := b_bad s || false |}).
    pose proof (rest_que a s1) as RQ. cbn [b_ph s1 b_que] in RQ.
    assert (N0 : n <> 0).
    { rewrite (work_eq s _ _ _ Q), (qrel_used FQ FQ2 _ _ _ _ s eq_refl Q) in W. unfold pick in PK.
      pose proof Q1 as (B & L & E & I & O & _).
      destruct (ea ++ eb) as [|e es] eqn:ES.
      - destruct W as [W|[-> W]]; [cbn in W; lia|]. cbn [length] in W. assert (OB : ob <> []) by (destruct ob; [cbn in W; lia|discriminate]).
        rewrite E in PK. cbn [length] in PK. rewrite (idx_0 FQ _ B) in PK. rewrite N.eqb_refl in PK. cbn [negb orb andb] in PK.
        destruct (N.ltb_spec 0 (open_n q1)) as [X|X]; [|rewrite O in X; destruct ob; [congruence|cbn in X; lia]].
        cbn [andb] in PK. injection PK as _ X1 _. lia.
      - destruct (N.eqb_spec (q_bgn q1) (q_end q1)) as [X|X].
        { rewrite E in X. rewrite <- (idx_0 FQ _ B) in X at 1. apply idx_inj in X; [discriminate|exact FQ2|exact B|lia|exact L]. }
        cbn [negb] in PK. destruct (I 0%nat e eq_refl) as [H1 H2]. rewrite (idx_0 FQ _ B) in H1. rewrite H1 in PK. injection PK as _ X1 _ _. cbn [fst] in X1. 
        destruct (fst e); [congruence|]. cbn in X1. lia. }
    destruct (N.ltb_spec 0 n) as [_|X]; [|lia].
    destruct PN as [?|(b & t & -> & _)]; [contradiction|].
    pose proof (pop_q FQ FQ2 q2 _ _ _ _ Q2) as Q3. rewrite <- RQ in Q3.
    rewrite (work_eq _ _ _ _ Q3), (work_eq s _ _ _ Q).
    destruct SH as [(E & -> & ->)|(E & OB & E2 & -> & ->)].
    - rewrite <- E. cbn [length]. lia.
    - rewrite E. injection E2 as _ _ ->. destruct ob; [congruence|]. cbn. lia.
  Qed.

  Lemma cycle_done cl s w a : Inv SZ FQ cl s w -> b_ph s = Idle -> work s = 0 -> drained (lrun SZ FQ (cycle true a) s).
  Proof.
    intros (ea & eb & m & ob & od & Q & DW & ME & R & F & FL & I7 & I8 & CL & M) PH W.
    rewrite (work_eq s _ _ _ Q) in W.
    assert (OB : ob = []) by (destruct ob; [reflexivity|lia]). subst ob.
    assert (ES : ea ++ eb = []) by (apply len_0; lia). apply app_eq_nil in ES. destruct ES as [-> ->]. cbn [app] in *.
    change (lrun SZ FQ (cycle true a) s) with (lrun SZ FQ (rest a) (flush1 FQ true s)).
    destruct (mark (b_que s)) as [q1 c] eqn:MK.
    assert (Q1 : qrel FQ q1 [] [] od /\ q_dw q1 = None).
    { unfold mark in MK. rewrite DW in MK. destruct m.
      - pose proof Q as (B & _). cbn [length] in MK. rewrite (idx_0 FQ _ B), N.eqb_refl in MK. injection MK as <- <-. split; [exact Q|reflexivity].
      - injection MK as <- <-. split; [exact Q|exact DW]. }
    destruct Q1 as [Q1 D1].
    assert (PK : pick FQ true s q1 = (q1, 0, false, false)).
    { unfold pick. destruct Q1 as (B & L & E & I & O & _). rewrite E. cbn [length]. rewrite (idx_0 FQ _ B), N.eqb_refl, O. reflexivity. }
    rewrite (flush1_eq FQ true s q1 c q1 0 false false PH MK PK).
    split; [apply rest_idle|]. rewrite rest_que. cbn [b_ph b_que N.ltb N.compare].
    destruct Q1 as (B & L & E & I & O & _). split; [rewrite E; cbn [length]; symmetry; apply (idx_0 FQ _ B)|]. split; [exact O|exact D1].
  Qed.

  Lemma drain cl a w : forall k s, Inv SZ FQ cl s w -> b_ph s = Idle -> work s = N.of_nat k -> drained (lrun SZ FQ (cycles (S k) true a) s).
  Proof.
    induction k as [|k IH]; intros s I PH W.
    - cbn [cycles]. rewrite app_nil_r. apply (cycle_done cl s w a I PH). exact W.
    - change (cycles (S (S k)) true a) with (cycle true a ++ cycles (S k) true a). rewrite lrun_app. apply IH.
      + apply inv_flushes; [exact I|apply flushes_cycle].
      + apply (rest_idle a (flush1 FQ true s)).
      + pose proof (cycle_work cl s w true a I PH) as C. assert (work s <> 0) by lia. specialize (C ltac:(auto)). lia.
  Qed.

  (* ---------- waiting for room ---------- *)
  Variable M : N.   (* the largest record *)
  Hypothesis SZM : 2 * M + AUTO <= SZ.
  Definition wrapped (s : lb) : Prop := forall l, r_last (b_ring s) = Some l -> SZ <= l + M.

  Lemma wrapped_write rec d s : wrapped s -> len rec <= M -> wrapped (fst (try_write SZ FQ rec d s)).
  Proof.
    unfold wrapped, try_write, find_pos. intros W L l.
    destruct (N.leb_spec (r_head (b_ring s)) (r_tail (b_ring s))); [destruct (N.ltb_spec (len rec) (SZ - r_tail (b_ring s))); [|destruct (N.ltb_spec 0 (r_head (b_ring s)))]|].
    - cbn. apply W.
    - destruct (len rec <? r_head (b_ring s)); cbn; intro X; injection X as <-; lia.
    - cbn. apply W.
    - destruct (len rec <? r_head (b_ring s) - r_tail (b_ring s)); cbn; apply W.
  Qed.
  Lemma wrapped_step o s : wrapped s -> (forall r d, o = Write r d -> len r <= M) -> wrapped (lstep SZ FQ o s).
  Proof.
    intros W L. destruct o as [r d|al|a| | | |ok| |u|]; cbn [lstep].
    - apply wrapped_write; [exact W|]. apply (L r d eq_refl).
    - destruct (b_ph s) eqn:PH; [|unfold flush1; rewrite PH; exact W..].
      destruct (mark (b_que s)) as [q1 c] eqn:MK. destruct (pick FQ al s q1) as [[[q2 n] d] bad] eqn:PK.
      rewrite (flush1_eq FQ al s q1 c q2 n d bad PH MK PK). unfold wrapped, pick_ring. cbn [b_ring].
      destruct ((0 <? n) && _); [discriminate|exact W].
    - unfold flush2. destruct (b_ph s) as [|n d [wd|]|n d|n]; exact W.
    - unfold flush3. destruct (b_ph s) as [|n d [wd|]|n d|n]; try exact W. destruct (0 <? n); exact W.
    - unfold flush4. destruct (b_ph s) as [|n d [wd|]|n d|n]; try exact W. unfold wrapped in *. cbn [b_ring].
      destruct (r_last (b_ring s)) as [l|]; [|discriminate]. destruct (r_head (b_ring s) + n =? l); [discriminate|exact W].
    - exact W.
    - unfold complete. destruct ok; exact W.
    - exact W.
    - unfold request. destruct (_ && _); exact W.
    - exact W.
  Qed.
  Definition records_le (l : list lop) : Prop := forall r d, In (Write r d) l -> len r <= M.
  Lemma wrapped_run l : forall s, wrapped s -> records_le l -> wrapped (lrun SZ FQ l s).
  Proof.
    induction l as [|o l IH]; intros s W L; [exact W|]. cbn [lrun]. apply IH; [|intros r d H; apply (L r d); right; exact H].
    apply wrapped_step; [exact W|]. intros r d ->. apply (L r d). left. reflexivity.
  Qed.

  (* a refused record means that a whole request waits *)
  Lemma refused cl s w rec d : Inv SZ FQ cl s w -> wrapped s -> len rec <= M -> used FQ s + 1 < FQ ->
    snd (try_write SZ FQ rec d s) = false -> used FQ (fst (try_write SZ FQ rec d s)) <> 0 /\ work (fst (try_write SZ FQ rec d s)) = work s.
  Proof.
    intros (ea & eb & m & ob & od & Q & DW & ME & R & F & FL & I7 & I8 & CL & MM) W L U RF.
    rewrite (qrel_used FQ FQ2 _ _ _ _ s eq_refl Q) in U.
    assert (AU : AUTO = 32768) by reflexivity.
    pose proof Q as (_ & _ & _ & _ & O & OA & _).
    unfold try_write in *. unfold find_pos in *. unfold rrel in R.
    destruct (N.leb_spec (r_head (b_ring s)) (r_tail (b_ring s))) as [HT|HT].
    - destruct (r_last (b_ring s)) as [l|] eqn:RL; [destruct R as (e1 & e2 & _ & _ & _ & X & _); lia|]. destruct R as (R1 & R2 & R3).
      assert (R4 : r_tail (b_ring s) - r_head (b_ring s) = len (cat (ea ++ eb)) + len ob).
      { apply (f_equal (@length N)) in R3. rewrite slice_len, app_length in R3. lia. }
      assert (NE : cat (ea ++ eb) <> [] -> len (ea ++ eb) <> 0) by (intros X Y; apply X; apply len_0 in Y; rewrite Y; reflexivity).
      destruct (N.ltb_spec (len rec) (SZ - r_tail (b_ring s))) as [X|X]; [discriminate RF|].
      destruct (N.ltb_spec 0 (r_head (b_ring s))) as [Y|Y].
      + destruct (N.ltb_spec (len rec) (r_head (b_ring s))) as [Z|Z]; [discriminate RF|]. cbn [fst].
        destruct (close_open_q FQ FQ2 _ _ _ _ Q U) as (new & C1 & C2 & C3 & C4 & C5 & C6 & C7).
        erewrite (qrel_used FQ FQ2 (close_open FQ (b_que s)) ((ea ++ eb) ++ new) [] false) by (reflexivity || exact C1).
        rewrite (work_eq _ ((ea ++ eb) ++ new) [] false) by exact C1. rewrite (work_eq s _ _ _ Q).
        destruct C4 as [->| ->].
        * cbn in C2. subst ob. rewrite app_nil_r. split; [|reflexivity]. apply NE. intro E. rewrite E in R4. cbn in R4. lia.
        * rewrite len_app. cbn [length]. split; [lia|]. destruct ob as [|x ob]; [|lia]. exfalso.
          destruct C1 as (_ & _ & _ & I & _). destruct (I (length (ea ++ eb)) ([], od)) as [_ T]; [rewrite nth_error_app2 by lia; rewrite Nat.sub_diag; reflexivity|]. apply T. reflexivity.
      + cbn [fst]. rewrite (work_eq _ _ _ _ (Q : qrel FQ (b_que {| b_ring := b_ring s; b_que := b_que s; b_lsn := b_lsn s; b_file := b_file s; b_ph := b_ph s; b_bad := b_bad s || false || negb (len rec <? SZ) |}) _ _ _)), (work_eq s _ _ _ Q).
        split; [|reflexivity]. erewrite (qrel_used FQ FQ2 (b_que s)) by (reflexivity || exact Q). apply NE. intro E. rewrite E in R4. cbn in R4. lia.
    - destruct (r_last (b_ring s)) as [l|] eqn:RL; [|lia]. destruct R as (e1 & e2 & E & R1 & R2 & R3 & R4 & R5). specialize (W l RL).
      destruct (N.ltb_spec (len rec) (r_head (b_ring s) - r_tail (b_ring s))) as [X|X]; [discriminate RF|]. cbn [fst].
      rewrite (work_eq _ _ _ _ (Q : qrel FQ (b_que {| b_ring := b_ring s; b_que := b_que s; b_lsn := b_lsn s; b_file := b_file s; b_ph := b_ph s; b_bad := b_bad s || false || negb (len rec <? SZ) |}) _ _ _)), (work_eq s _ _ _ Q).
      split; [|reflexivity]. erewrite (qrel_used FQ FQ2 (b_que s)) by (reflexivity || exact Q). intro Y. apply len_0 in Y. rewrite Y in E. symmetry in E. apply app_eq_nil in E. destruct E as [-> ->].
      apply (f_equal (@length N)) in R4, R5. rewrite slice_len in R4, R5. cbn [cat app length] in R4, R5. lia.
  Qed.

  (* cmdlogbuf.c 187-224: the loop of do_log_buff_write, without other threads in between; None: not within fuel *)
  Fixpoint write_loop (fuel : nat) (rec : bytes) (d a : bool) (s : lb) : option lb :=
    let '(s', ok) := try_write SZ FQ rec d s in
    if ok then Some s'
    else match fuel with O => None | S f => write_loop f rec d a (lrun SZ FQ (cycle false a) s') end.

  Lemma write_accepted cl w a rec d : len rec <= M -> rec <> [] -> (d = true -> w_mode w = Active) -> forall k s, Inv SZ FQ cl s w -> wrapped s -> b_ph s = Idle ->
    work s = N.of_nat k -> work s + len rec / AUTO + 3 < FQ -> exists s', write_loop k rec d a s = Some s'.
  Proof.
    intros L NR DA. assert (AU : AUTO = 32768) by reflexivity. assert (DN : 0 <= len rec / AUTO) by apply N.le_0_l.
    induction k as [|k IH]; intros s I W PH WK RM; cbn [write_loop]; destruct (try_write SZ FQ rec d s) as [s' ok] eqn:T; destruct ok; [eauto| |eauto|].
    - assert (US : used FQ s <= work s) by (unfold work; lia).
      destruct (refused cl s w rec d I W L ltac:(lia)) as [R1 R2]; [rewrite T; reflexivity|]. rewrite T in R1, R2. cbn [fst] in *.
      exfalso. apply R1. assert (X : used FQ s' <= work s') by (unfold work; lia). lia.
    - assert (US : used FQ s <= work s) by (unfold work; lia).
      destruct (refused cl s w rec d I W L ltac:(lia)) as [R1 R2]; [rewrite T; reflexivity|]. rewrite T in R1, R2. cbn [fst] in *.
      assert (I' : Inv SZ FQ cl s' w).
      { pose proof (inv_write SZ FQ FQ2 SZ1 cl s w rec d I) as X. rewrite T in X. cbn [fst snd wstep] in X. apply X. cbn [allowed]. split; [exact NR|]. split; [exact DA|]. lia. }
      assert (PH' : b_ph s' = Idle).
      { unfold try_write in T. destruct (find_pos SZ FQ (b_ring s) (b_que s) (len rec)) as [[[r q] bad] ok]. destruct ok; injection T as <-; [discriminate|exact PH]. }
      pose proof (cycle_work cl s' w false a I' PH' ltac:(auto)) as C.
      apply IH.
      + apply inv_flushes; [exact I'|apply flushes_cycle].
      + apply wrapped_run; [|intros r x H; cbn in H; intuition discriminate]. replace s' with (fst (try_write SZ FQ rec d s)) by (rewrite T; reflexivity). apply wrapped_write; assumption.
      + apply (rest_idle a (flush1 FQ false s')).
      + lia.
      + lia.
  Qed.
End Sizes.
