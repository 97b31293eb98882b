(* C26: what group commit has acknowledged is on disk. *)
From Verif Require Import Base LbModel LbSpec LbProofs LbInv LbLive LbProps SyModel SySpec SyProofs.
Open Scope N_scope.

Section Runs.
  Variable SZ FQ : N.
  Variable m : N -> N.       (* initial content of the buffer memory *)
  Variable old : bytes.      (* the log file found at the start *)
  Variable l1 l2 : list sop. (* any schedule of the writers, the flusher, the checkpoint and the fsync thread *)
  Variable r : bytes.        (* the record of the command *)
  Variable d : bool.
  Let whole := l1 ++ L (Write r d) :: l2.
  Let y0 := yinit m old.
  Let y1 := yrun SZ FQ l1 y0.
  Let y := yrun SZ FQ whole y0.
  Let before := w_cur (ywrun SZ FQ l1 y0 (w0 old)).
  Let x := l_write (b_lsn (y_lb y1)).   (* the log sequence number the command waits for *)

  (* When the command is answered the record is on disk if the fsync covered its last byte, and its first
     byte is in every case; so is everything logged before it. *)
  Theorem C26_durable_partial : 2 <= FQ -> 0 < SZ -> ylawful SZ FQ whole y0 (w0 old) -> ~ In (L (Complete true)) l2 ->
    accepted SZ FQ (Write r d) (y_lb y1) = true -> answered y x = true ->
    (exists a t, r = a :: t /\ prefix (before ++ [a]) (durable_log y)) /\
    (answered y (fst x, snd x + N.of_nat (length r) - 1) = true -> prefix (before ++ r) (durable_log y)).
  Proof.
    intros H1 H2 LW Q AC AN. destruct (durable_main SZ FQ H1 H2 m old l1 r d l2 LW Q AC AN) as (E1 & E2 & (more & E3) & E4 & E5).
    fold whole in E1, E2, E3, E4, E5. change (at_ SZ FQ m old whole) with y in *. change (at_ SZ FQ m old l1) with y1 in *. fold x in E1, E2, E4, E5.
    change (w_cur (wat SZ FQ m old l1)) with before in *. rewrite E3 in *. remember (y_fs y) as F eqn:EF in *.
    assert (RN : r <> []).
    { apply ylawful_app in LW; try assumption. destruct LW as [_ [A _]]. exact (proj1 A). }
    assert (K : forall k, (k <= length r)%nat -> N.of_nat k <= snd F - snd x -> prefix (before ++ firstn k r) (durable_log y)).
    { intros k K1 K2. eapply prefix_trans; [|exact E5]. replace (before ++ firstn k r) with (firstn (length before + k) (before ++ r ++ more)).
      - apply firstn_mono; [apply prefix_refl|lia|]. rewrite !app_length. lia.
      - rewrite firstn_app_2. f_equal. rewrite firstn_app. replace (k - length r)%nat with 0%nat by lia. apply app_nil_r. }
    assert (E2' : 1 <= snd F - snd x) by lia. clearbody x. clear E4 E5.
    split.
    - destruct r as [|a t]; [congruence|]. exists a, t. split; [reflexivity|]. apply (K 1%nat); [cbn; lia|exact E2'].
    - intro AN2. rewrite <- (firstn_all r). apply K; [lia|]. unfold answered, lsn_le in AN2. rewrite <- EF in AN2. cbn [fst snd] in AN2. rewrite E1, N.ltb_irrefl, N.eqb_refl in AN2. cbn [orb andb] in AN2.
      destruct (N.leb_spec (snd F) (snd x + N.of_nat (length r) - 1)); [discriminate|]. destruct r; [congruence|]. cbn [length] in *. lia.
  Qed.
End Runs.

(* ---------- a run in which the fsync happens during a checkpoint ---------- *)
Definition ldemo : list lop := full ++ full.
Definition ysync : list sop := [SyncLsn; SyncFds; SyncEnd].
Definition yd1 : list sop := map L ([Write [1;2;3] false] ++ full ++ [Open]).
Definition yd2 : list sop := [L (Request (1,3)); L (Flush1 false); SyncLsn; L (Flush2 false); L (Flush3); SyncFds; L (Write [7] true); SyncEnd; L Flush4] ++
  ysync ++ [L (Complete false)].
Definition yd3 : list sop := yd2 ++ map L full ++ ysync.
Definition ydl (l2 : list sop) := yd1 ++ L (Write [4;5] true) :: l2.
Example C26_example :
  let y := yrun 20 10 (ydl yd3) (yinit mem0 [100]) in let yb := yrun 20 10 (ydl (firstn 8 yd2)) (yinit mem0 [100]) in
  ylawful 20 10 (ydl yd3) (yinit mem0 [100]) (w0 [100]) /\ accepted 20 10 (Write [4;5] true) (y_lb (yrun 20 10 yd1 (yinit mem0 [100]))) = true /\
  l_write (b_lsn (y_lb (yrun 20 10 yd1 (yinit mem0 [100])))) = (1, 3) /\ answered yb (1, 3) = false /\
  answered y (1, 3) = true /\ answered y (1, 4) = true /\ durable_log y = [100;1;2;3;4;5;7] /\ durable y 1 = [4;5].
Proof.
  cbn zeta. split; [|vm_compute; conj; reflexivity].
  vm_compute. conj; try exact Logic.I; try reflexivity; try discriminate; try (intro; congruence); try (left; reflexivity); try (intros _; reflexivity).
Qed.

(* A command is answered as soon as the fsync has covered the first byte of its record (cmdlogmgr.c 376 compares with
   the log sequence number of the beginning of the record).  Flush requests are cut every 32768 bytes without regard to the records, so the
   last byte of a record of two bytes can stay in memory, and the flusher does not write it
   before something else is logged.  Sizes of the real buffer. *)
Lemma idle_cycle a s : b_ph s = Idle -> q_dw (b_que s) = None -> q_bgn (b_que s) = q_end (b_que s) -> requested s = false ->
  lrun SZ0 FQ0 (cycle false a) s = s.
Proof.
  intros P D E R. unfold cycle, lrun, lstep, flush1. rewrite P, D, E, N.eqb_refl, R. cbn [negb orb]. rewrite andb_false_r. cbn. rewrite orb_false_r, <- P. destruct s; reflexivity.
Qed.
Lemma idle_cycles a s : b_ph s = Idle -> q_dw (b_que s) = None -> q_bgn (b_que s) = q_end (b_que s) -> requested s = false ->
  forall k, lrun SZ0 FQ0 (cycles k false a) s = s.
Proof. intros P D E R k. induction k as [|k IH]; [reflexivity|]. cbn [cycles]. rewrite lrun_app, idle_cycle; assumption. Qed.

Definition big : bytes := repeat 1 (N.to_nat 32767).
Definition st1 : list sop := [L (Write big false)].
Definition st2 : list sop := L (Request (1, 32767)) :: map L (cycle false false) ++ ysync.
Definition straddle := st1 ++ L (Write [2; 3] false) :: st2.
Definition ys : sy := yrun SZ0 FQ0 straddle (yinit mem0 []).
Definition ys1 : sy := yrun SZ0 FQ0 st1 (yinit mem0 []).
Lemma ys_at : at_ SZ0 FQ0 mem0 [] straddle = ys.
Proof. unfold at_, ys. reflexivity. Qed.
Lemma ys_wat : wat SZ0 FQ0 mem0 [] straddle = ywrun SZ0 FQ0 straddle (yinit mem0 []) (w0 []).
Proof. unfold wat. reflexivity. Qed.
Lemma ys_lawful : ylawful SZ0 FQ0 straddle (yinit mem0 []) (w0 []).
Proof.
  unfold straddle, st1, st2. cbn [app map cycle ylawful yallowed ysync]. split; [split; [discriminate|split; [discriminate|split; lazy; reflexivity]]|].
  split; [split; [discriminate|split; [discriminate|split; lazy; reflexivity]]|]. repeat split.
Qed.
Lemma ys_acc0 : accepted SZ0 FQ0 (Write big false) (y_lb (yinit mem0 [])) = true.
Proof. lazy. reflexivity. Qed.
Lemma ys_acc : accepted SZ0 FQ0 (Write [2; 3] false) (y_lb ys1) = true.
Proof. lazy. reflexivity. Qed.
Lemma ys_write1 : l_write (b_lsn (y_lb ys1)) = (1, 32767).
Proof. lazy. reflexivity. Qed.
Lemma ys_ans : answered ys (1, 32767) = true.
Proof. lazy. reflexivity. Qed.
Lemma ys_write : l_write (b_lsn (y_lb ys)) = (1, 32769).
Proof. lazy. reflexivity. Qed.
Lemma ys_flush : l_flush (b_lsn (y_lb ys)) = (1, 32768).
Proof. lazy. reflexivity. Qed.
Lemma ys_next : f_next (b_file (y_lb ys)) = None.
Proof. lazy. reflexivity. Qed.
Lemma ys_idle : y_ph ys = YIdle.
Proof. lazy. reflexivity. Qed.
Lemma ys_ph : b_ph (y_lb ys) = Idle.
Proof. lazy. reflexivity. Qed.
Lemma ys_dw : q_dw (b_que (y_lb ys)) = None.
Proof. lazy. reflexivity. Qed.
Lemma ys_bgn : q_bgn (b_que (y_lb ys)) = 1.
Proof. lazy. reflexivity. Qed.
Lemma ys_end : q_end (b_que (y_lb ys)) = 1.
Proof. lazy. reflexivity. Qed.
Lemma ys_req : requested (y_lb ys) = false.
Proof. lazy. reflexivity. Qed.
Lemma ys_len : y_len ys (f_fd (b_file (y_lb ys))) = 32768.
Proof. lazy. reflexivity. Qed.

Lemma wstep_write r d a w : a = true -> w_cur (wstep (Write r d) a w) = w_cur w ++ r.
Proof. intros ->. reflexivity. Qed.
Lemma ys_cur : w_cur (wat SZ0 FQ0 mem0 [] straddle) = big ++ [2; 3].
Proof.
  unfold straddle. change (st1 ++ L (Write [2; 3] false) :: st2) with (st1 ++ [L (Write [2; 3] false)] ++ st2). unfold wat. rewrite !ywrun_app.
  assert (X : forall y w, w_cur (ywrun SZ0 FQ0 st2 y w) = w_cur w) by (intros y w; reflexivity). rewrite X. clear X.
  fold ys1. cbn [ywrun ywstep]. rewrite wstep_write by exact ys_acc.
  unfold st1. cbn [ywrun ywstep]. rewrite wstep_write by exact ys_acc0. reflexivity.
Qed.
Lemma ys_file : cur_file (y_lb ys) = big ++ [2].
Proof.
  assert (H1 : 2 <= FQ0) by (lazy; discriminate). assert (H2 : 0 < SZ0) by reflexivity.
  pose proof (yinv SZ0 FQ0 H1 H2 mem0 [] straddle ys_lawful) as I. rewrite ys_at in I.
  destruct (stay_split SZ0 FQ0 _ _ _ I (or_intror ys_next)) as (pend & P1 & P2). rewrite ys_cur in P1.
  rewrite ys_write, ys_flush in P2. apply (f_equal snd) in P2. cbn [snd lsn_add] in P2.
  replace (big ++ [2; 3]) with ((big ++ [2]) ++ [3]) in P1 by (rewrite <- app_assoc; reflexivity).
  assert (LP : length pend = 1%nat) by lia. destruct pend as [|p [|? ?]]; try discriminate LP. apply app_inj_tail in P1. apply P1.
Qed.
Lemma durable_all y c n : cur_file (y_lb y) = c -> y_len y (f_fd (b_file (y_lb y))) = n -> N.of_nat (length c) = n -> durable_log y = c.
Proof. intros CF YL E. unfold durable_log, durable, cur_file in *. rewrite CF, YL, <- E, Nat2N.id. apply firstn_all. Qed.
Lemma big_len : N.of_nat (length (big ++ [2])) = 32768.
Proof. rewrite app_length. unfold big. rewrite repeat_length, Nat2N.inj_add, N2Nat.id. reflexivity. Qed.
Lemma ys_durable : durable_log ys = big ++ [2].
Proof. exact (durable_all ys _ _ ys_file ys_len big_len). Qed.
Theorem C26_straddle_refuted :
  ylawful SZ0 FQ0 straddle (yinit mem0 []) (w0 []) /\ ~ In (L (Complete true)) st2 /\
  accepted SZ0 FQ0 (Write [2; 3] false) (y_lb ys1) = true /\ l_write (b_lsn (y_lb ys1)) = (1, 32767) /\
  y_ph ys = YIdle /\ answered ys (1, 32767) = true /\ w_cur (ywrun SZ0 FQ0 straddle (yinit mem0 []) (w0 [])) = big ++ [2; 3] /\
  durable_log ys = big ++ [2] /\ (forall k, cur_file (lrun SZ0 FQ0 (cycles k false false) (y_lb ys)) = big ++ [2]).
Proof.
  assert (Q : ~ In (L (Complete true)) st2) by (unfold st2; cbn; intuition discriminate).
  split; [exact ys_lawful|]. split; [exact Q|]. split; [exact ys_acc|]. split; [exact ys_write1|]. split; [exact ys_idle|]. split; [exact ys_ans|].
  split; [rewrite <- ys_wat; exact ys_cur|]. split; [exact ys_durable|].
  intro k. rewrite idle_cycles; [exact ys_file|exact ys_ph|exact ys_dw|rewrite ys_bgn, ys_end; reflexivity|exact ys_req].
Qed.

(* The one request that the shutdown writes is enough if no more than one waits, and no checkpoint has just ended. *)
Section Shutdown.
  Variable SZ FQ : N.
  Hypothesis FQ2 : 2 <= FQ.
  Hypothesis SZ1 : 0 < SZ.
  Lemma no_work s w : Inv SZ FQ false s w -> stay s w -> b_ph s = Idle -> work FQ s = 0 -> cur_file s = w_cur w.
  Proof.
    intros I ST PH W. destruct I as (ea & eb & mk & ob & od & Q & DW & ME & _ & _ & _ & _ & _ & _ & M). rewrite (work_eq SZ FQ FQ2 SZ1 s _ _ _ Q) in W.
    assert (OB : ob = []) by (destruct ob; [reflexivity|lia]). subst ob.
    assert (ES : ea ++ eb = []) by (apply len_0; lia). apply app_eq_nil in ES. destruct ES as [-> ->].
    unfold mrel in M. unfold stay in ST. rewrite PH in M. cbn [eff cat app] in M. rewrite app_nil_r in M. destruct (w_mode w); try apply M.
    destruct ST as [X|X]; [congruence|]. destruct M as [(_ & _ & _ & _ & nx & Y & _)|[(_ & _ & _ & _ & wd & nx & Y & _)|(_ & _ & _ & _ & _ & _ & M1 & _)]]; [congruence|discriminate|exact M1].
  Qed.
  Lemma stay_cycle a s w : Inv SZ FQ false s w -> stay s w -> stay (lrun SZ FQ (cycle true a) s) w.
  Proof.
    intros I ST. assert (G : forall l s, Forall (fun o => allowed SZ FQ o s w /\ (forall s, allowed SZ FQ o s w) /\ o <> Complete true /\ forall b w, wstep o b w = w) l -> Inv SZ FQ false s w -> stay s w -> stay (lrun SZ FQ l s) w).
    { induction l as [|o l IH]; intros t FA I0 S0; [exact S0|]. inversion FA as [|? ? (A1 & A2 & A3 & A4) FB]; subst. cbn [lrun].
      destruct (stay_step SZ FQ false o t w I0 S0 A1 A3) as [_ S1]. rewrite A4 in S1. apply IH; [|rewrite <- (A4 (accepted SZ FQ o t) w); apply inv_step; [exact FQ2|exact SZ1|exact I0|exact A1|discriminate]|exact S1].
      apply Forall_impl with (2 := FB). intros o' (B1 & B2 & B3). auto. }
    apply G; [|exact I|exact ST]. unfold cycle. repeat constructor; discriminate.
  Qed.
  Theorem C46_one_request_partial m old l a :
    lawful SZ FQ l (linit m old) (w0 old) -> let s := lrun SZ FQ l (linit m old) in
    b_ph s = Idle -> q_dw (b_que s) = None -> used FQ s + (if 0 <? open_n (b_que s) then 1 else 0) <= 1 ->
    cur_file (lrun SZ FQ (cycle true a) s) = w_cur (wrun SZ FQ l (linit m old) (w0 old)).
  Proof.
    intros LW s PH DW W. set (w := wrun SZ FQ l (linit m old) (w0 old)).
    pose proof (inv_run SZ FQ FQ2 SZ1 false l _ _ (inv_init SZ FQ FQ2 SZ1 _ m old) LW ltac:(discriminate)) as I. fold s w in I.
    assert (ST : stay s w).
    { destruct I as (ea & eb & mk & ob & od & Q & D & _ & _ & _ & _ & _ & _ & _ & M). unfold mrel in M. unfold stay. destruct (w_mode w); try (left; discriminate).
      destruct M as [(X & _)|[(_ & _ & _ & _ & wd & nx & Y & _)|(_ & _ & _ & _ & _ & Y & _)]]; [|rewrite PH in Y; discriminate|auto]. rewrite X in D. congruence. }
    assert (I2 : Inv SZ FQ false (lrun SZ FQ (cycle true a) s) w) by (apply inv_flushes; [exact FQ2|exact SZ1|exact I|apply flushes_cycle]).
    apply no_work; [exact I2|apply stay_cycle; assumption|apply (rest_idle SZ FQ a (flush1 FQ true s))|].
    fold (work FQ s) in W. destruct (N.eq_dec (work FQ s) 0) as [E|E].
    - pose proof (cycle_done SZ FQ FQ2 SZ1 false s w a I PH E) as (_ & D2 & D3 & _).
      destruct I2 as (ea & eb & mk & ob & od & Q & _). rewrite (work_eq SZ FQ FQ2 SZ1 _ _ _ _ Q). destruct Q as (B & LE & EE & _ & O & _).
      assert (OB : ob = []) by (apply len_0; congruence). subst ob.
      assert (EA : ea ++ eb = []).
      { rewrite EE in D2. rewrite <- (idx_0 FQ _ B) in D2 at 1. apply idx_inj in D2; [|exact FQ2|exact B|lia|exact LE]. destruct (ea ++ eb); [reflexivity|discriminate]. }
      rewrite EA. reflexivity.
    - pose proof (cycle_work SZ FQ FQ2 SZ1 false s w true a I PH (or_intror (conj eq_refl E))). lia.
  Qed.
End Shutdown.
Example C46_one_example : let s := lrun 20 10 [Write [1;2] false; Write [3] false] (linit mem0 [9]) in
  lawful 20 10 [Write [1;2] false; Write [3] false] (linit mem0 [9]) (w0 [9]) /\ b_ph s = Idle /\ q_dw (b_que s) = None /\
  used 10 s + (if 0 <? open_n (b_que s) then 1 else 0) = 1 /\ cur_file (lrun 20 10 (cycle true true) s) = [9;1;2;3].
Proof. cbn zeta. split; [|vm_compute; conj; reflexivity]. vm_compute. conj; try exact Logic.I; try reflexivity; try discriminate. Qed.

Print Assumptions C46_one_request_partial.
Print Assumptions C26_durable_partial.
Print Assumptions C26_straddle_refuted.
