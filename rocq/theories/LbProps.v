(* C25: the command log files receive the records in order, exactly once. *)
From Verif Require Import Base LbModel LbSpec LbProofs LbInv LbLive.
Open Scope N_scope.

Section Runs.
  Variable SZ FQ : N.
  Variable m : N -> N.       (* initial content of the buffer memory *)
  Variable old : bytes.      (* the log file found at the start *)
  Variable l : list lop.     (* any schedule of the writers, the flusher, the checkpoint and the fsync thread *)
  Let s := lrun SZ FQ l (linit m old).
  Let w := wrun SZ FQ l (linit m old) (w0 old).

  (* At every moment the log file in use, and the one of a running checkpoint, contain a prefix of what they must get. *)
  Theorem C25_prefix_partial : 2 <= FQ -> 0 < SZ -> lawful SZ FQ l (linit m old) (w0 old) ->
    match w_mode w with
    | Normal | Failed => prefix (cur_file s) (w_cur w)
    | Active => prefix (cur_file s) (w_cur w) /\ exists x, next_file s = Some x /\ prefix x (w_next w)
    | Switching =>
        match next_file s with
        | Some x => prefix (cur_file s) (w_old w) /\ prefix x (w_cur w)
        | None => prefix (cur_file s) (w_cur w)
        end
    end.
  Proof.
    intros H1 H2 L. destruct (inv_run SZ FQ H1 H2 false l _ _ (inv_init SZ FQ H1 H2 _ m old) L) as (ea & eb & mk & ob & od & I); [discriminate|].
    fold s w in I. destruct I as (_ & _ & _ & _ & _ & _ & _ & _ & _ & M). unfold mrel in M. unfold prefix, next_file. destruct (w_mode w).
    - destruct M as (_ & _ & _ & _ & _ & M & _). eauto.
    - destruct M as (_ & _ & (nx & M1 & M2) & M & _). rewrite M1. split; [eauto|]. exists (f_data (b_file s) nx). split; [reflexivity|]. eauto.
    - destruct M as [(_ & _ & _ & _ & nx & M1 & M2 & M3 & _)|[(_ & _ & _ & _ & wd & nx & _ & M1 & M2 & M3 & _)|(_ & _ & _ & _ & _ & M1 & M2 & _)]]; rewrite M1; cbn [option_map].
      + split; [eauto|]. rewrite <- app_assoc in M3. eauto.
      + split; [exists []; rewrite app_nil_r; exact M2|eauto].
      + eauto.
    - destruct M as (_ & _ & _ & _ & _ & M & _). eauto.
  Qed.

  (* When nothing waits any more the files contain exactly what they must. *)
  Theorem C25_flushed_partial : 2 <= FQ -> 0 < SZ -> lawful SZ FQ l (linit m old) (w0 old) -> drained s ->
    cur_file s = w_cur w /\ (w_mode w = Active -> next_file s = Some (w_next w)) /\ (w_mode w = Switching -> next_file s = None).
  Proof.
    intros H1 H2 L D. destruct (inv_run SZ FQ H1 H2 false l _ _ (inv_init SZ FQ H1 H2 _ m old) L) as (ea & eb & mk & ob & od & I); [discriminate|].
    fold s w in I. destruct D as (D1 & D2 & D3 & D4). destruct I as (Q & DW & ME & _ & _ & _ & _ & _ & _ & M). destruct Q as (B & LE & E & _ & O & _).
    assert (mk = false) by (rewrite DW in D4; destruct mk; [discriminate|reflexivity]). subst mk. rewrite (ME eq_refl), app_nil_r in *.
    assert (OB : ob = []) by (apply len_0; congruence). subst ob.
    assert (EA : ea = []).
    { rewrite E in D2. rewrite <- (idx_0 FQ _ B) in D2 at 1. apply idx_inj in D2; [|exact H1|exact B|lia|exact LE]. destruct ea; [reflexivity|discriminate]. }
    subst ea. unfold mrel in M. rewrite D1 in M. cbn [eff cat app duals pc] in M. unfold next_file. destruct (w_mode w).
    - destruct M as (_ & _ & _ & _ & _ & M & _). rewrite app_nil_r in M. split; [exact M|]. split; discriminate.
    - destruct M as (_ & _ & (nx & M1 & M2) & M & _). rewrite app_nil_r in M. split; [exact M|]. split; [|discriminate]. intros _. rewrite M1. cbn. f_equal. rewrite <- M2. destruct od; cbn; rewrite app_nil_r; reflexivity.
    - destruct M as [(X & _)|[(_ & _ & _ & _ & wd & nx & X & _)|(_ & _ & _ & _ & _ & M1 & M2 & _)]]; try discriminate.
      rewrite app_nil_r in M2. split; [exact M2|]. split; [discriminate|]. intros _. rewrite M1. reflexivity.
    - destruct M as (_ & _ & _ & _ & _ & M & _). rewrite app_nil_r in M. split; [exact M|]. split; discriminate.
  Qed.

  (* The flusher alone brings this about, from every state. *)
  Theorem C25_drain_partial async : 2 <= FQ -> 0 < SZ -> lawful SZ FQ l (linit m old) (w0 old) ->
    exists k, let l2 := rest async ++ cycles k true async in
      drained (lrun SZ FQ l2 s) /\ cur_file (lrun SZ FQ l2 s) = w_cur w.
  Proof.
    intros H1 H2 L. pose proof (inv_run SZ FQ H1 H2 false l _ _ (inv_init SZ FQ H1 H2 _ m old) L ltac:(discriminate)) as I. fold s w in I.
    assert (I2 : Inv SZ FQ false (lrun SZ FQ (rest async) s) w) by (apply inv_flushes; [exact H1|exact H2|exact I|apply flushes_rest]).
    pose proof (drain SZ FQ H1 H2 false async w (N.to_nat (work FQ (lrun SZ FQ (rest async) s))) _ I2 (rest_idle SZ FQ async s) ltac:(lia)) as D.
    eexists. cbn zeta. rewrite lrun_app. split; [exact D|].
    set (k := S (N.to_nat (work FQ (lrun SZ FQ (rest async) s)))) in *.
    set (l2 := rest async ++ cycles k true async).
    assert (F2 : flushes l2) by (apply Forall_app; split; [apply flushes_rest|apply flushes_cycles]).
    assert (I3 : Inv SZ FQ false (lrun SZ FQ l2 s) w) by (apply inv_flushes; [exact H1|exact H2|exact I|exact F2]).
    rewrite <- lrun_app in *. fold l2 in D |- *.
    destruct I3 as (ea & eb & mk & ob & od & Q & DW & ME & _ & _ & _ & _ & _ & _ & M). destruct D as (D1 & D2 & D3 & D4). destruct Q as (B & LE & E & _ & O & _).
    assert (mk = false) by (rewrite DW in D4; destruct mk; [discriminate|reflexivity]). subst mk. rewrite (ME eq_refl), app_nil_r in *.
    assert (OB : ob = []) by (apply len_0; congruence). subst ob.
    assert (EA : ea = []).
    { rewrite E in D2. rewrite <- (idx_0 FQ _ B) in D2 at 1. apply idx_inj in D2; [|exact H1|exact B|lia|exact LE]. destruct ea; [reflexivity|discriminate]. }
    subst ea. unfold mrel in M. rewrite D1 in M. cbn [eff cat app duals pc] in M. destruct (w_mode w).
    - destruct M as (_ & _ & _ & _ & _ & M & _). rewrite app_nil_r in M. exact M.
    - destruct M as (_ & _ & _ & M & _). rewrite app_nil_r in M. exact M.
    - destruct M as [(X & _)|[(_ & _ & _ & _ & wd & nx & X & _)|(_ & _ & _ & _ & _ & M1 & M2 & _)]]; try discriminate. rewrite app_nil_r in M2. exact M2.
    - destruct M as (_ & _ & _ & _ & _ & M & _). rewrite app_nil_r in M. exact M.
  Qed.

  (* The file that is given up at the end of a checkpoint is complete at that moment, and the new one
     holds what was written to both. *)
  Theorem C25_switch_partial n d x : 2 <= FQ -> 0 < SZ -> lawful SZ FQ l (linit m old) (w0 old) -> b_ph s = Picked n d (Some x) ->
    w_mode w = Switching /\ cur_file s = w_old w /\ exists y, next_file s = Some y /\ prefix y (w_cur w) /\ x = N.of_nat (length y).
  Proof.
    intros H1 H2 L P. destruct (inv_run SZ FQ H1 H2 false l _ _ (inv_init SZ FQ H1 H2 _ m old) L) as (ea & eb & mk & ob & od & I); [discriminate|].
    fold s w in I. destruct I as (_ & _ & _ & _ & _ & _ & _ & _ & _ & M). unfold mrel in M. rewrite P in M. cbn [pc] in M.
    destruct (w_mode w); try (destruct M as (_ & X & _); discriminate). split; [reflexivity|].
    destruct M as [(_ & X & _)|[(_ & _ & _ & _ & wd & nx & M0 & M1 & M2 & M3 & M4 & _)|(_ & _ & _ & _ & X & _)]]; try discriminate.
    injection M0 as <-. split; [exact M2|]. exists (f_data (b_file s) nx). unfold next_file. rewrite M1. split; [reflexivity|]. split; [eexists; exact M3|exact M4].
  Qed.

  (* No assertion of the code fails, if no checkpoint fails. *)
  Theorem C25_no_abort_partial : 2 <= FQ -> 0 < SZ -> lawful SZ FQ l (linit m old) (w0 old) -> ~ In (Complete false) l -> b_bad s = false.
  Proof.
    intros H1 H2 L N. destruct (inv_run SZ FQ H1 H2 true l _ _ (inv_init SZ FQ H1 H2 _ m old) L) as (ea & eb & mk & ob & od & I).
    { intros _. split; [|discriminate]. apply Forall_forall. intros o H ->. exact (N H). }
    destruct I as (_ & _ & _ & _ & _ & _ & _ & _ & C & _). apply C. reflexivity.
  Qed.

  (* The loop that waits for room ends: a record of at most M bytes is accepted, if twice M and one
     flush request fit in the buffer. *)
  Theorem C25_room_partial M rec d async : 2 <= FQ -> 0 < SZ -> lawful SZ FQ l (linit m old) (w0 old) ->
    2 * M + AUTO <= SZ -> (forall r d, In (Write r d) l -> N.of_nat (length r) <= M) ->
    N.of_nat (length rec) <= M -> rec <> [] -> (d = true -> w_mode w = Active) -> b_ph s = Idle ->
    used FQ s + N.of_nat (length rec) / AUTO + 4 < FQ ->
    exists k s', write_loop SZ FQ k rec d async s = Some s'.
  Proof.
    intros H1 H2 L HM HR LR NR DA PH RM. pose proof (inv_run SZ FQ H1 H2 false l _ _ (inv_init SZ FQ H1 H2 _ m old) L ltac:(discriminate)) as I. fold s w in I.
    exists (N.to_nat (work FQ s)). eapply (write_accepted SZ FQ H1 H2 M HM false w async rec d LR NR DA); [exact I| |exact PH|lia|].
    - apply (wrapped_run SZ FQ H1 H2 M HM); [intros x X; discriminate X|exact HR].
    - assert (work FQ s <= used FQ s + 1) by (unfold work; destruct (0 <? open_n (b_que s)); lia). assert (0 <= N.of_nat (length rec) / AUTO) by apply N.le_0_l. lia.
  Qed.
End Runs.

(* ---------- concrete runs ---------- *)
Definition mem0 : N -> N := fun _ => 0.
Definition full : list lop := [Flush1 true; Flush2 false; Flush3; Flush4].

(* the buffer of 20 bytes wraps around, then a checkpoint runs *)
Definition demo : list lop :=
  [Write [1;2;3;4;5;6;7;8] false] ++ full ++ [Write [9;10;11;12;13;14;15;16] false; Write [17;18;19;20;21;22] false] ++
  full ++ [Open; Write [23;24] true; Write [25] false] ++ full ++ [Write [26;27;28] true; Complete true; Write [29] false] ++
  full ++ full ++ full ++ full ++ full.
Ltac conj := repeat match goal with |- _ /\ _ => split end.
Example C25_example : lawful 20 10 demo (linit mem0 [100]) (w0 [100]) /\
  cur_file (lrun 20 10 demo (linit mem0 [100])) = [23;24;26;27;28;29] /\ drained (lrun 20 10 demo (linit mem0 [100])) /\
  w_old (wrun 20 10 demo (linit mem0 [100]) (w0 [100])) = 100 :: map N.of_nat (seq 1 28) /\
  prev_file (lrun 20 10 demo (linit mem0 [100])) = Some (100 :: map N.of_nat (seq 1 28)).
Proof.
  split; [|vm_compute; conj; reflexivity].
  vm_compute. conj; try exact Logic.I; try reflexivity; try discriminate; try (intro; congruence); try (left; reflexivity); try (intros _; reflexivity).
Qed.

(* The assertion dual_write_size == cmdlog_file_getsize() (cmdlogbuf.c 156) fails at the end of the first good
   checkpoint after a failed one during which something had been written to both files: the size of
   the next file is not reset when it is closed (cmdlogfile.c 299-321).  Real sizes of the buffer. *)
Definition SZ0 : N := 104857600.   (* cmdlogbuf.c 30, 431: 100 MB *)
Definition FQ0 : N := SZ0 / 16.
Definition abort_run : list lop :=
  [Open; Write [1;2;3] true] ++ full ++ [Complete false; Close; Open; Complete true; Flush1 true; Flush2 false].
Theorem C25_abort_refuted :
  lawful SZ0 FQ0 abort_run (linit mem0 []) (w0 []) /\ b_bad (lrun SZ0 FQ0 abort_run (linit mem0 [])) = true.
Proof.
  split; [|vm_compute; reflexivity].
  vm_compute. conj; try exact Logic.I; try reflexivity; try discriminate; try (left; reflexivity); try (intros _; reflexivity).
Qed.

(* Data of a failed checkpoint that the flusher still holds goes to the file of the next one, if that
   is opened before the flusher writes (the flags in the queue are reset, but not the one already read). *)
Definition race_run : list lop := [Open; Write [1;2;3] true; Flush1 true; Complete false; Close].
Definition race_end : list lop := [Open; Flush2 false; Flush3; Flush4; Flush1 true; Flush2 false; Flush3; Flush4].
Theorem C25_stale_flag_refuted : exists s w,
  s = lrun SZ0 FQ0 race_run (linit mem0 []) /\ w = wrun SZ0 FQ0 race_run (linit mem0 []) (w0 []) /\
  lawful SZ0 FQ0 race_run (linit mem0 []) (w0 []) /\ w_mode w = Normal /\ f_next (b_file s) = None /\
  drained (lrun SZ0 FQ0 race_end s) /\ w_next (wrun SZ0 FQ0 race_end s w) = [] /\
  next_file (lrun SZ0 FQ0 race_end s) = Some [1;2;3].
Proof.
  eexists _, _. split; [reflexivity|]. split; [reflexivity|]. split; [|vm_compute; conj; reflexivity].
  vm_compute. conj; try exact Logic.I; try reflexivity; try discriminate; try (left; reflexivity); try (intros _; reflexivity).
Qed.

(* The engine flushes only one request when it is shut down (cmdlogbuf.c 470-477, after the flush thread has
   been stopped: cmdlogmgr.c 496-508).  So a record of an acknowledged change is lost, in asynchronous mode,
   whenever two requests wait. *)
Definition shutdown (s : lb) : lb := lrun SZ0 FQ0 (cycle true true) s.
Definition two : list lop := [Open; Write [1;2;3] true; Write [4;5] false; Complete false; Close].
Theorem C46_shutdown_refuted : exists l, lawful SZ0 FQ0 l (linit mem0 []) (w0 []) /\
  b_ph (lrun SZ0 FQ0 l (linit mem0 [])) = Idle /\
  w_cur (wrun SZ0 FQ0 l (linit mem0 []) (w0 [])) = [1;2;3;4;5] /\
  cur_file (shutdown (lrun SZ0 FQ0 l (linit mem0 []))) = [1;2;3].
Proof.
  exists two. split; [|vm_compute; conj; reflexivity].
  vm_compute. conj; try exact Logic.I; try reflexivity; try discriminate; try (left; reflexivity); try (intros _; reflexivity).
Qed.

Print Assumptions C25_prefix_partial.
Print Assumptions C25_flushed_partial.
Print Assumptions C25_drain_partial.
Print Assumptions C25_switch_partial.
Print Assumptions C25_no_abort_partial.
Print Assumptions C25_room_partial.
Print Assumptions C25_abort_refuted.
Print Assumptions C25_stale_flag_refuted.
Print Assumptions C46_shutdown_refuted.
