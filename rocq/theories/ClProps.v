From Coq Require Import List ZArith NArith Lia Bool.
From Verif Require Import Base ClModel ClSpec ClProofs ClRun.
Local Open Scope Z_scope.
Local Open Scope list_scope.

(* C65: what reaches the files is what was entered, in order, each text once, whatever the
   interleaving of writers, stops and the flush thread: a beginning of the concatenated texts *)
Theorem C65_prefix l s os : run init l = Some (s, os) -> exists rest, logged (combine l os) = written s ++ rest.
Proof. intro E. destruct (run_J l _ _ _ _ init_J E) as (_ & _ & rest & Q & _). exists rest. exact Q. Qed.

(* the counts shown are the numbers of commands entered and left out since the start, modulo 2^32 *)
Theorem C65_counts l s os : run init l = Some (s, os) ->
  entered s = (N.of_nat (fst (counted (combine l os))) mod 2 ^ 32)%N /\ skipped s = (N.of_nat (snd (counted (combine l os))) mod 2 ^ 32)%N.
Proof. intro E. refine (run_counts l init (0, 0)%nat s os _ E). split; reflexivity. Qed.

(* a command is left out only when fewer than 800 bytes of the buffer are free (or are just being written) *)
Definition in_flight (s : state) : Z := match pc s with Wrote false n => n | Wrote true n => last s - head s | _ => 0 end.
Theorem C65_skip l s os full s' : run init l = Some (s, os) -> failed s = false -> step s (Write full) = Some (s', Skip) ->
  SIZE - 800 < waiting s (combine l os) + in_flight s.
Proof.
  intros E FL W. pose proof (run_J l _ _ _ _ init_J E) as HJ. pose proof (run_far l _ _ _ _ init_J init_far E) as FAR.
  unfold waiting, logged. rewrite (J_waiting _ _ HJ FL). destruct HJ as ((G1 & G2 & G3 & G4) & P & _). rewrite pend_len by (unfold geo; auto). unfold far, at_place, limit, in_flight in *.
  cbn [step] in W. unfold cmdlog_write in W. cbv zeta in W. pose proof (input_len full) as L. pose proof (Zle_0_nat (List.length (input_of full))) as L0. set (n := zlen (input_of full)) in *. clearbody n.
  destruct (Z.leb_spec (head s) (tail s)) as [U|U]; cbn [andb] in W.
  - destruct (Z.leb_spec (SIZE - tail s) n) as [Q|Q].
    + destruct (Z.leb_spec (head s) 0); [destruct (_ && _)%bool in W; discriminate|]. destruct (Z.ltb 0 (tail s)); [|discriminate]. destruct (Z.ltb_spec n (head s - 0)); [discriminate|].
      destruct (pc s) as [| |? ?|[] ?|?|?]; lia.
    + destruct (Z.leb_spec (head s) (tail s)); [|lia]. destruct (_ && _)%bool in W; discriminate.
  - destruct (Z.leb_spec (head s) (tail s)); [lia|]. destruct (Z.ltb 0 (last s)); [|discriminate]. destruct (Z.ltb_spec n (head s - tail s)); [discriminate|].
    specialize (FAR U). destruct (pc s) as [| |? ?|[] ?|?|?]; lia.
Qed.

(* no step stops the server while more than 400 bytes of the buffer are free; the flush thread never does *)
Theorem C65_no_abort_partial l s os e : run init l = Some (s, os) -> failed s = false -> waiting s (combine l os) + in_flight s + 400 <= SIZE -> step s e <> None.
Proof.
  intros E FL W N. pose proof (run_J l _ _ _ _ init_J E) as HJ.
  unfold waiting, logged in W. rewrite (J_waiting _ _ HJ FL) in W. destruct e as [b| | |full|k]; cbn [step] in N; try discriminate.
  - destruct HJ as ((G1 & G2 & G3 & G4) & P & _). rewrite pend_len in W by (unfold geo; auto). unfold at_place, limit, in_flight in *.
    unfold cmdlog_write in N. cbv zeta in N. pose proof (input_len full) as L. pose proof (Zle_0_nat (List.length (input_of full))) as L0. set (n := zlen (input_of full)) in *. clearbody n.
    destruct (Z.leb_spec (head s) (tail s)) as [U|U]; cbn [andb] in N.
    + destruct (Z.leb_spec (SIZE - tail s) n) as [Q|Q].
      * destruct (Z.leb_spec (head s) 0); [destruct (pc s) as [| |? ?|[] ?|?|?]; lia|]. destruct (Z.ltb_spec 0 (tail s)); [|unfold SIZE in *; lia]. destruct (Z.ltb n (head s - 0)); discriminate.
      * destruct (Z.leb_spec (head s) (tail s)); [|lia]. rewrite (G3 U) in N. cbn [Z.eqb andb] in N. destruct (Z.ltb_spec n (SIZE - tail s)); [discriminate|lia].
    + destruct (Z.leb_spec (head s) (tail s)); [lia|]. destruct (G4 U) as [[L1 _] _]. destruct (Z.ltb_spec 0 (last s)); [|lia]. destruct (Z.ltb n (head s - tail s)); discriminate.
  - destruct (flush_J s k _ HJ) as (s1 & F & _). rewrite F in N. discriminate.
Qed.
(* writers that fill the buffer before the flush thread has taken anything stop the server *)
Definition text399 : bytes := repeat 65%N 398 ++ [10%N].
Lemma filled : forall n : nat, 399 * Z.of_nat n < SIZE -> forall s, head s = 0 -> tail s = 0 -> last s = 0 -> in_use s = true ->
  exists s' os, run s (repeat (Write text399) n) = Some (s', os) /\ head s' = 0 /\ tail s' = 399 * Z.of_nat n /\ last s' = 0 /\ in_use s' = true /\ polite s (repeat (Write text399) n).
Proof.
  induction n as [|n IH]; intros B s H T L U.
  - exists s, []. repeat split; auto. 
  - destruct (IH ltac:(lia) s H T L U) as (s1 & o1 & R & H1 & T1 & L1 & U1 & PL).
    assert (SE : repeat (Write text399) (S n) = repeat (Write text399) n ++ [Write text399]) by (cbn [repeat]; apply repeat_cons).
    assert (Q : exists s2, step s1 (Write text399) = Some (s2, Taken) /\ head s2 = 0 /\ tail s2 = tail s1 + 399 /\ last s2 = 0 /\ in_use s2 = true).
    { cbn [step]. unfold cmdlog_write. cbv zeta. replace (zlen (input_of text399)) with 399 by reflexivity. rewrite H1, L1, U1.
      destruct (Z.leb_spec 0 (tail s1)); [|lia]. destruct (Z.leb_spec (SIZE - tail s1) 399); [lia|]. cbn [andb]. destruct (Z.leb_spec 0 (tail s1)); [|lia]. cbn [Z.eqb andb]. destruct (Z.ltb_spec 399 (SIZE - tail s1)); [|lia].
      eexists. split; [reflexivity|]. cbn [head tail last in_use]. auto. }
    destruct Q as (s2 & Q & H2 & T2 & L2 & U2). exists s2, (o1 ++ [Taken]). rewrite SE, run_app, R. cbn [run]. rewrite Q. split; [reflexivity|]. split; [exact H2|]. split; [lia|]. split; [exact L2|]. split; [exact U2|].
    clear - PL R U1. revert s o1 PL R. induction (repeat (Write text399) n) as [|e r IH]; intros s o1 PL R; cbn [app polite run] in *.
    + injection R as -> _. split; [exact U1|]. destruct (step s1 (Write text399)) as [[? ?]|]; exact I.
    + destruct PL as [P1 P2]. split; [exact P1|]. destruct (step s e) as [[s3 o]|]; [|exact I]. destruct (run s3 r) as [[? ?]|] eqn:R2; [|discriminate]. injection R as -> _. eapply IH; eauto.
Qed.
Lemma full_none s : head s = 0 -> tail s = 399 * 26280 -> last s = 0 -> step s (Write text399) = None.
Proof.
  intros H T L. cbn [step]. unfold cmdlog_write. cbv zeta. replace (zlen (input_of text399)) with 399 by reflexivity. rewrite H, T, L. reflexivity.
Qed.
Lemma abort_at n : Z.of_nat n = 26280 -> exists l s os, run init l = Some (s, os) /\ polite init l /\ in_use s = true /\ step s (Write text399) = None.
Proof.
  intro N. destruct (filled n ltac:(rewrite N; unfold SIZE; lia) (fst (cmdlog_start init true)) eq_refl eq_refl eq_refl eq_refl) as (s & os & R & H & T & L & U & PL).
  exists (Start true :: repeat (Write text399) n), s, (OK :: os). split.
  { cbn [run step]. change (cmdlog_start init true) with (fst (cmdlog_start init true), OK). cbv iota beta. rewrite R. reflexivity. }
  split; [split; [exact I|exact PL]|]. split; [exact U|]. apply full_none; [exact H|rewrite T, N; reflexivity|exact L].
Qed.
Theorem C65_abort_refuted : exists l s os, run init l = Some (s, os) /\ polite init l /\ in_use s = true /\ step s (Write text399) = None.
Proof. apply (abort_at (Z.to_nat 26280)). apply Z2Nat.id. lia. Qed.

(* a writer leaves alone the bytes between the start of the buffer and the end the flush thread has seen *)
Theorem C65_no_race l s os full s' o ct cl i : run init l = Some (s, os) -> pc s = Got ct cl -> step s (Write full) = Some (s', o) ->
  (if Z.leb (head s) ct then head s <= i < ct else head s <= i < cl) -> mem s' i = mem s i.
Proof.
  intros E PC W I. pose proof (run_J l _ _ _ _ init_J E) as ((G1 & G2 & G3 & G4) & P & _). unfold at_place in P. rewrite PC in P. unfold limit in P. destruct P as (P1 & P2 & P3).
  cbn [step] in W. unfold cmdlog_write in W. cbv zeta in W. 
  destruct (Z.leb_spec (head s) (tail s)) as [U|U]; cbn [andb] in W;
    [destruct (Z.leb_spec (SIZE - tail s) (zlen (input_of full))) as [Q|Q]|].
  - destruct (Z.leb_spec (head s) 0); [destruct (_ && _)%bool eqn:X in W; [|discriminate]; apply andb_prop in X; destruct X as [X _]; apply Z.eqb_eq in X; pose proof (input_len full); unfold SIZE in *; lia|].
    destruct (Z.ltb 0 (tail s)); [|discriminate]. destruct (Z.ltb_spec (zlen (input_of full)) (head s - 0)); apply some_pair in W; destruct W as [<- <-]; [|reflexivity]. cbn [mem]. apply copy_out. destruct (Z.leb_spec (head s) ct); lia.
  - destruct (Z.leb_spec (head s) (tail s)); [|lia]. destruct (_ && _)%bool in W; [|discriminate]. apply some_pair in W; destruct W as [<- <-]. cbn [mem]. apply copy_out. destruct (Z.leb_spec (head s) ct); lia.
  - destruct (Z.leb_spec (head s) (tail s)); [lia|]. destruct (Z.ltb 0 (last s)); [|discriminate]. destruct (Z.ltb_spec (zlen (input_of full)) (head s - tail s)); apply some_pair in W; destruct W as [<- <-]; [|reflexivity].
    cbn [mem]. apply copy_out. destruct (Z.leb_spec (head s) ct); lia.
Qed.

(* After a stop that does not fall between the flush thread's look at the buffer and its next action,
   the thread ends as long as opens and writes succeed, and unless it ends for the number of files or
   an earlier failure, the files hold everything entered *)
Theorem C65_finishes_partial l s os : run init l = Some (s, os) -> polite init l -> in_use s = true -> reqstop s = false -> (forall ct cl, pc s <> Got ct cl) ->
  exists ks s' os' w, Forall (fun k => 0 <= k) ks /\ run init (l ++ Stop :: map Flush ks) = Some (s', os') /\ pc s' = Gone w /\
    (w = FlushErr -> failed s = true) /\ (w = NotStarted -> written s' = logged (combine l os)).
Proof.
  intros E PL U R NG. pose proof (run_J l _ _ _ _ init_J E) as HJ. pose proof (run_B l _ _ _ _ init_J init_far init_B PL E) as HB.
  pose proof (stop_K s U R HB NG) as HK.
  assert (ST : step s Stop = Some (w_in_use s false, OK)) by (cbn [step]; rewrite U; reflexivity).
  pose proof (step_J _ _ _ _ _ HJ ST) as HJ1. cbn [next_log] in HJ1.
  destruct (drain (Z.to_nat (rank (w_in_use s false) + 1)) _ _ HJ1 HK) as (ks & s' & o2 & w & A & R2 & J2 & K2 & PC & FL).
  { unfold rank, ahead. destruct (pc _); lia. }
  exists ks, s', (os ++ OK :: o2), w. split; [exact A|]. split; [rewrite run_app, E; cbn [run]; rewrite ST, R2; reflexivity|]. split; [exact PC|]. split.
  - intros ->. unfold failed in FL at 1. rewrite PC in FL. exact (FL eq_refl).
  - intros ->. symmetry. exact (K_end _ _ J2 K2 PC).
Qed.
(* and no such run can end quietly with a text missing, whatever opens and writes return *)
Theorem C65_complete_partial l s os ks s' os' : run init l = Some (s, os) -> polite init l -> in_use s = true -> reqstop s = false -> (forall ct cl, pc s <> Got ct cl) ->
  run init (l ++ Stop :: map Flush ks) = Some (s', os') -> pc s' = Gone NotStarted -> written s' = logged (combine l os).
Proof.
  intros E PL U R NG E2 PC. pose proof (run_J l _ _ _ _ init_J E) as HJ. pose proof (run_B l _ _ _ _ init_J init_far init_B PL E) as HB.
  pose proof (stop_K s U R HB NG) as HK.
  assert (ST : step s Stop = Some (w_in_use s false, OK)) by (cbn [step]; rewrite U; reflexivity).
  pose proof (step_J _ _ _ _ _ HJ ST) as HJ1. cbn [next_log] in HJ1. rewrite run_app, E in E2. cbn [run] in E2. rewrite ST in E2.
  destruct (run (w_in_use s false) (map Flush ks)) as [[s2 o2]|] eqn:R2; [|discriminate]. injection E2 as <- <-.
  symmetry. change (fold_left next_log (combine l os) []) with (logged (combine l os)) in HJ1. set (acc := logged (combine l os)) in *. clearbody acc. clear - HJ1 HK R2 PC.
  set (s0 := w_in_use s false) in *. clearbody s0. revert s0 o2 HJ1 HK R2. induction ks as [|k ks IH]; intros s0 o2 HJ HK R2; cbn [map run] in R2.
  - injection R2 as <- <-. exact (K_end _ _ HJ HK PC).
  - cbn [step] in R2. destruct (flush_J s0 k acc HJ) as (s1 & F & HJ1). rewrite F in R2. destruct (run s1 (map Flush ks)) as [[s3 o3]|] eqn:R3; [|discriminate]. injection R2 as <- <-.
    eapply IH; [exact HJ1|exact (flush_K _ _ _ _ HJ HK F)|exact R3].
Qed.
(* a stop in that gap loses what was entered in it, without any sign *)
Definition hello : bytes := [104; 105; 10]%N.
Theorem C65_stop_refuted : exists l s os, run init l = Some (s, os) /\ polite init l /\ pc s = Gone NotStarted /\ reqstop s = false /\ skipped s = 0%N /\ written s = [] /\ logged (combine l os) = hello.
Proof.
  set (l := [Start true; Flush 0; Flush 0; Write hello; Stop; Flush 0; Flush 0]).
  destruct (run init l) as [[s os]|] eqn:E; [|vm_compute in E; discriminate].
  exists l, s, os. vm_compute in E. injection E as <- <-. split; [reflexivity|]. split; [vm_compute; repeat split|]. repeat split; reflexivity.
Qed.

(* C66: one record is one line *)
Definition one_line (r : bytes) : Prop := exists t, r = t ++ [10%N] /\ ~ In 10%N t.
Lemma firstn_in {A} (x : A) n l : In x (firstn n l) -> In x l.
Proof. revert l. induction n as [|n IH]; intros [|y l] H; cbn in *; try contradiction. destruct H; auto. Qed.
Theorem C66_lines_partial t : ~ In 10%N t -> List.length t <> 399%nat -> one_line (input_of (t ++ [10%N])) /\ (List.length (input_of (t ++ [10%N])) <= 399)%nat /\
  input_of (t ++ [10%N]) = entry (t ++ [10%N]).
Proof.
  intros H N. pose proof (input_len (t ++ [10%N])) as L. split; [|split; [lia|]].
  - rewrite input_shown. unfold shown, entry. rewrite app_length. cbn [List.length]. destruct (Nat.eqb_spec (List.length t + 1) 400); [lia|]. destruct (Nat.leb_spec (List.length t + 1) 399).
    + exists t. auto.
    + exists (firstn 396 (t ++ [10%N]) ++ [46; 46]%N). split; [rewrite <- app_assoc; reflexivity|]. intro Q. apply in_app_or in Q. destruct Q as [Q|Q].
      * rewrite firstn_app in Q. replace (396 - List.length t)%nat with 0%nat in Q by lia. rewrite app_nil_r in Q. apply firstn_in in Q. auto.
      * cbn in Q. destruct Q as [Q|[Q|[]]]; discriminate.
  - rewrite input_shown. unfold shown. rewrite app_length. cbn [List.length]. destruct (Nat.eqb_spec (List.length t + 1) 400); [lia|reflexivity].
Qed.
Theorem C66_lines_refuted : exists t, ~ In 10%N t /\ ~ one_line (input_of (t ++ [10%N])) /\ input_of (t ++ [10%N]) <> entry (t ++ [10%N]).
Proof.
  exists (repeat 65%N 399). assert (N : ~ In 10%N (repeat 65%N 399)) by (intro Q; apply repeat_spec in Q; discriminate). split; [exact N|].
  assert (E : input_of (repeat 65%N 399 ++ [10%N]) = repeat 65%N 399) by reflexivity. rewrite E. split.
  - intros (t & Q & _). apply N. rewrite Q. apply in_or_app. right. left. reflexivity.
  - intro Q. apply N. rewrite Q. unfold entry. destruct (Nat.leb _ _); apply in_or_app; right; cbn; auto.
Qed.

(* cases *)
Definition big : bytes := repeat 66%N 199 ++ [10%N].
Definition demo : list event := Start true :: repeat (Write big) 30 ++ [Flush 0; Flush 0; Flush 4096; Flush 0].
Example C65_ex : option_map (fun x => let '(s, os) := x in (in_use s, reqstop s, pc s, failed s, entered s, zlen (written s), waiting s (combine demo os))) (run init demo)
  = Some (true, false, Top, false, 30%N, 4096, 1904).
Proof. vm_compute. reflexivity. Qed.
Example C65_ex_polite : polite init demo. Proof. vm_compute. repeat split. Qed.
Example C65_ex_end : option_map (fun x => (pc (fst x), zlen (written (fst x)))) (run init (demo ++ Stop :: map Flush [0; 0; 1904; 0; 0; 0; 0; 0])) = Some (Gone NotStarted, 6000).
Proof. vm_compute. reflexivity. Qed.
Example C66_ex : input_of (repeat 66%N 500 ++ [10%N]) = repeat 66%N 396 ++ [46; 46; 10]%N. Proof. vm_compute. reflexivity. Qed.

Print Assumptions C65_prefix.
Print Assumptions C65_counts.
Print Assumptions C65_skip.
Print Assumptions C65_no_abort_partial.
Print Assumptions C65_abort_refuted.
Print Assumptions C65_no_race.
Print Assumptions C65_finishes_partial.
Print Assumptions C65_complete_partial.
Print Assumptions C65_stop_refuted.
Print Assumptions C66_lines_partial.
Print Assumptions C66_lines_refuted.
