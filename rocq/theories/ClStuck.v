(* Histories that fill the buffer of the command log, built by induction *)
From Coq Require Import List ZArith NArith Lia Bool.
From Verif Require Import Base ClModel ClSpec ClProofs ClRun ClProps.
Local Open Scope Z_scope.
Local Open Scope list_scope.

Lemma polite_join l1 : forall s l2, polite s l1 -> (forall s1 o1, run s l1 = Some (s1, o1) -> polite s1 l2) -> polite s (l1 ++ l2).
Proof.
  induction l1 as [|e l1 IH]; intros s l2 P H; cbn [app polite run] in *; [eapply H; reflexivity|].
  destruct P as [P1 P2]. split; [exact P1|]. destruct (step s e) as [[s1 o]|]; [|exact I]. apply IH; [exact P2|].
  intros s2 o2 R. eapply H. rewrite R. reflexivity.
Qed.
Definition can (s : state) (l : list event) (s' : state) : Prop := polite s l /\ exists os, run s l = Some (s', os).
Lemma can_nil s : can s [] s.
Proof. split; [exact I|]. exists []. reflexivity. Qed.
Lemma can_app s l1 s1 l2 s2 : can s l1 s1 -> can s1 l2 s2 -> can s (l1 ++ l2) s2.
Proof.
  intros [P1 [o1 R1]] [P2 [o2 R2]]. split; [apply polite_join; [exact P1|]; intros s3 o3 R; rewrite R1 in R; injection R as <- <-; exact P2|].
  exists (o1 ++ o2). rewrite run_app, R1, R2. reflexivity.
Qed.
Lemma can_one s e s' o : (match e with Write _ => in_use s = true | _ => True end) -> step s e = Some (s', o) -> can s [e] s'.
Proof. intros P E. split; [cbn [polite]; rewrite E; auto|]. exists [o]. cbn [run]. rewrite E. reflexivity. Qed.

Definition at_ (h t l nw : Z) (p : place) (u : bool) (s : state) : Prop :=
  head s = h /\ tail s = t /\ last s = l /\ nwtotal s = nw /\ pc s = p /\ in_use s = u /\ reqstop s = false.

(* one text of 399 bytes at the end, after a wrap, or left out *)
Lemma put_end h t nw p s : at_ h t 0 nw p true s -> 0 <= h <= t -> t + 399 < SIZE -> exists s', step s (Write text399) = Some (s', Taken) /\ at_ h (t + 399) 0 nw p true s'.
Proof.
  intros (A & B & C & D & E & F & G) H1 H2. cbn [step]. unfold cmdlog_write. cbv zeta. replace (zlen (input_of text399)) with 399 by reflexivity. rewrite A, B, C.
  destruct (Z.leb_spec h t); [|lia]. destruct (Z.leb_spec (SIZE - t) 399); [lia|]. cbn [andb]. destruct (Z.leb_spec h t); [|lia]. cbn [Z.eqb andb]. destruct (Z.ltb_spec 399 (SIZE - t)); [|lia].
  eexists. split; [reflexivity|]. unfold at_. cbn [head tail last nwtotal pc in_use reqstop]. auto 10.
Qed.
Lemma put_wrap h t nw p s : at_ h t 0 nw p true s -> 399 < h <= t -> SIZE <= t + 399 -> exists s', step s (Write text399) = Some (s', Taken) /\ at_ h 399 t nw p true s'.
Proof.
  intros (A & B & C & D & E & F & G) H1 H2. cbn [step]. unfold cmdlog_write. cbv zeta. replace (zlen (input_of text399)) with 399 by reflexivity. rewrite A, B, C.
  destruct (Z.leb_spec h t); [|lia]. destruct (Z.leb_spec (SIZE - t) 399); [|lia]. cbn [andb]. destruct (Z.leb_spec h 0); [lia|]. destruct (Z.ltb_spec 0 t); [|lia]. destruct (Z.ltb_spec 399 (h - 0)); [|lia].
  eexists. split; [reflexivity|]. unfold at_. cbn [head tail last nwtotal pc in_use reqstop]. auto 10.
Qed.
Lemma put_start h t l nw p s : at_ h t l nw p true s -> 0 < l -> 0 <= t -> t + 399 < h -> exists s', step s (Write text399) = Some (s', Taken) /\ at_ h (t + 399) l nw p true s'.
Proof.
  intros (A & B & C & D & E & F & G) H1 H2 H3. cbn [step]. unfold cmdlog_write. cbv zeta. replace (zlen (input_of text399)) with 399 by reflexivity. rewrite A, B, C.
  destruct (Z.leb_spec h t); [lia|]. cbn [andb]. destruct (Z.leb_spec h t); [lia|]. destruct (Z.ltb_spec 0 l); [|lia]. destruct (Z.ltb_spec 399 (h - t)); [|lia].
  eexists. split; [reflexivity|]. unfold at_. cbn [head tail last nwtotal pc in_use reqstop]. auto 10.
Qed.
Lemma put_full h t l nw p s : at_ h t l nw p true s -> 0 < l -> t < h <= t + 399 -> exists s', step s (Write text399) = Some (s', Skip).
Proof.
  intros (A & B & C & D & E & F & G) H1 H2. cbn [step]. unfold cmdlog_write. cbv zeta. replace (zlen (input_of text399)) with 399 by reflexivity. rewrite A, B, C.
  destruct (Z.leb_spec h t); [lia|]. cbn [andb]. destruct (Z.leb_spec h t); [lia|]. destruct (Z.ltb_spec 0 l); [|lia]. destruct (Z.ltb_spec 399 (h - t)); [lia|].
  eexists. reflexivity.
Qed.
Lemma puts_end n : forall h t nw p s, at_ h t 0 nw p true s -> 0 <= h <= t -> t + 399 * Z.of_nat n < SIZE -> exists s', can s (repeat (Write text399) n) s' /\ at_ h (t + 399 * Z.of_nat n) 0 nw p true s'.
Proof.
  induction n as [|n IH]; intros h t nw p s H B1 B2.
  - exists s. split; [apply can_nil|]. replace (t + 399 * Z.of_nat 0) with t by lia. exact H.
  - destruct (put_end _ _ _ _ _ H B1 ltac:(lia)) as (s1 & E & H1). destruct (IH _ _ _ _ _ H1 ltac:(lia) ltac:(lia)) as (s2 & C & H2).
    exists s2. split; [|replace (t + 399 * Z.of_nat (S n)) with (t + 399 + 399 * Z.of_nat n) by lia; exact H2].
    change (repeat (Write text399) (S n)) with ([Write text399] ++ repeat (Write text399) n). eapply can_app; [|exact C]. eapply can_one; [apply H|exact E].
Qed.
Lemma puts_start n : forall h t l nw p s, at_ h t l nw p true s -> 0 < l -> 0 <= t -> t + 399 * Z.of_nat n < h -> exists s', can s (repeat (Write text399) n) s' /\ at_ h (t + 399 * Z.of_nat n) l nw p true s'.
Proof.
  induction n as [|n IH]; intros h t l nw p s H B0 B1 B2.
  - exists s. split; [apply can_nil|]. replace (t + 399 * Z.of_nat 0) with t by lia. exact H.
  - destruct (put_start _ _ _ _ _ _ H B0 B1 ltac:(lia)) as (s1 & E & H1). destruct (IH _ _ _ _ _ _ H1 B0 ltac:(lia) ltac:(lia)) as (s2 & C & H2).
    exists s2. split; [|replace (t + 399 * Z.of_nat (S n)) with (t + 399 + 399 * Z.of_nat n) by lia; exact H2].
    change (repeat (Write text399) (S n)) with ([Write text399] ++ repeat (Write text399) n). eapply can_app; [|exact C]. eapply can_one; [apply H|exact E].
Qed.

(* the flush thread *)
Lemma f_top h t l nw u s : at_ h t l nw Top u s -> exists s', flush_step s 0 = Some s' /\ at_ h t l nw Snap u s'.
Proof.
  intros (A & B & C & D & E & F & G). unfold flush_step. rewrite E, G. destruct (fd s); (eexists; split; [reflexivity|]); unfold at_; cbn; auto 10.
Qed.
Lemma f_snap h t l nw u s k : at_ h t l nw Snap u s -> exists s', flush_step s k = Some s' /\ at_ h t l nw (Got t l) u s'.
Proof.
  intros (A & B & C & D & E & F & G). unfold flush_step. rewrite E. eexists. split; [reflexivity|]. unfold at_. cbn. rewrite B, C. auto 10.
Qed.
Lemma f_block h t l ct nw s : at_ h t l nw (Got ct 0) true s -> h + 4096 <= ct -> exists s', flush_step s 4096 = Some s' /\ at_ h t l (nw + 4096) (Wrote false 4096) true s'.
Proof.
  intros (A & B & C & D & E & F & G) H. unfold flush_step. rewrite E, F, A. destruct (Z.leb_spec h ct); [|lia]. cbn [Z.eqb]. unfold WRITE_SIZE. destruct (Z.ltb_spec (ct - h) 4096); [lia|].
  eexists. split; [reflexivity|]. unfold do_write. rewrite Z.eqb_refl. unfold at_. cbn. rewrite D. auto 10.
Qed.
Lemma f_done h t l n nw u s : at_ h t l nw (Wrote false n) u s -> nw < FILE_MAXSIZE -> exists s', flush_step s 0 = Some s' /\ at_ (h + n) t l nw Top u s'.
Proof.
  intros (A & B & C & D & E & F & G) H. unfold flush_step. rewrite E. eexists. split; [reflexivity|]. unfold rotate. cbn [nwtotal w_ends]. rewrite D. destruct (Z.leb_spec FILE_MAXSIZE nw); [lia|].
  unfold at_. cbn. rewrite A. auto 10.
Qed.
Lemma can_flush s k s' : flush_step s k = Some s' -> can s [Flush k] s'.
Proof. intro E. eapply can_one; [exact I|]. cbn [step]. rewrite E. reflexivity. Qed.
Definition round : list event := [Flush 0; Flush 0; Flush 4096; Flush 0].
Lemma f_round h t nw s : at_ h t 0 nw Top true s -> h + 4096 <= t -> nw + 4096 < FILE_MAXSIZE -> exists s', can s round s' /\ at_ (h + 4096) t 0 (nw + 4096) Top true s'.
Proof.
  intros H B1 B2. destruct (f_top _ _ _ _ _ _ H) as (s1 & E1 & H1). destruct (f_snap _ _ _ _ _ _ 0 H1) as (s2 & E2 & H2).
  destruct (f_block _ _ _ _ _ _ H2 B1) as (s3 & E3 & H3). destruct (f_done _ _ _ _ _ _ _ H3 B2) as (s4 & E4 & H4).
  exists s4. split; [|exact H4]. unfold round.
  apply (can_app s [Flush 0] s1 [Flush 0; Flush 4096; Flush 0] s4); [apply can_flush; exact E1|].
  apply (can_app s1 [Flush 0] s2 [Flush 4096; Flush 0] s4); [apply can_flush; exact E2|].
  apply (can_app s2 [Flush 4096] s3 [Flush 0] s4); [apply can_flush; exact E3|apply can_flush; exact E4].
Qed.
Lemma f_rounds n : forall h t nw s, at_ h t 0 nw Top true s -> h + 4096 * Z.of_nat n <= t -> nw + 4096 * Z.of_nat n < FILE_MAXSIZE ->
  exists s', can s (List.concat (repeat round n)) s' /\ at_ (h + 4096 * Z.of_nat n) t 0 (nw + 4096 * Z.of_nat n) Top true s'.
Proof.
  induction n as [|n IH]; intros h t nw s H B1 B2.
  - exists s. split; [apply can_nil|]. replace (h + 4096 * Z.of_nat 0) with h by lia. replace (nw + 4096 * Z.of_nat 0) with nw by lia. exact H.
  - destruct (f_round _ _ _ _ H ltac:(lia) ltac:(lia)) as (s1 & E & H1). destruct (IH _ _ _ _ H1 ltac:(lia) ltac:(lia)) as (s2 & C & H2).
    exists s2. split; [|replace (h + 4096 * Z.of_nat (S n)) with (h + 4096 + 4096 * Z.of_nat n) by lia; replace (nw + 4096 * Z.of_nat (S n)) with (nw + 4096 + 4096 * Z.of_nat n) by lia; exact H2].
    change (List.concat (repeat round (S n))) with (round ++ List.concat (repeat round n)). eapply can_app; eassumption.
Qed.
Lemma started : exists s, can init [Start true] s /\ at_ 0 0 0 0 Top true s.
Proof. exists (fst (cmdlog_start init true)). split; [eapply can_one; [exact I|reflexivity]|]. repeat split. Qed.
(* the buffer full to its end, [m] blocks written *)
Lemma loaded n m : Z.of_nat n = 26280 -> Z.of_nat m <= 2559 -> exists l s, can init l s /\ at_ (4096 * Z.of_nat m) 10485720 0 (4096 * Z.of_nat m) Top true s.
Proof.
  intros N M. destruct started as (s0 & C0 & H0). destruct (puts_end n _ _ _ _ _ H0 ltac:(lia) ltac:(rewrite N; unfold SIZE; lia)) as (s1 & C1 & H1).
  replace (0 + 399 * Z.of_nat n) with 10485720 in H1 by lia.
  destruct (f_rounds m _ _ _ _ H1 ltac:(lia) ltac:(unfold FILE_MAXSIZE; lia)) as (s2 & C2 & H2). cbn [Z.add] in H2.
  eexists. exists s2. split; [eapply can_app; [eapply can_app; [exact C0|exact C1]|exact C2]|exact H2].
Qed.

(* the hypotheses of C65_skip are met *)
Lemma skip_at n m j : Z.of_nat n = 26280 -> Z.of_nat m = 1 -> Z.of_nat j = 9 -> exists l s os s', run init l = Some (s, os) /\ polite init l /\ failed s = false /\ step s (Write text399) = Some (s', Skip).
Proof.
  intros N M JJ. destruct (loaded n m N ltac:(lia)) as (l & s1 & C1 & H1). rewrite M in H1. change (4096 * 1) with 4096 in H1.
  destruct (put_wrap _ _ _ _ _ H1 ltac:(lia) ltac:(unfold SIZE; lia)) as (s2 & E2 & H2).
  destruct (puts_start j _ _ _ _ _ _ H2 ltac:(lia) ltac:(lia) ltac:(lia)) as (s3 & C3 & H3).
  destruct (put_full _ _ _ _ _ _ H3 ltac:(lia) ltac:(lia)) as (s4 & E4).
  destruct (can_app _ _ _ _ _ (can_app _ _ _ _ _ C1 (can_one s1 (Write text399) _ _ (proj1 (proj2 (proj2 (proj2 (proj2 (proj2 H1)))))) E2)) C3) as [P [os R]].
  eexists. exists s3, os, s4. split; [exact R|]. split; [exact P|]. split; [|exact E4]. unfold failed. destruct H3 as (_ & _ & _ & _ & -> & _). reflexivity.
Qed.
Example C65_skip_case : exists l s os s', run init l = Some (s, os) /\ polite init l /\ failed s = false /\ step s (Write text399) = Some (s', Skip).
Proof. apply (skip_at (Z.to_nat 26280) (Z.to_nat 1) (Z.to_nat 9)); apply Z2Nat.id; lia. Qed.

(* a stop in the gap, after a writer has wrapped the buffer in it: the flush thread spins for ever *)
Definition spins (h t : Z) (s : state) : Prop :=
  head s = h /\ tail s = t /\ last s = h /\ in_use s = false /\ reqstop s = false /\ nwtotal s < FILE_MAXSIZE /\ fd s = true /\
  match pc s with Top | Snap => True | Got ct cl => ct = t /\ cl = h | _ => False end.
Lemma spins_on h t s k : 0 <= t < h -> spins h t s -> exists s', flush_step s k = Some s' /\ spins h t s' /\ written s' = written s.
Proof.
  intros B (A1 & A2 & A3 & A4 & A5 & A6 & A7 & A8). unfold flush_step. destruct (pc s) as [| |ct cl|? ?|?|?] eqn:PC; try contradiction.
  - rewrite A5, A7. eexists. split; [reflexivity|]. split; [|reflexivity]. unfold spins. cbn. auto 10.
  - eexists. split; [reflexivity|]. split; [|reflexivity]. unfold spins. cbn. auto 10.
  - destruct A8 as [-> ->]. rewrite A1. destruct (Z.leb_spec h t); [lia|]. destruct (Z.ltb_spec 0 h); [|lia]. rewrite Z.sub_diag. cbn [Z.ltb Z.compare].
    eexists. split; [reflexivity|]. unfold rotate. destruct (Z.leb_spec FILE_MAXSIZE (nwtotal s)); [lia|]. split; [|reflexivity]. unfold spins. cbn. auto 10.
Qed.
Lemma spins_ever h t ks : 0 <= t < h -> forall s, spins h t s -> exists s' os, run s (map Flush ks) = Some (s', os) /\ spins h t s' /\ written s' = written s.
Proof.
  intro B. induction ks as [|k ks IH]; intros s H; [exists s, []; cbn; auto|].
  destruct (spins_on h t s k B H) as (s1 & E & H1 & W1). destruct (IH s1 H1) as (s2 & os & R & H2 & W2).
  exists s2, (OK :: os). cbn [map run step]. rewrite E, R. split; [reflexivity|]. split; [exact H2|congruence].
Qed.
Lemma f_rest h t l ct nw s : at_ h t l nw (Got ct 0) false s -> h < ct < h + 4096 -> exists s', flush_step s (ct - h) = Some s' /\ at_ h t l (nw + (ct - h)) (Wrote false (ct - h)) false s' /\ fd s' = fd s.
Proof.
  intros (A & B & C & D & E & F & G) H. unfold flush_step. rewrite E, F, A. destruct (Z.leb_spec h ct); [|lia]. cbn [Z.eqb]. destruct (Z.eqb_spec h ct); [lia|]. unfold WRITE_SIZE. destruct (Z.ltb_spec (ct - h) 4096); [|lia].
  eexists. split; [reflexivity|]. unfold do_write. rewrite Z.eqb_refl. unfold at_. cbn. rewrite D. auto 10.
Qed.
Lemma stuck_at n m : Z.of_nat n = 26280 -> Z.of_nat m = 2559 -> exists l s os, run init l = Some (s, os) /\ polite init l /\ spins 10485720 399 s /\ written s <> logged (combine l os).
Proof.
  intros N M. destruct (loaded n m N ltac:(lia)) as (l0 & s1 & C1 & H1). rewrite M in H1. change (4096 * 2559) with 10481664 in H1.
  destruct (f_top _ _ _ _ _ _ H1) as (s2 & E2 & H2). destruct (f_snap _ _ _ _ _ _ 0 H2) as (s3 & E3 & H3).
  destruct (put_wrap _ _ _ _ _ H3 ltac:(lia) ltac:(unfold SIZE; lia)) as (s4 & E4 & H4).
  assert (FD2 : fd s2 = true).
  { unfold flush_step in E2. destruct H1 as (_ & _ & _ & _ & PC & _ & RQ). rewrite PC, RQ in E2. destruct (fd s1) eqn:FF; injection E2 as <-; cbn; auto. }
  assert (FD3 : fd s3 = true).
  { unfold flush_step in E3. destruct H2 as (_ & _ & _ & _ & PC & _ & RQ). rewrite PC in E3. injection E3 as <-. exact FD2. }
  assert (FD4 : fd s4 = true).
  { cbn [step] in E4. unfold cmdlog_write in E4. cbv zeta in E4. repeat match type of E4 with (if ?b then _ else _) = _ => destruct b end; try discriminate; apply some_pair in E4; destruct E4 as [<- _]; exact FD3. }
  assert (E5 : step s4 Stop = Some (w_in_use s4 false, OK)) by (cbn [step]; destruct H4 as (_ & _ & _ & _ & _ & -> & _); reflexivity).
  assert (H5 : at_ 10481664 399 10485720 10481664 (Got 10485720 0) false (w_in_use s4 false)) by (destruct H4 as (? & ? & ? & ? & ? & ? & ?); unfold at_; cbn; auto 10).
  destruct (f_rest _ _ _ _ _ _ H5 ltac:(lia)) as (s6 & E6 & H6 & FD6). change (10485720 - 10481664) with 4056 in *. change (10481664 + 4056) with 10485720 in *.
  destruct (f_done _ _ _ _ _ _ _ H6 ltac:(unfold FILE_MAXSIZE; lia)) as (s7 & E7 & H7). change (10481664 + 4056) with 10485720 in *.
  assert (FD7 : fd s7 = true).
  { unfold flush_step in E7. destruct H6 as (_ & _ & _ & NW & PC & _ & RQ). rewrite PC in E7. injection E7 as <-. unfold rotate. cbn [nwtotal w_ends]. rewrite NW. cbn. rewrite FD6. exact FD4. }
  pose proof (can_app _ _ _ _ _ (can_app _ _ _ _ _ (can_app _ _ _ _ _ (can_app _ _ _ _ _ (can_app _ _ _ _ _ (can_app _ _ _ _ _ C1 (can_flush _ _ _ E2)) (can_flush _ _ _ E3))
    (can_one s3 (Write text399) _ _ (proj1 (proj2 (proj2 (proj2 (proj2 (proj2 H3)))))) E4)) (can_one s4 Stop _ _ Logic.I E5)) (can_flush _ _ _ E6)) (can_flush _ _ _ E7)) as [P [os R]].
  eexists. exists s7, os. split; [exact R|]. split; [exact P|]. destruct H7 as (A & B & C & D & E & F & G). split.
  - unfold spins. rewrite E. repeat split; auto. rewrite D. reflexivity.
  - intro W. pose proof (run_J _ _ _ _ _ init_J R) as HJ. assert (FL : failed s7 = false) by (unfold failed; rewrite E; reflexivity).
    pose proof (J_waiting _ _ HJ FL) as Q. fold (logged (combine (((((((l0 ++ [Flush 0]) ++ [Flush 0]) ++ [Write text399]) ++ [Stop]) ++ [Flush 4056]) ++ [Flush 0])) os)) in Q.
    rewrite <- W in Q. destruct HJ as (GG & PP & _). rewrite (pend_len _ GG PP), E, A, B, C in Q. cbn in Q. lia.
Qed.
Theorem C65_stuck_refuted : exists l s os, run init l = Some (s, os) /\ polite init l /\ in_use s = false /\ reqstop s = false /\ written s <> logged (combine l os) /\
  forall ks, exists s' os', run s (map Flush ks) = Some (s', os') /\ running s' = true /\ written s' = written s /\ step s' (Start true) = Some (s', Error).
Proof.
  destruct (stuck_at (Z.to_nat 26280) (Z.to_nat 2559) (Z2Nat.id 26280 ltac:(lia)) (Z2Nat.id 2559 ltac:(lia))) as (l & s & os & R & P & H & W).
  exists l, s, os. split; [exact R|]. split; [exact P|]. split; [apply H|]. split; [apply H|]. split; [exact W|].
  intro ks. destruct (spins_ever 10485720 399 ks ltac:(lia) s H) as (s' & os' & R' & H' & W'). exists s', os'. split; [exact R'|].
  destruct H' as (_ & _ & _ & U & _ & _ & _ & PC). assert (RN : running s' = true) by (unfold running; destruct (pc s'); try contradiction; reflexivity).
  split; [exact RN|]. split; [exact W'|]. cbn [step]. unfold cmdlog_start. rewrite U, RN. reflexivity.
Qed.
Print Assumptions C65_stuck_refuted.
