From Coq Require Import List ZArith NArith Lia Bool.
From Verif Require Import Base ClModel ClSpec ClProofs.
Local Open Scope Z_scope.
Local Open Scope list_scope.

Lemma run_app l1 : forall s l2, run s (l1 ++ l2) =
  match run s l1 with Some (s1, o1) => match run s1 l2 with Some (s2, o2) => Some (s2, o1 ++ o2) | None => None end | None => None end.
Proof.
  induction l1 as [|e l1 IH]; intros s l2; cbn [run app].
  - destruct (run s l2) as [[? ?]|]; reflexivity.
  - destruct (step s e) as [[s1 o]|]; [|reflexivity]. rewrite IH. destruct (run s1 l1) as [[s2 o2]|]; [|reflexivity]. destruct (run s2 l2) as [[? ?]|]; reflexivity.
Qed.
Lemma run_len l : forall s s' os, run s l = Some (s', os) -> List.length os = List.length l.
Proof.
  induction l as [|e l IH]; intros s s' os E; cbn [run] in E; [injection E as <- <-; reflexivity|].
  destruct (step s e) as [[s1 o]|]; [|discriminate]. destruct (run s1 l) as [[s2 xs]|] eqn:R; [|discriminate]. injection E as <- <-. cbn. f_equal. eapply IH, R.
Qed.
Lemma combine_app {A B} (a1 : list A) (b1 : list B) : List.length a1 = List.length b1 -> forall a2 b2, combine (a1 ++ a2) (b1 ++ b2) = combine a1 b1 ++ combine a2 b2.
Proof. revert b1. induction a1 as [|x a1 IH]; intros [|y b1] E a2 b2; cbn in *; try discriminate; [reflexivity|]. f_equal. apply IH. lia. Qed.
Lemma polite_app l1 : forall s l2, polite s (l1 ++ l2) -> polite s l1 /\ forall s1 o1, run s l1 = Some (s1, o1) -> polite s1 l2.
Proof.
  induction l1 as [|e l1 IH]; intros s l2 H; cbn [app polite run] in *.
  - split; [exact I|]. intros s1 o1 E. injection E as <- <-. exact H.
  - destruct H as [H1 H2]. destruct (step s e) as [[s1 o]|]; [|split; [auto|discriminate]].
    destruct (IH _ _ H2) as [Q1 Q2]. split; [auto|]. intros s2 o2 E. destruct (run s1 l1) as [[s3 xs]|]; [|discriminate]. injection E as <- <-. eapply Q2. reflexivity.
Qed.

Lemma some_pair {X Y} (a c : X) (b d : Y) : Some (a, b) = Some (c, d) -> a = c /\ b = d.
Proof. intro H. injection H. auto. Qed.
(* ---- counts ---- *)
Definition Cn (s : state) (c : nat * nat) : Prop := entered s = (N.of_nat (fst c) mod 2 ^ 32)%N /\ skipped s = (N.of_nat (snd c) mod 2 ^ 32)%N.
Lemma inc_mod n : ((N.of_nat n mod 2 ^ 32 + 1) mod 2 ^ 32)%N = (N.of_nat (S n) mod 2 ^ 32)%N.
Proof. rewrite N.add_mod_idemp_l by discriminate. f_equal. lia. Qed.
Lemma rotate_counts s : entered (rotate s) = entered s /\ skipped (rotate s) = skipped s.
Proof. unfold rotate. destruct (Z.leb _ _); [destruct (Z.leb _ _)|]; split; reflexivity. Qed.
Lemma flush_counts s k s' : flush_step s k = Some s' -> entered s' = entered s /\ skipped s' = skipped s.
Proof.
  unfold flush_step, do_write. destruct (pc s) as [| |ct cl|[] n|w|w]; intro E;
    repeat match type of E with context[if ?b then _ else _] => destruct b end; try discriminate; injection E as <-; try (split; reflexivity);
    try apply rotate_counts; destruct (rotate_counts (w_ends s 0 0)), (rotate_counts (w_ends s (head s + n) (last s))); split; assumption.
Qed.
Lemma step_counts s e s' o c : Cn s c -> step s e = Some (s', o) -> Cn s' (next_count c (e, o)).
Proof.
  intros [A B] E. destruct e as [b| | |full|k]; cbn [step] in E.
  - unfold cmdlog_start in E. destruct (in_use s); [injection E as <- <-; split; assumption|]. destruct (running s); [injection E as <- <-; split; assumption|].
    destruct b; injection E as <- <-; split; reflexivity.
  - destruct (in_use s); injection E as <- <-; split; assumption.
  - injection E as <- <-. split; assumption.
  - unfold cmdlog_write in E. cbv zeta in E.
    repeat match type of E with (if ?b then _ else _) = _ => destruct b end; try discriminate; apply some_pair in E; destruct E as [<- <-]; unfold Cn; cbn [next_count entered skipped fst snd]; rewrite A, B, ?inc_mod; split; exact eq_refl.
  - destruct (flush_step s k) as [s1|] eqn:F; [|discriminate]. injection E as <- <-. destruct (flush_counts _ _ _ F). split; cbn [next_count]; congruence.
Qed.
Lemma run_counts l : forall s c s' os, Cn s c -> run s l = Some (s', os) -> Cn s' (fold_left next_count (combine l os) c).
Proof.
  induction l as [|e l IH]; intros s c s' os H E; cbn [run] in E; [injection E as <- <-; exact H|].
  destruct (step s e) as [[s1 o]|] eqn:S; [|discriminate]. destruct (run s1 l) as [[s2 xs]|] eqn:R; [|discriminate]. injection E as <- <-.
  cbn [combine fold_left]. eapply IH; [|exact R]. eapply step_counts; eassumption.
Qed.

(* ---- the end of the wrapped part is near the end of the buffer ---- *)
Definition far (s : state) : Prop := tail s < head s -> SIZE - 400 < last s.
Lemma rotate_ends s : head (rotate s) = head s /\ tail (rotate s) = tail s /\ last (rotate s) = last s /\ in_use (rotate s) = in_use s /\ reqstop (rotate s) = reqstop s.
Proof. unfold rotate. destruct (Z.leb _ _); [destruct (Z.leb _ _)|]; repeat split; reflexivity. Qed.
Lemma flush_ends s k s' : flush_step s k = Some s' ->
  (head s' = head s /\ tail s' = tail s /\ last s' = last s) \/ (exists n, pc s = Wrote false n /\ head s' = head s + n /\ tail s' = tail s /\ last s' = last s) \/
  (exists n, pc s = Wrote true n /\ head s' = 0 /\ tail s' = tail s /\ last s' = 0).
Proof.
  unfold flush_step, do_write. destruct (pc s) as [| |ct cl|[] n|w|w]; intro E;
    repeat match type of E with context[if ?b then _ else _] => destruct b end; try discriminate; injection E as <-; try (left; repeat split; reflexivity).
  - left. destruct (rotate_ends s) as (? & ? & ? & _). auto.
  - right. right. exists n. destruct (rotate_ends (w_ends s 0 0)) as (? & ? & ? & _). auto.
  - right. left. exists n. destruct (rotate_ends (w_ends s (head s + n) (last s))) as (? & ? & ? & _). auto.
Qed.
Lemma step_far s e s' o acc : J s acc -> far s -> step s e = Some (s', o) -> far s'.
Proof.
  intros (G & P & _) H E. pose proof G as (G1 & G2 & G3 & G4). unfold far in *. destruct e as [b| | |full|k]; cbn [step] in E.
  - unfold cmdlog_start in E. destruct (in_use s); [injection E as <- <-; exact H|]. destruct (running s); [injection E as <- <-; exact H|].
    destruct b; injection E as <- <-; cbn; lia.
  - destruct (in_use s); injection E as <- <-; exact H.
  - injection E as <- <-. exact H.
  - unfold cmdlog_write in E. cbv zeta in E. pose proof (input_len full) as L.
    destruct (Z.leb_spec (head s) (tail s)) as [U|U]; cbn [andb] in E; [destruct (Z.leb_spec (SIZE - tail s) (zlen (input_of full))) as [W|W]|].
    all: repeat match type of E with (if ?b then _ else _) = _ => destruct b end; try discriminate; apply some_pair in E; destruct E as [<- <-]; cbn [head tail last]; try lia.
  - destruct (flush_step s k) as [s1|] eqn:F; [|discriminate]. injection E as <- <-. unfold at_place in P.
    destruct (flush_ends _ _ _ F) as [(-> & -> & ->)|[(n & PC & -> & -> & ->)|(n & PC & -> & -> & ->)]]; [exact H| |lia].
    rewrite PC in P. unfold limit in P. destruct (Z.leb_spec (head s) (tail s)); lia.
Qed.
Lemma run_far l : forall s acc s' os, J s acc -> far s -> run s l = Some (s', os) -> far s'.
Proof.
  induction l as [|e l IH]; intros s acc s' os H F E; cbn [run] in E; [injection E as <- <-; exact F|].
  destruct (step s e) as [[s1 o]|] eqn:S; [|discriminate]. destruct (run s1 l) as [[s2 xs]|] eqn:R; [|discriminate]. injection E as <- <-.
  eapply IH; [eapply step_J; eassumption|eapply step_far; eassumption|exact R].
Qed.
Lemma init_far : far init. Proof. unfold far, init. cbn. lia. Qed.

(* ---- bytes waiting ---- *)
Lemma ring_len m h t l : 0 <= t -> h <= t \/ h <= l -> zlen (ring m h t l) = if Z.leb h t then t - h else l - h + t.
Proof. intros T H. unfold ring. destruct (Z.leb_spec h t); rewrite ?app_length, ?Nat2Z.inj_add, ?slice_len by lia; reflexivity. Qed.
Lemma pend_len s : geo s -> at_place s -> zlen (pend s) =
  match pc s with
  | Wrote false n => if Z.leb (head s) (tail s) then tail s - head s - n else last s - head s - n + tail s
  | Wrote true _ => tail s
  | _ => if Z.leb (head s) (tail s) then tail s - head s else last s - head s + tail s
  end.
Proof.
  intros (G1 & G2 & G3 & G4) P. unfold pend, at_place, limit in *.
  destruct (pc s) as [| |ct cl|[] n|w|w]; try (rewrite ring_len by lia; reflexivity).
  - apply slice_len. lia.
  - rewrite ring_len by (destruct (Z.leb_spec (head s) (tail s)); lia). destruct (Z.leb_spec (head s) (tail s)), (Z.leb_spec (head s + n) (tail s)); lia.
Qed.
Lemma J_waiting s acc : J s acc -> failed s = false -> (zlen acc - zlen (written s)) = zlen (pend s).
Proof. intros (_ & _ & rest & E & F) Q. rewrite E, (F Q), app_length. lia. Qed.

(* ---- while the log is in use ---- *)
Definition B (s : state) : Prop :=
  in_use s = true ->
  head s mod 4096 = 0 /\ (tail s < head s -> head s < last s) /\
  match pc s with
  | Wrote false n => n = 4096 /\ (tail s < head s -> head s + n < last s)
  | Ending NotStarted => reqstop s = true
  | Gone _ => False
  | _ => True
  end.
Lemma aligned_lt h l : h mod 4096 = 0 -> h <= l -> SIZE - 400 < l < SIZE -> h < l.
Proof. unfold SIZE. intros A C D. destruct (Z.eq_dec h l); [|lia]. subst l. pose proof (Z.div_mod h 4096 ltac:(lia)). lia. Qed.
Lemma rotate_pc s : pc (rotate s) = Top \/ pc (rotate s) = Ending Overflow.
Proof. unfold rotate. destruct (Z.leb _ _); [destruct (Z.leb _ _)|]; auto. Qed.
Lemma step_B s e s' o acc : J s acc -> far s -> B s -> (match e with Write _ => in_use s = true | _ => True end) -> step s e = Some (s', o) -> B s'.
Proof.
  intros HJ FAR H W E. pose proof (step_far _ _ _ _ _ HJ FAR E) as FAR'. destruct HJ as (G & P & _). pose proof G as (G1 & G2 & G3 & G4). unfold B, far in *. destruct e as [b| | |full|k]; cbn [step] in E.
  - unfold cmdlog_start in E. destruct (in_use s) eqn:U; [injection E as <- <-; rewrite U; exact H|]. destruct (running s); [injection E as <- <-; rewrite U; exact H|].
    destruct b; injection E as <- <-; cbn; [|discriminate]. intros _. repeat split; lia.
  - destruct (in_use s) eqn:U; injection E as <- <-; [cbn; discriminate|rewrite U; exact H].
  - injection E as <- <-. intro Q. cbn in Q. destruct (H Q) as (A & C & D). split; [exact A|]. split; [exact C|]. cbn. destruct (pc s) as [| |? ?|[] ?|[]|?]; auto.
  - specialize (H W). destruct H as (A & C & D). destruct (ring_write _ _ _ _ G E) as ((K1 & K2 & K3 & K4) & H1 & H2 & _ & _ & H5 & H6 & _). intros _. rewrite H1, H2 in *. split; [exact A|].
    split; [intro Q; apply aligned_lt; [exact A|apply K4; exact Q|split; [apply FAR'; exact Q|apply K4; exact Q]]|].
    destruct (pc s) as [| |? ?|[] n|[]|?] eqn:PC; auto.
    + destruct D as [-> D]. split; [reflexivity|]. intro Q. unfold at_place in P. rewrite PC in P. apply aligned_lt.
      * rewrite Z.add_mod, A by lia. reflexivity.
      * unfold limit in *. destruct (Z.leb_spec (head s') (tail s')); [lia|]. rewrite H1 in *. lia.
      * split; [apply FAR'; exact Q|apply K4; exact Q].
    + cbn in E. unfold cmdlog_write in E. cbv zeta in E. repeat match type of E with (if ?b then _ else _) = _ => destruct b end; try discriminate; apply some_pair in E; destruct E as [<- <-]; exact D.
  - destruct (flush_step s k) as [s1|] eqn:F; [|discriminate]. injection E as <- <-. unfold at_place in P. unfold flush_step in F.
    destruct (pc s) as [| |ct cl|[] n|w|w] eqn:PC.
    + destruct (reqstop s) eqn:R; [|destruct (fd s); [|destruct (Z.leb 0 k)]]; injection F as <-; intro Q; cbn in Q; destruct (H Q) as (A & C & D); cbn; auto.
    + injection F as <-. intro Q. cbn in Q. destruct (H Q) as (A & C & D). cbn. auto.
    + destruct P as (P1 & P2 & P3). destruct (Z.leb_spec (head s) ct) as [U|U].
      * destruct (P2 U) as [-> LM]. cbn [Z.eqb] in F. destruct (in_use s) eqn:IU.
        -- destruct (H eq_refl) as (A & C & _). destruct (Z.ltb_spec (ct - head s) WRITE_SIZE) as [Q|Q].
           ++ injection F as <-. intros _. cbn. auto.
           ++ unfold WRITE_SIZE in *. injection F as <-. unfold do_write. destruct (Z.eqb k 4096); intros _; cbn; auto. split; [exact A|]. split; [exact C|]. split; [reflexivity|].
              intro T. apply aligned_lt; [rewrite Z.add_mod, A by lia; reflexivity| |split; [apply FAR; exact T|apply G4; exact T]]. unfold limit in LM. destruct (Z.leb_spec (head s) (tail s)); lia.
        -- destruct (Z.eqb (head s) ct); injection F as <-; intro Q; exfalso; [cbn in Q; congruence|]. unfold do_write in Q. destruct (Z.eqb k _); cbn in Q; congruence.
      * destruct (Z.ltb 0 cl); [|discriminate]. destruct (Z.ltb 0 (cl - head s)); injection F as <-; intro Q.
        -- unfold do_write in *. destruct (Z.eqb k _); cbn in Q; destruct (H Q) as (A & C & D); cbn; auto.
        -- destruct (rotate_ends s) as (E1 & E2 & E3 & E4 & E5). rewrite E4 in Q. destruct (H Q) as (A & C & D). rewrite E1, E2, E3. split; [exact A|]. split; [exact C|]. destruct (rotate_pc s) as [-> | ->]; exact I.
    + injection F as <-. intro Q. destruct (rotate_ends (w_ends s 0 0)) as (E1 & E2 & E3 & E4 & E5). rewrite E1, E2, E3. cbn [w_ends head tail last]. split; [reflexivity|]. split; [lia|]. destruct (rotate_pc (w_ends s 0 0)) as [-> | ->]; exact I.
    + injection F as <-. intro Q. destruct (rotate_ends (w_ends s (head s + n) (last s))) as (E1 & E2 & E3 & E4 & E5). rewrite E4 in Q. destruct (H Q) as (A & C & D & D2).
      rewrite E1, E2, E3. cbn [w_ends head tail last]. subst n. split; [rewrite Z.add_mod, A by lia; reflexivity|]. split.
      * intro T. destruct (Z.leb_spec (head s) (tail s)) as [U|U]; [unfold limit in P; destruct (Z.leb_spec (head s) (tail s)); lia|apply D2; exact U].
      * destruct (rotate_pc (w_ends s (head s + 4096) (last s))) as [-> | ->]; exact I.
    + injection F as <-. intro Q. cbn in Q. discriminate.
    + injection F as <-. rewrite PC. exact H.
Qed.
Lemma run_B l : forall s acc s' os, J s acc -> far s -> B s -> polite s l -> run s l = Some (s', os) -> B s'.
Proof.
  induction l as [|e l IH]; intros s acc s' os H F HB PL E; cbn [run polite] in *; [injection E as <- <-; exact HB|].
  destruct (step s e) as [[s1 o]|] eqn:S; [|discriminate]. destruct (run s1 l) as [[s2 xs]|] eqn:R; [|discriminate]. injection E as <- <-. destruct PL as [PL1 PL2].
  eapply IH; [eapply step_J; eassumption|eapply step_far; eassumption|eapply step_B; eassumption|exact PL2|exact R].
Qed.
Lemma init_B : B init. Proof. unfold B, init. cbn. discriminate. Qed.

(* ---- after a stop ---- *)
Definition K (s : state) : Prop :=
  in_use s = false /\ reqstop s = false /\ (tail s < head s -> head s < last s) /\
  match pc s with
  | Got ct cl => ct = tail s /\ cl = last s
  | Wrote false n => tail s < head s -> head s + n < last s
  | Ending NotStarted | Gone NotStarted => head s = tail s
  | _ => True
  end.
Lemma stop_K s : in_use s = true -> reqstop s = false -> B s -> (forall ct cl, pc s <> Got ct cl) -> K (w_in_use s false).
Proof.
  intros U R H NG. destruct (H U) as (A & C & D). split; [reflexivity|]. split; [exact R|]. split; [exact C|]. cbn.
  destruct (pc s) as [| |ct cl|[] n|[]|w]; auto; try contradiction.
  - destruct (NG ct cl eq_refl).
  - apply D.
  - congruence.
Qed.
Lemma flush_K s k acc s' : J s acc -> K s -> flush_step s k = Some s' -> K s'.
Proof.
  intros (G & P & _) (U & R & C & D) F. pose proof G as (G1 & G2 & G3 & G4). unfold at_place in P. unfold flush_step in F. unfold K.
  destruct (pc s) as [| |ct cl|[] n|w|w] eqn:PC.
  - rewrite R in F. destruct (fd s); [|destruct (Z.leb 0 k)]; injection F as <-; cbn; auto.
  - injection F as <-. cbn. auto.
  - destruct D as [-> ->]. rewrite U in F. destruct (Z.leb_spec (head s) (tail s)) as [Q|Q].
    + destruct (Z.eqb (last s) 0); [|discriminate]. destruct (Z.eqb_spec (head s) (tail s)); injection F as <-; [cbn; auto|]. unfold do_write. destruct (Z.eqb k _); cbn; repeat split; auto; lia.
    + destruct (Z.ltb 0 (last s)); [|discriminate]. destruct (Z.ltb 0 (last s - head s)); injection F as <-.
      * unfold do_write. destruct (Z.eqb k _); cbn; repeat split; auto.
      * destruct (rotate_ends s) as (E1 & E2 & E3 & E4 & E5). rewrite E1, E2, E3, E4, E5. do 3 (split; [assumption|]). destruct (rotate_pc s) as [-> | ->]; exact I.
  - injection F as <-. destruct (rotate_ends (w_ends s 0 0)) as (E1 & E2 & E3 & E4 & E5). rewrite E1, E2, E3, E4, E5. cbn [w_ends head tail last in_use reqstop]. split; [exact U|]. split; [exact R|]. split; [lia|].
    destruct (rotate_pc (w_ends s 0 0)) as [-> | ->]; exact I.
  - injection F as <-. destruct (rotate_ends (w_ends s (head s + n) (last s))) as (E1 & E2 & E3 & E4 & E5). rewrite E1, E2, E3, E4, E5. cbn [w_ends head tail last in_use reqstop]. split; [exact U|]. split; [exact R|].
    split; [|destruct (rotate_pc (w_ends s (head s + n) (last s))) as [-> | ->]; exact I].
    intro T. destruct (Z.leb_spec (head s) (tail s)) as [Q|Q]; [unfold limit in P; destruct (Z.leb_spec (head s) (tail s)); lia|apply D; exact Q].
  - injection F as <-. cbn. auto.
  - injection F as <-. rewrite PC. auto.
Qed.

(* the flush thread is asked again and again; every open and write succeeds *)
Lemma K_end s acc : J s acc -> K s -> pc s = Gone NotStarted -> acc = written s.
Proof.
  intros (G & P & rest & E & F) (U & R & C & D) PC. rewrite E, F by (unfold failed; rewrite PC; reflexivity). rewrite PC in D. unfold pend, ring. rewrite PC.
  destruct (Z.leb_spec (head s) (tail s)); [|lia]. rewrite slice_0 by lia. apply app_nil_r.
Qed.
(* how far the flush thread is from its end *)
Definition ahead (s : state) : Z :=
  match pc s with Top => 5 | Snap => 4 | Got _ _ => 3 | Wrote _ _ => 6 | Ending _ => 1 | Gone _ => 0 end.
Definition rank (s : state) : Z := 8 * zlen (pend s) + ahead s.
Lemma rotate_pend s h l : pend (rotate (w_ends s h l)) = ring (mem s) h (tail s) l.
Proof. unfold rotate. destruct (Z.leb _ _); [destruct (Z.leb _ _)|]; reflexivity. Qed.
Lemma progress s acc : J s acc -> K s -> (forall w, pc s <> Gone w) -> exists k s', 0 <= k /\ flush_step s k = Some s' /\ rank s' < rank s /\ (failed s' = true -> failed s = true).
Proof.
  intros HJ (U & R & C & D) NG. pose proof HJ as (G & P & _). pose proof G as (G1 & G2 & G3 & G4). pose proof (pend_len s G P) as PL. unfold rank, ahead. rewrite PL.
  unfold flush_step. destruct (pc s) as [| |ct cl|[] n|w|w] eqn:PC.
  - rewrite R. destruct (fd s).
    + exists 0. eexists. split; [lia|]. split; [reflexivity|]. cbn [pc w_pc]. split; [|discriminate]. change (pend (w_pc s Snap)) with (ring (mem s) (head s) (tail s) (last s)). rewrite ring_len by lia. lia.
    + exists 0. eexists. split; [lia|]. split; [reflexivity|]. cbn [Z.leb Z.compare pc w_file]. split; [|discriminate]. change (pend (w_file s Snap true ([] :: files s) (nwtotal s))) with (ring (mem s) (head s) (tail s) (last s)). rewrite ring_len by lia. lia.
  - exists 0. eexists. split; [lia|]. split; [reflexivity|]. cbn [pc w_pc]. split; [|discriminate]. change (pend (w_pc s (Got (tail s) (last s)))) with (ring (mem s) (head s) (tail s) (last s)). rewrite ring_len by lia. lia.
  - destruct D as [-> ->]. rewrite U. destruct (Z.leb_spec (head s) (tail s)) as [Q|Q].
    + rewrite (G3 Q). cbn [Z.eqb]. destruct (Z.eqb_spec (head s) (tail s)) as [Q2|Q2].
      * exists 0. eexists. split; [lia|]. split; [reflexivity|]. cbn [pc w_pc]. split; [|discriminate]. change (pend (w_pc s (Ending NotStarted))) with (ring (mem s) (head s) (tail s) (last s)). rewrite ring_len by lia. destruct (Z.leb_spec (head s) (tail s)); lia.
      * set (n := if Z.ltb (tail s - head s) WRITE_SIZE then tail s - head s else WRITE_SIZE). assert (N : 0 < n <= tail s - head s) by (unfold n, WRITE_SIZE; destruct (Z.ltb_spec (tail s - head s) 4096); lia). clearbody n.
        exists n. eexists. split; [lia|]. split; [reflexivity|]. unfold do_write. rewrite Z.eqb_refl. cbn [pc w_file]. split; [|discriminate].
        unfold pend. cbn [pc w_file mem head tail last]. rewrite ring_len by lia. destruct (Z.leb_spec (head s + n) (tail s)); lia.
    + destruct (G4 Q) as [L1 L2]. specialize (C Q). destruct (Z.ltb_spec 0 (last s)); [|lia]. destruct (Z.ltb_spec 0 (last s - head s)); [|lia].
      exists (last s - head s). eexists. split; [lia|]. split; [reflexivity|]. unfold do_write. rewrite Z.eqb_refl. cbn [pc w_file]. split; [|discriminate].
      unfold pend. cbn [pc w_file mem tail]. rewrite slice_len by lia. lia.
  - exists 0. eexists. split; [lia|]. split; [reflexivity|]. rewrite rotate_pend, ring_len by lia. destruct (Z.leb_spec 0 (tail s)); [|lia]. unfold failed. destruct (rotate_pc (w_ends s 0 0)) as [-> | ->]; (split; [lia|discriminate]).
  - exists 0. eexists. split; [lia|]. split; [reflexivity|]. rewrite rotate_pend. unfold at_place in P. rewrite PC in P. unfold limit in P.
    rewrite ring_len by (destruct (Z.leb_spec (head s) (tail s)); lia). unfold failed.
    destruct (rotate_pc (w_ends s (head s + n) (last s))) as [-> | ->]; (split; [|discriminate]); destruct (Z.leb_spec (head s) (tail s)), (Z.leb_spec (head s + n) (tail s)); lia.
  - exists 0. eexists. split; [lia|]. split; [reflexivity|]. cbn [pc w_pc]. split.
    + change (pend (w_pc (w_in_use s false) (Gone w))) with (ring (mem s) (head s) (tail s) (last s)). rewrite ring_len by lia. lia.
    + unfold failed. rewrite PC. cbn. auto.
  - destruct (NG w eq_refl).
Qed.
Lemma drain : forall m s acc, J s acc -> K s -> rank s < Z.of_nat m -> exists ks s' os w, Forall (fun k => 0 <= k) ks /\ run s (map Flush ks) = Some (s', os) /\ J s' acc /\ K s' /\ pc s' = Gone w /\ (failed s' = true -> failed s = true).
Proof.
  induction m as [|m IH]; intros s acc HJ HK HR.
  - exfalso. unfold rank, ahead in HR. destruct (pc s); lia.
  - assert (DEC : (exists w, pc s = Gone w) \/ (forall w, pc s <> Gone w)) by (destruct (pc s); try (right; discriminate); left; eexists; reflexivity).
    destruct DEC as [[w PC]|NG].
    + exists [], s, [], w. split; [constructor|]. split; [reflexivity|]. auto.
    + destruct (progress s acc HJ HK NG) as (k & s1 & K0 & F & RK & FL). destruct (flush_J s k acc HJ) as (s1' & F' & HJ1). rewrite F in F'. injection F' as <-.
      destruct (IH s1 acc HJ1 (flush_K _ _ _ _ HJ HK F) ltac:(lia)) as (ks & s2 & os & w & A & R & J2 & K2 & PC & FL2).
      exists (k :: ks), s2, (OK :: os), w. split; [constructor; assumption|]. split; [cbn [map run step]; rewrite F, R; reflexivity|]. split; [exact J2|]. split; [exact K2|]. split; [exact PC|]. intro Q. apply FL, FL2, Q.
Qed.
