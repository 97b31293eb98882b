From Coq Require Import List ZArith NArith Lia Bool.
From Verif Require Import Base ClModel ClSpec.
Local Open Scope Z_scope.
Local Open Scope list_scope.

Notation zlen r := (Z.of_nat (List.length r)).
Lemma input_shown full : input_of full = shown full.
Proof.
  unfold input_of, shown, entry, INPUT_SIZE. cbn [Nat.sub].
  destruct (Nat.ltb_spec 400 (List.length full)); destruct (Nat.eqb_spec (List.length full) 400); destruct (Nat.leb_spec (List.length full) 399); try lia; try reflexivity.
  - rewrite firstn_firstn. reflexivity.
  - apply firstn_all2. lia.
Qed.
Lemma input_len full : zlen (input_of full) <= 399.
Proof.
  unfold input_of, INPUT_SIZE. destruct (Nat.ltb_spec 400 (List.length full)).
  - rewrite app_length, firstn_firstn, firstn_length. cbn [List.length Nat.sub]. lia.
  - rewrite firstn_length. cbn [Nat.sub]. lia.
Qed.

Lemma slice_len m a n : 0 <= n -> zlen (slice m a n) = n.
Proof. intro H. unfold slice. rewrite map_length, seq_length. lia. Qed.
Lemma slice_0 m a n : n <= 0 -> slice m a n = [].
Proof. intro H. unfold slice. replace (Z.to_nat n) with 0%nat by lia. reflexivity. Qed.
Lemma slice_app m a n1 n2 : 0 <= n1 -> 0 <= n2 -> slice m a (n1 + n2) = slice m a n1 ++ slice m (a + n1) n2.
Proof.
  intros H1 H2. unfold slice. rewrite Z2Nat.inj_add, seq_app, map_app by lia. f_equal. cbn [Nat.add].
  assert (Q : forall k j, map (fun i => m (a + Z.of_nat i)) (seq (Z.to_nat n1 + j) k) = map (fun i => m (a + n1 + Z.of_nat i)) (seq j k)).
  { induction k as [|k IH]; intro j; [reflexivity|]. cbn [seq map]. f_equal; [f_equal; lia|]. rewrite <- IH. do 2 f_equal. lia. }
  rewrite <- Q, Nat.add_0_r. reflexivity.
Qed.
Lemma slice_ext m m' a n : (forall i, a <= i < a + n -> m i = m' i) -> slice m a n = slice m' a n.
Proof. intro H. unfold slice. apply map_ext_in. intros i Hi. apply in_seq in Hi. apply H. lia. Qed.
Lemma slice_copy m a r : slice (copy m a r) a (zlen r) = r.
Proof.
  unfold slice. rewrite Nat2Z.id. apply (nth_ext _ _ 0%N 0%N); [now rewrite map_length, seq_length|].
  intros i Hi. rewrite map_length, seq_length in Hi.
  rewrite (nth_indep _ _ (copy m a r (a + Z.of_nat 0))) by (rewrite map_length, seq_length; exact Hi).
  rewrite (map_nth (fun i => copy m a r (a + Z.of_nat i))), seq_nth by exact Hi. unfold copy. cbn [Nat.add].
  destruct (Z.leb_spec a (a + Z.of_nat i)); [|lia]. destruct (Z.ltb_spec (a + Z.of_nat i) (a + zlen r)); [|lia]. cbn [andb]. f_equal. lia.
Qed.
Lemma copy_out m a r i : i < a \/ a + zlen r <= i -> copy m a r i = m i.
Proof. intro H. unfold copy. destruct (Z.leb_spec a i), (Z.ltb_spec i (a + zlen r)); cbn [andb]; try reflexivity; lia. Qed.
Lemma slice_copy_out m a r b n : b + n <= a \/ a + zlen r <= b -> slice (copy m a r) b n = slice m b n.
Proof. intro H. apply slice_ext. intros i Hi. apply copy_out. lia. Qed.
Lemma slice_copy_app m a r b n : 0 <= n -> b + n = a -> slice (copy m a r) b (n + zlen r) = slice m b n ++ r.
Proof.
  intros H1 H2. rewrite slice_app by lia. rewrite H2, slice_copy. f_equal. apply slice_copy_out. lia.
Qed.
Lemma slice_take m a n k : 0 <= k <= n -> slice m a k ++ slice m (a + k) (n - k) = slice m a n.
Proof. intro H. rewrite <- slice_app by lia. f_equal. lia. Qed.

(* the content of the ring *)
Definition ring (m : Z -> N) (h t l : Z) : bytes := if Z.leb h t then slice m h (t - h) else slice m h (l - h) ++ slice m 0 t.
Definition geo (s : state) : Prop :=
  0 <= head s /\ 0 <= tail s < SIZE /\ (head s <= tail s -> last s = 0) /\ (tail s < head s -> 0 < last s < SIZE /\ head s <= last s).
Definition limit (s : state) : Z := if Z.leb (head s) (tail s) then tail s else last s.
Definition at_place (s : state) : Prop :=
  match pc s with
  | Got ct cl => 0 <= ct /\ (head s <= ct -> cl = 0 /\ ct <= limit s) /\ (ct < head s -> tail s < head s /\ cl = last s /\ ct <= tail s)
  | Wrote false n => 0 < n <= WRITE_SIZE /\ head s + n <= limit s
  | Wrote true n => tail s < head s
  | _ => True
  end.
Definition pend (s : state) : bytes :=
  match pc s with
  | Wrote false n => ring (mem s) (head s + n) (tail s) (last s)
  | Wrote true _ => slice (mem s) 0 (tail s)
  | _ => ring (mem s) (head s) (tail s) (last s)
  end.
Definition failed (s : state) : bool := match pc s with Ending FlushErr | Gone FlushErr => true | _ => false end.
Definition J (s : state) (acc : bytes) : Prop :=
  geo s /\ at_place s /\ exists rest, acc = written s ++ rest /\ (failed s = false -> rest = pend s).

Lemma written_add (l : list bytes) (d : bytes) : List.concat (rev (add_file l d)) = List.concat (rev l) ++ d.
Proof.
  destruct l as [|f l]; cbn [add_file rev app List.concat]; [now rewrite app_nil_r|].
  rewrite !concat_app. cbn [List.concat]. rewrite !app_nil_r, app_assoc. reflexivity.
Qed.
Lemma written_open (l : list bytes) : List.concat (rev ([] :: l)) = List.concat (rev l).
Proof. cbn [rev]. rewrite concat_app. cbn. now rewrite app_nil_r. Qed.

(* ---- writers ---- *)
Ltac zb := repeat match goal with
  | H : context[Z.leb ?a ?b] |- _ => destruct (Z.leb_spec a b)
  | H : context[Z.ltb ?a ?b] |- _ => destruct (Z.ltb_spec a b)
  | |- context[Z.leb ?a ?b] => destruct (Z.leb_spec a b)
  | |- context[Z.ltb ?a ?b] => destruct (Z.ltb_spec a b)
  end.
Lemma ring_write s full s' o : geo s -> cmdlog_write s full = Some (s', o) ->
  geo s' /\ head s' = head s /\ pc s' = pc s /\ files s' = files s /\ in_use s' = in_use s /\
  (tail s' < head s' -> tail s < head s -> last s' = last s /\ tail s <= tail s') /\ limit s <= limit s' /\ (tail s < head s -> tail s' < head s') /\
  (tail s < head s -> slice (mem s') 0 (tail s') = slice (mem s) 0 (tail s) ++ (match o with Taken => input_of full | _ => [] end)) /\
  (forall h, head s <= h <= limit s -> ring (mem s') h (tail s') (last s') = ring (mem s) h (tail s) (last s) ++ match o with Taken => input_of full | _ => [] end).
Proof.
  intros (G1 & G2 & G3 & G4) E. unfold cmdlog_write in E. pose proof (input_len full) as L. set (r := input_of full) in *. clearbody r. cbv zeta in E.
  destruct (Z.leb_spec (head s) (tail s)) as [U|U]; cbn [andb] in E.
  - specialize (G3 U). destruct (Z.leb_spec (SIZE - tail s) (zlen r)) as [W|W].
    + unfold SIZE in *. destruct (Z.leb_spec (head s) 0) as [Z0|Z0].
      { destruct (Z.eqb_spec (tail s) 0); cbn [andb] in E; [lia|discriminate]. }
      destruct (Z.ltb_spec 0 (tail s)); [|discriminate]. destruct (Z.ltb_spec (zlen r) (head s - 0)); injection E as <- <-; unfold geo, limit, SIZE; cbn [head tail last mem pc files in_use].
      * do 5 (split; [first [reflexivity|repeat split; lia]|]). split; [lia|]. split; [zb; lia|]. split; [lia|]. split; [lia|].
        intros h Hh. assert (B : h <= tail s) by (unfold limit in Hh; zb; lia). unfold ring. destruct (Z.leb_spec h (tail s)); [|lia]. try change (0 + zlen r) with (zlen r). destruct (Z.leb_spec h (zlen r)); [lia|].
        rewrite slice_copy, slice_copy_out by lia. reflexivity.
      * do 5 (split; [first [reflexivity|repeat split; lia]|]). split; [lia|]. split; [zb; lia|]. split; [lia|]. split; [lia|].
        intros h Hh. assert (B : h <= tail s) by (unfold limit in Hh; zb; lia). unfold ring. destruct (Z.leb_spec h (tail s)); [|lia]. destruct (Z.leb_spec h 0); [lia|].
        rewrite (slice_0 _ 0 0) by lia. rewrite !app_nil_r. reflexivity.
    + unfold SIZE in *. destruct (Z.leb_spec (head s) (tail s)); [|lia]. destruct (Z.eqb_spec (last s) 0); [|discriminate]. cbn [andb] in E. destruct (Z.ltb_spec (zlen r) (10485760 - tail s)); [|discriminate].
      injection E as <- <-. unfold geo, limit, SIZE; cbn [head tail last mem pc files in_use].
      do 5 (split; [first [reflexivity|repeat split; lia]|]). split; [lia|]. split; [zb; lia|]. split; [lia|]. split; [lia|].
      intros h Hh. assert (B : h <= tail s) by (unfold limit in Hh; zb; lia). unfold ring. destruct (Z.leb_spec h (tail s)); [|lia]. destruct (Z.leb_spec h (tail s + zlen r)); [|lia].
      replace (tail s + zlen r - h) with ((tail s - h) + zlen r) by lia. apply slice_copy_app; lia.
  - specialize (G4 U). destruct (Z.leb_spec (head s) (tail s)); [lia|]. destruct (Z.ltb_spec 0 (last s)); [|discriminate]. unfold SIZE in *.
    destruct (Z.ltb_spec (zlen r) (head s - tail s)); injection E as <- <-; unfold geo, limit, SIZE; cbn [head tail last mem pc files in_use].
    + do 5 (split; [first [reflexivity|repeat split; lia]|]). split; [lia|]. split; [zb; lia|]. split; [lia|]. split.
      { intros _. rewrite (Z.add_comm (tail s)). rewrite Z.add_comm. apply slice_copy_app; lia. }
      intros h Hh. assert (B : h <= last s) by (unfold limit in Hh; zb; lia). unfold ring. destruct (Z.leb_spec h (tail s)); [lia|]. destruct (Z.leb_spec h (tail s + zlen r)); [lia|].
      rewrite <- app_assoc. f_equal; [apply slice_copy_out; lia|]. apply slice_copy_app; lia.
    + do 5 (split; [first [reflexivity|repeat split; lia]|]). split; [lia|]. split; [zb; lia|]. split; [lia|]. split; [intros _; now rewrite app_nil_r|].
      intros h Hh. now rewrite app_nil_r.
Qed.
Lemma write_J s full s' o acc : J s acc -> cmdlog_write s full = Some (s', o) -> J s' (acc ++ match o with Taken => shown full | _ => [] end).
Proof.
  intros (G & P & rest & E & F) W. destruct (ring_write s full s' o G W) as (G' & H1 & H2 & H3 & H4 & H5 & H6 & H7 & H8 & H9).
  rewrite <- input_shown. split; [exact G'|]. destruct G as (G1 & G2 & G3 & G4).
  assert (L : head s <= limit s) by (unfold limit; destruct (Z.leb_spec (head s) (tail s)); [lia|apply G4; lia]).
  split.
  - unfold at_place in *. rewrite H2. destruct (pc s) as [| |ct cl|[] n|w|w]; try exact I.
    + destruct P as (P1 & P2 & P3). rewrite H1. split; [exact P1|]. split; [intro Q; destruct (P2 Q); split; [assumption|lia]|].
      intro Q. destruct (P3 Q) as (Q1 & Q2 & Q3). pose proof (H7 Q1) as T. destruct (H5 T Q1) as [-> T2]. lia.
    + apply H7, P.
    + rewrite H1. lia.
  - exists (rest ++ match o with Taken => input_of full | _ => [] end). split.
    + rewrite E. unfold written. rewrite H3, app_assoc. reflexivity.
    + unfold failed in *. rewrite H2. intro Q. rewrite (F Q). unfold pend. rewrite H2. unfold at_place in P.
      destruct (pc s) as [| |ct cl|[] n|w|w]; rewrite ?H1; try (symmetry; apply H9; lia).
      symmetry. apply H8, P.
Qed.

(* ---- the flush thread ---- *)
Lemma same_J s s' acc : head s' = head s -> tail s' = tail s -> last s' = last s -> mem s' = mem s -> written s' = written s ->
  (match pc s with Wrote _ _ | Ending FlushErr | Gone FlushErr => False | _ => True end) -> (match pc s' with Wrote _ _ | Got _ _ => False | _ => True end) -> J s acc -> J s' acc.
Proof.
  intros A B C D E F F' (G & P & rest & Q & R). split; [|split].
  - unfold geo. rewrite A, B, C. exact G.
  - unfold at_place. destruct (pc s'); try contradiction; exact I.
  - exists rest. rewrite E. split; [exact Q|]. intros _. rewrite R.
    + unfold pend. rewrite A, B, C, D. destruct (pc s) as [| |? ?|? ?|[]|[]]; try contradiction; destruct (pc s'); try contradiction; reflexivity.
    + unfold failed. destruct (pc s) as [| |? ?|? ?|[]|[]]; try contradiction; reflexivity.
Qed.
Lemma rotate_J s acc h l : geo (w_ends s h l) -> acc = written s ++ ring (mem s) h (tail s) l -> J (rotate (w_ends s h l)) acc.
Proof.
  intros G E. unfold rotate. cbn [nwtotal w_ends files].
  destruct (Z.leb FILE_MAXSIZE (nwtotal s)); [destruct (Z.leb FILE_MAXNUM _)|]; (split; [exact G|split; [exact I|]]); exists (ring (mem s) h (tail s) l); (split; [exact E|reflexivity]).
Qed.
Lemma do_write_J s (w : bool) n k acc : J s acc -> (match pc s with Got _ _ => True | _ => False end) -> 0 < n -> (if w then tail s < head s /\ n = last s - head s else head s + n <= limit s /\ n <= WRITE_SIZE) ->
  J (do_write s w n k) acc.
Proof.
  intros (G & P & rest & E & F) PC N W. pose proof G as (G1 & G2 & G3 & G4).
  assert (R : rest = ring (mem s) (head s) (tail s) (last s)).
  { rewrite F; [unfold pend; destruct (pc s); try contradiction; reflexivity|unfold failed; destruct (pc s); try contradiction; reflexivity]. }
  assert (LM : head s + n <= limit s) by (destruct w; [unfold limit; destruct (Z.leb_spec (head s) (tail s)); lia|apply W]).
  assert (SPLIT : forall j, 0 <= j <= n -> exists more, ring (mem s) (head s) (tail s) (last s) = slice (mem s) (head s) j ++ more /\
            more = (if Z.leb (head s) (tail s) then slice (mem s) (head s + j) (tail s - (head s + j)) else slice (mem s) (head s + j) (last s - (head s + j)) ++ slice (mem s) 0 (tail s))).
  { intros j Hj. eexists. split; [|reflexivity]. unfold ring. unfold limit in LM. destruct (Z.leb_spec (head s) (tail s)).
    - rewrite <- (slice_take (mem s) (head s) (tail s - head s) j) by lia. do 2 f_equal. lia.
    - rewrite <- (slice_take (mem s) (head s) (last s - head s) j) by lia. rewrite <- app_assoc. do 3 f_equal. lia. }
  unfold do_write. destruct (Z.eqb_spec k n) as [->|NE].
  - split; [exact G|]. split.
    + unfold at_place. cbn [pc w_file]. destruct w; [apply W|]. change (limit (w_file s (Wrote false n) (fd s) (add_file (files s) (slice (mem s) (head s) n)) (nwtotal s + n))) with (limit s).
      cbn [head w_file]. lia.
    + destruct (SPLIT n ltac:(lia)) as (more & S1 & S2). exists more. split.
      * unfold written in *. cbn [files w_file]. rewrite written_add, <- app_assoc, <- S1, <- R. exact E.
      * intros _. rewrite S2. unfold pend. cbn [pc w_file mem head tail last]. destruct w.
        -- destruct W as [W1 W2]. destruct (Z.leb_spec (head s) (tail s)); [lia|]. rewrite (slice_0 _ (head s + n)) by lia. reflexivity.
        -- unfold ring. unfold limit in LM. destruct (Z.leb_spec (head s) (tail s)); destruct (Z.leb_spec (head s + n) (tail s)); try lia; reflexivity.
  - split; [exact G|]. split; [exact I|].
    destruct (Z.leb_spec 0 (Z.min k n)) as [K|K].
    + destruct (SPLIT (Z.min k n) ltac:(lia)) as (more & S1 & S2). exists more. split; [|discriminate].
      unfold written in *. cbn [files w_file]. rewrite written_add, <- app_assoc, <- S1, <- R. exact E.
    + exists rest. split; [|discriminate]. unfold written in *. cbn [files w_file]. rewrite written_add, slice_0, app_nil_r by lia. exact E.
Qed.
Lemma flush_J s k acc : J s acc -> exists s', flush_step s k = Some s' /\ J s' acc.
Proof.
  intro H. pose proof H as (G & P & rest & E & F). pose proof G as (G1 & G2 & G3 & G4). unfold flush_step. destruct (pc s) as [| |ct cl|w n|w|w] eqn:PC.
  - destruct (reqstop s); [|destruct (fd s); [|destruct (Z.leb 0 k)]]; (eexists; split; [reflexivity|]).
    + eapply (same_J s); first [exact H|exact I|rewrite PC; exact I|reflexivity].
    + eapply (same_J s); first [exact H|exact I|rewrite PC; exact I|reflexivity].
    + eapply (same_J s); first [exact H|exact I|rewrite PC; exact I|reflexivity|unfold written; cbn [files w_file]; apply written_open].
    + eapply (same_J s); first [exact H|exact I|rewrite PC; exact I|reflexivity].
  - eexists. split; [reflexivity|]. split; [exact G|]. split.
    + unfold at_place. cbn [pc w_pc head tail last]. change (limit (w_pc s (Got (tail s) (last s)))) with (limit s). unfold limit.
      split; [lia|]. split; [intro Q; split; [auto|destruct (Z.leb_spec (head s) (tail s)); lia]|]. intro Q. lia.
    + exists rest. split; [exact E|]. intros _. rewrite F; [|unfold failed; rewrite PC; reflexivity]. unfold pend. rewrite PC. reflexivity.
  - unfold at_place in P. rewrite PC in P. destruct P as (P1 & P2 & P3).
    destruct (Z.leb_spec (head s) ct) as [U|U].
    + destruct (P2 U) as [-> LM]. cbn [Z.eqb].
      assert (DW : 0 < ct - head s -> J (do_write s false (if Z.ltb (ct - head s) WRITE_SIZE then ct - head s else WRITE_SIZE) k) acc).
      { intro Q. apply do_write_J; [exact H|rewrite PC; exact I| |]; unfold WRITE_SIZE; destruct (Z.ltb_spec (ct - head s) 4096); lia. }
      destruct (in_use s).
      * destruct (Z.ltb_spec (ct - head s) WRITE_SIZE) as [Q|Q]; (eexists; split; [reflexivity|]).
        -- eapply (same_J s); first [exact H|exact I|rewrite PC; exact I|reflexivity].
        -- unfold WRITE_SIZE in Q. destruct (Z.ltb_spec (ct - head s) WRITE_SIZE); apply DW; lia.
      * destruct (Z.eqb_spec (head s) ct) as [Q|Q]; (eexists; split; [reflexivity|]).
        -- eapply (same_J s); first [exact H|exact I|rewrite PC; exact I|reflexivity].
        -- apply DW. lia.
    + destruct (P3 U) as (Q1 & -> & Q3). destruct (G4 Q1) as [L1 L2]. destruct (Z.ltb_spec 0 (last s)); [|lia].
      destruct (Z.ltb_spec 0 (last s - head s)); (eexists; split; [reflexivity|]).
      * apply do_write_J; [exact H|rewrite PC; exact I|lia|auto].
      * assert (X : rotate s = rotate (w_ends s (head s) (last s))) by (unfold rotate; destruct s; reflexivity). rewrite X. apply rotate_J; [exact G|].
        rewrite E. f_equal. rewrite F; [|unfold failed; rewrite PC; reflexivity]. unfold pend. rewrite PC. reflexivity.
  - unfold at_place in P. rewrite PC in P. assert (R : rest = pend s) by (apply F; unfold failed; rewrite PC; reflexivity). unfold pend in R. rewrite PC in R. destruct w.
    + eexists. split; [reflexivity|]. apply rotate_J.
      * unfold geo. cbn [w_ends head tail last]. lia.
      * rewrite E, R. f_equal. unfold ring. destruct (Z.leb_spec 0 (tail s)); [|lia]. f_equal. lia.
    + eexists. split; [reflexivity|]. destruct P as [N LM]. unfold limit in LM. apply rotate_J.
      * unfold geo. cbn [w_ends head tail last]. destruct (Z.leb_spec (head s) (tail s)); lia.
      * rewrite E, R. reflexivity.
  - eexists. split; [reflexivity|]. split; [exact G|]. split; [exact I|]. exists rest. split; [exact E|].
    intro Q. rewrite F; [unfold pend; rewrite PC; reflexivity|unfold failed in *; rewrite PC; exact Q].
  - eexists. split; [reflexivity|]. exact H.
Qed.
Lemma start_J s b acc : J s acc -> J (fst (cmdlog_start s b)) (next_log acc (Start b, snd (cmdlog_start s b))).
Proof.
  intro H. unfold cmdlog_start. assert (Z0 : forall s', head s' = 0 -> tail s' = 0 -> last s' = 0 -> files s' = [] -> (match pc s' with Wrote _ _ | Got _ _ => False | _ => True end) -> J s' []).
  { intros s' A B C D E. split; [unfold geo, SIZE; lia|]. split; [unfold at_place; destruct (pc s'); try contradiction; exact I|].
    exists []. split; [unfold written; rewrite D; reflexivity|]. intros _. unfold pend. rewrite A, B, C. destruct (pc s'); try contradiction; reflexivity. }
  destruct (in_use s); [exact H|]. destruct (running s); [exact H|]. destruct b; apply Z0; try reflexivity; exact I.
Qed.
Lemma step_J s e s' o acc : J s acc -> step s e = Some (s', o) -> J s' (next_log acc (e, o)).
Proof.
  intros H E. destruct e as [b| | |full|k]; cbn [step] in E.
  - pose proof (start_J s b acc H) as Q. destruct (cmdlog_start s b) as [a c]. injection E as <- <-. exact Q.
  - destruct (in_use s); injection E as <- <-; [|exact H]. cbn [next_log]. destruct H as (G & P & rest & A & B). split; [exact G|]. split; [exact P|]. exists rest. split; [exact A|exact B].
  - injection E as <- <-. cbn [next_log]. destruct H as (G & P & rest & A & B). split; [exact G|]. split; [exact P|]. exists rest. split; [exact A|exact B].
  - pose proof (write_J _ _ _ _ _ H E) as Q. destruct o; cbn [next_log]; try (rewrite app_nil_r in Q); exact Q.
  - destruct (flush_J s k acc H) as (s1 & F & Q). rewrite F in E. injection E as <- <-. exact Q.
Qed.
Lemma init_J : J init [].
Proof. split; [unfold geo, init, SIZE; cbn; lia|]. split; [exact I|]. exists []. split; reflexivity. Qed.
Lemma run_J l : forall s acc s' os, J s acc -> run s l = Some (s', os) -> J s' (fold_left next_log (combine l os) acc).
Proof.
  induction l as [|e l IH]; intros s acc s' os H E; cbn [run] in E.
  - injection E as <- <-. exact H.
  - destruct (step s e) as [[s1 o]|] eqn:S; [|discriminate]. destruct (run s1 l) as [[s2 xs]|] eqn:R; [|discriminate]. injection E as <- <-.
    cbn [combine fold_left]. eapply IH; [|exact R]. eapply step_J; eassumption.
Qed.
