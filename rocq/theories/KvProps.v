(* Property theorems about the key-value engine (C01-C05, C38, C39).
   [runs_ok] (KvRun.v) collects the domain of these theorems; see DESIGN.md:
   - the prefix part of a stored key is shorter than 256 bytes (C05_long_prefix_refuted),
   - the relative clock stays below 2^32 - 1 seconds,
   - flush commands are immediate and find no item that was pulled out of its LRU list
     during the current second (C05_refuted),
   - the tail repair of item_base.c 641-693 has not run (C38_refuted). *)
From Coq Require Import Sorted.
From Verif Require Import Base UtilModel UtilSpec UtilProofs KvModel KvSpec KvProofs KvRefine KvFlush KvStep KvStep2 KvRun KvKeep KvStill KvFacts.
Open Scope Z_scope.
Set Default Proof Using "Type".

Lemma reads_plain v n tail : plain_number v n -> (n < 2 ^ 64)%N -> (n < 2 ^ 63 \/ ~ In 45 tail)%N -> reads_as (v ++ [13; 10]%N ++ tail) n.
Proof.
  intros [P1 P2] B T. left. exists false, n, ([13; 10]%N ++ tail). split.
  { exists [], [], v. repeat split; auto. intros c r [= <- <-] [Z _]. cbv in Z. congruence. }
  split; [right; exists 13%N, (10%N :: tail); split; [reflexivity|unfold is_space; lia]|].
  split; [exact B|]. split; [reflexivity|]. intros G. destruct T as [T|T]; [lia|].
  rewrite in_app_iff. intros [I|I].
  - clear - P2 I. induction P2 as [|ds d n P IH D]; [destruct I|]. apply in_app_iff in I as [I|[I|[]]]; [auto|]. subst d. destruct D; lia.
  - cbn in I. destruct I as [I|[I|I]]; try discriminate. auto.
Qed.

Lemma reads_fun s a b : reads_as s a -> reads_as s b -> a = b.
Proof. intros A B. apply reads_as_char in A, B. congruence. Qed.

Section P.
Variable lru_class : bool -> bytes -> bytes -> nat.
Variable maxcls : nat.
Variable evict_on : bool.
Notation step := (step lru_class maxcls evict_on).
Notation run := (run lru_class maxcls evict_on).
Notation runs_ok := (runs_ok lru_class maxcls evict_on).
Notation R := (R lru_class maxcls).
Notation Core := (Core lru_class maxcls).

(* the answer to an operation *)
Definition ask (s : state) (o : op) : out := snd (step s o).
(* the state after a list of operations *)
Definition after (s : state) (ops : list op) : state := fst (run s ops).

Definition reached (s : state) : Prop := exists ops, runs_ok init ops /\ after init ops = s.

(* ----- plumbing ----- *)
Lemma run_ref s st ops : R s st -> runs_ok s ops ->
  exists st', sruns st ops (map (fun a => (fst a, map fst (snd a))) (snd (run s ops))) st' /\ R (after s ops) st'.
Proof.
  intros H OK. unfold after. destruct (run s ops) as [s' xs] eqn:E. cbn.
  exact (run_refines lru_class maxcls evict_on ops s st s' xs H OK E).
Qed.
Lemma step_ref s st o : R s st -> runs_ok s [o] ->
  exists st', sstep st o (ask s o) (map fst (evicted (fst (step s o)))) st' /\ R (fst (step s o)) st'.
Proof.
  intros H [OK [RF _]]. unfold ask. destruct (step s o) as [s' x] eqn:E. cbn in *.
  exact (step_refines lru_class maxcls evict_on s st o s' x H OK E RF).
Qed.

Definition quiet_op (o : op) : Prop := match o with Get _ | GetExp _ => True | _ => False end.
Lemma quiet_rep s o : quiet_op o -> repaired (fst (step s o)) = repaired s.
Proof.
  destruct o; try contradiction; intros _; unfold KvModel.step; cbn.
  - unfold get. destruct (do_get _ _ (w_evicted s []) k true) as [s1 o] eqn:G. apply do_get_still in G as [G _].
    destruct o; cbn; [|exact G]. destruct (items s1 n); [|exact G]. destruct (icoll i); cbn; [rewrite release_rep|]; exact G.
  - unfold get_expire. destruct (do_get _ _ (w_evicted s []) k false) as [s1 o] eqn:G. apply do_get_still in G as [G _].
    destruct o; cbn; [|exact G]. destruct (items s1 n); cbn; [rewrite release_rep|]; exact G.
Qed.
Lemma quiet_ok s st o : R s st -> quiet_op o -> runs_ok s [o].
Proof.
  intros H Q. split; [destruct o; try contradiction; exact I|]. split; [|exact I].
  rewrite (quiet_rep s o Q). apply (R_rep _ _ _ _ H).
Qed.

Lemma ask_get s st k : R s st -> ask s (Get k) =
  match slook st k with Some e => if e_coll e then ORes EBADTYPE else OVal (e_val e) (e_flags e) (e_cas e) | None => ORes ENOENT end.
Proof.
  intro H. destruct (step_ref s st (Get k) H (quiet_ok s st (Get k) H I)) as (st' & [V E] & _).
  destruct V as [V _]. rewrite (V eq_refl) in E.
  cbn [effect] in E. change (slook (w_map st (without (smap st) [])) k) with (slook st k) in E.
  destruct (slook st k) as [e|]; [destruct (e_coll e)|]; exact (proj1 E).
Qed.
Lemma ask_exp s st k : R s st -> ask s (GetExp k) = match slook st k with Some e => OExp (e_exp e) | None => ORes ENOENT end.
Proof.
  intro H. destruct (step_ref s st (GetExp k) H (quiet_ok s st (GetExp k) H I)) as (st' & [V E] & _).
  destruct V as [V _]. rewrite (V eq_refl) in E.
  cbn [effect] in E. change (slook (w_map st (without (smap st) [])) k) with (slook st k) in E.
  destruct (slook st k) as [e|]; exact (proj1 E).
Qed.

(* the value a client sent for its open request h *)
Definition request (s : state) (h : nat) : option (bytes * bytes * N * Z * N) :=
  match nth_error (held s) h with
  | Some (i, true) => match items s i with
                      | Some it => Some (ikey it, strip (idata it), iflags it, iexp it, icas it)
                      | None => None
                      end
  | _ => None
  end.
Lemma request_pend s st h k v f e c : R s st -> request s h = Some (k, v, f, e, c) ->
  nth_error (spend st) h = Some (Some (mkReq k f e v c)).
Proof.
  intros H. unfold request. destruct (nth_error (held s) h) as [[i b]|] eqn:N; [|discriminate]. destruct b; [|discriminate].
  destruct (pend_nth _ _ _ _ _ _ H N) as (r & it & A & B & _ & D). rewrite B. apply content_fields in D as (D1 & D2 & D3 & D4 & D5 & D6).
  rewrite D1, D2, D3, D4, D5, strip_crlf. intros [= <- <- <- <- <-]. rewrite A. destruct r. reflexivity.
Qed.

(* the key an operation works on *)
Definition works_on (s : state) (o : op) : option bytes :=
  match o with
  | Store h _ _ => match request s h with Some (k, _, _, _, _) => Some k | None => None end
  | Get k | Arith k _ _ _ _ _ _ _ _ | Delete k _ | SetExp k _ | GetExp k | CollCreate k _ _ _ => Some k
  | _ => None
  end.
Lemma works_op_key s st o : R s st -> works_on s o = op_key st o.
Proof.
  intro H. destruct o; try reflexivity. cbn. unfold request.
  destruct (nth_error (held s) h) as [[i b]|] eqn:N.
  - destruct b.
    + destruct (pend_nth _ _ _ _ _ _ H N) as (r & it & A & B & _ & D). rewrite B, A.
      apply content_fields in D as (D1 & _). congruence.
    + destruct (nth_error (spend st) h) as [[r|]|] eqn:Q; try reflexivity. exfalso.
      revert Q. eapply pend_none; [exact H|]. rewrite N. congruence.
  - destruct (nth_error (spend st) h) as [[r|]|] eqn:Q; try reflexivity. exfalso.
    revert Q. eapply pend_none; [exact H|]. rewrite N. congruence.
Qed.

Lemma reached_ref s : reached s -> exists st ops xs, sruns empty_cache ops xs st /\ R s st.
Proof.
  intros (ops & OK & <-). destruct (run_ref init empty_cache ops (R_init _ _) OK) as (st & A & B). eauto.
Qed.

Lemma runs_ok_app s a b : runs_ok s (a ++ b) <-> runs_ok s a /\ runs_ok (after s a) b.
Proof.
  revert s. induction a as [|o a IH]; intro s; cbn [app KvRun.runs_ok].
  - unfold after. cbn. tauto.
  - rewrite IH. unfold after. cbn [KvModel.run]. destruct (step s o) as [s1 x]. cbn [fst].
    destruct (run s1 a) as [s2 xs]. cbn. tauto.
Qed.

(* ===== C01 ===== *)
(* Every list of operations (= every interleaving of client commands, every choice of the
   memory allocator, every clock) gives exactly the answers of a map with expiry, from which
   allocating operations may remove entries other than the one they work on. *)
Theorem C01_map_semantics_partial : forall ops,
  runs_ok init ops ->
  exists st, sruns empty_cache ops (map (fun a => (fst a, map fst (snd a))) (snd (run init ops))) st.
Proof.
  intros ops OK. destruct (run_ref init empty_cache ops (R_init _ _) OK) as (st & A & _). eauto.
Qed.

(* ===== C02 ===== *)
(* Two cas commands with the same key and the same cas unique are never both stored. *)
Theorem C02_one_winner_partial : forall s h1 o1 c1 ops h2 o2 c2 k v1 v2 f1 f2 e1 e2 c,
  reached s ->
  request s h1 = Some (k, v1, f1, e1, c) ->
  ask s (Store h1 KCas o1) = OStored c1 ->
  runs_ok s (Store h1 KCas o1 :: ops) ->
  let s2 := after s (Store h1 KCas o1 :: ops) in
  runs_ok s2 [Store h2 KCas o2] ->
  request s2 h2 = Some (k, v2, f2, e2, c) ->
  ask s2 (Store h2 KCas o2) = OStored c2 -> False.
Proof.
  intros s h1 o1 c1 ops h2 o2 c2 k v1 v2 f1 f2 e1 e2 c RS Q1 A1 OK s2 OK2 Q2 A2.
  destruct (reached_ref s RS) as (st & ops0 & xs0 & SR & H).
  pose proof (cas_bound _ _ _ SR) as CB.
  assert (OK1 : runs_ok s [Store h1 KCas o1]) by (destruct OK as (? & ? & _); split; [assumption|split; [assumption|exact I]]).
  destruct (step_ref _ _ _ H OK1) as (st1 & S1 & H1). rewrite A1 in S1.
  assert (OKr : runs_ok (fst (step s (Store h1 KCas o1))) ops) by (destruct OK as (_ & _ & Z); exact Z).
  destruct (run_ref _ _ _ H1 OKr) as (st2 & SR2 & H2).
  assert (E2 : after (fst (step s (Store h1 KCas o1))) ops = s2).
  { subst s2. unfold after. cbn [KvModel.run]. destruct (step s (Store h1 KCas o1)) as [a b]. cbn.
    destruct (run a ops). reflexivity. }
  rewrite E2 in H2. destruct (step_ref _ _ _ H2 OK2) as (st3 & S3 & _). rewrite A2 in S3.
  pose proof (request_pend _ _ _ _ _ _ _ _ H Q1) as P1. pose proof (request_pend _ _ _ _ _ _ _ _ H2 Q2) as P2.
  pose proof (sruns_entry _ _ _ _ SR2) as ENT.
  destruct S1 as [_ S1]. cbn [effect] in S1. cbn [w_map spend] in S1. rewrite P1 in S1. unfold store_spec in S1. cbn [r_key r_cas r_val r_flags r_exp] in S1.
  match type of S1 with context [slook ?a k] => set (sa := a) in S1 end.
  destruct (slook sa k) as [ea|] eqn:L1; [|destruct S1; discriminate]. destruct (e_coll ea); [destruct S1; discriminate|].
  destruct (N.eqb_spec c (e_cas ea)) as [EQ|]; [|destruct S1; discriminate].
  destruct S1 as (c1' & _ & LT & ->).
  apply slook_smap in L1. assert (M1 : smap st k = Some ea) by (eapply without_some; exact L1).
  pose proof (CB k ea M1) as CB1. change (scas sa) with (scas st) in LT.
  destruct S3 as [_ S3]. cbn [effect] in S3. cbn [w_map spend] in S3. rewrite P2 in S3. unfold store_spec in S3. cbn [r_key r_cas r_val r_flags r_exp] in S3.
  match type of S3 with context [slook ?a k] => set (sb := a) in S3 end.
  destruct (slook sb k) as [eb|] eqn:L3; [|destruct S3; discriminate]. destruct (e_coll eb); [destruct S3; discriminate|].
  destruct (N.eqb_spec c (e_cas eb)) as [EQ3|]; [|destruct S3; discriminate].
  apply slook_smap in L3. assert (M3 : smap st2 k = Some eb) by (eapply without_some; exact L3).
  destruct (ENT k eb M3) as [(e & B1 & B2)|B]; cbn in *.
  - unfold put in B1. rewrite beqb_refl in B1. injection B1 as <-. destruct B2 as (_ & _ & B2 & _). cbn in B2. lia.
  - lia.
Qed.

(* If a cas with the cas unique c of an earlier answer is stored, the item still had the
   value and flags of that answer at the moment of the store. *)
Theorem C02_stored_means_unchanged_partial : forall s k v f c ops h orc c' v2 f2 e2,
  reached s ->
  ask s (Get k) = OVal v f c ->
  runs_ok s ops ->
  let s3 := after s ops in
  runs_ok s3 [Store h KCas orc] ->
  request s3 h = Some (k, v2, f2, e2, c) ->
  ask s3 (Store h KCas orc) = OStored c' ->
  ask s3 (Get k) = OVal v f c /\ ask (after s3 [Store h KCas orc]) (Get k) = 
    (if (e2 =? 0) || (now s3 <? e2) then OVal v2 f2 c' else ORes ENOENT).
Proof.
  intros s k v f c ops h orc c' v2 f2 e2 RS A OK s3 OK3 Q A3.
  destruct (reached_ref s RS) as (st & ops0 & xs0 & SR & H).
  pose proof (cas_bound _ _ _ SR) as CB.
  rewrite (ask_get _ _ _ H) in A. destruct (slook st k) as [e|] eqn:L; [|discriminate]. destruct (e_coll e) eqn:EC; [discriminate|].
  injection A as <- <- <-. apply slook_smap in L.
  destruct (run_ref _ _ _ H OK) as (st3 & SR3 & H3). fold s3 in H3.
  destruct (step_ref _ _ _ H3 OK3) as (st4 & S4 & H4). rewrite A3 in S4.
  destruct S4 as [[V _] S4]. rewrite (V eq_refl) in S4. cbn [effect] in S4. cbn [w_map spend] in S4.
  rewrite (request_pend _ _ _ _ _ _ _ _ H3 Q) in S4. unfold store_spec in S4. cbn [r_key r_cas r_val r_flags r_exp] in S4.
  match type of S4 with context [slook ?a k] => set (sb := a) in S4 end.
  change (slook sb k) with (slook st3 k) in S4.
  destruct (slook st3 k) as [eb|] eqn:L3; [|destruct S4; discriminate]. destruct (e_coll eb) eqn:ECb; [destruct S4; discriminate|].
  destruct (N.eqb_spec (e_cas e) (e_cas eb)) as [EQ3|]; [|destruct S4; discriminate].
  destruct S4 as (c4 & [= <-] & ST).
  split.
  - rewrite (ask_get _ _ _ H3), L3, ECb. apply slook_smap in L3.
    destruct (sruns_entry _ _ _ _ SR3 k eb L3) as [(e0 & B1 & B2 & B3 & B4 & _)|B].
    + rewrite L in B1. injection B1 as <-. congruence.
    + pose proof (CB k e L). lia.
  - assert (E : after s3 [Store h KCas orc] = fst (step s3 (Store h KCas orc))).
    { unfold after. cbn [KvModel.run]. destruct (step s3 (Store h KCas orc)). reflexivity. }
    rewrite E, (ask_get _ _ _ H4), (slook_put _ _ _ _ _ _ _ _ ST). unfold put. rewrite beqb_refl. unfold live, alive. cbn.
    change (snow sb) with (snow st3). rewrite (R_now _ _ _ _ H3). destruct (_ || _); reflexivity.
Qed.

(* ===== C03 ===== *)
(* the expiry time a client can ask for: an answer means the item has not expired *)
Theorem C03_visible_not_expired_partial : forall s k e,
  reached s -> ask s (GetExp k) = OExp e -> e = 0 \/ now s < e.
Proof.
  intros s k e RS A. destruct (reached_ref s RS) as (st & _ & _ & _ & H). rewrite (ask_exp _ _ _ H) in A.
  destruct (slook st k) as [e0|] eqn:L; [|discriminate]. injection A as <-. unfold slook in L.
  destruct (smap st k) as [e1|]; [|discriminate]. unfold alive in L. destruct ((e_exp e1 =? 0) || (snow st <? e_exp e1)) eqn:Q; [|discriminate].
  injection L as ->. rewrite (R_now _ _ _ _ H) in Q. lia.
Qed.

(* all commands agree on what exists: when no expiry time can be read, every command
   answers as for a key never stored *)
Theorem C03_invisible_to_all_partial : forall s k,
  reached s -> (forall e, ask s (GetExp k) <> OExp e) ->
  ask s (Get k) = ORes ENOENT /\
  (forall o, runs_ok s [o] ->
     match o with
     | Delete k' _ | SetExp k' _ | GetExp k' | Get k' => k' = k -> ask s o = ORes ENOENT
     | Arith k' _ create _ initial _ _ _ _ => k' = k ->
         if create then ask s o = ORes ENOMEM \/ ask s o = ORes ENAME \/ exists c, ask s o = ONum initial c
         else ask s o = ORes ENOENT
     | CollCreate k' _ _ _ => k' = k -> ask s o <> ORes EEXISTS
     | Store h kind _ => forall v f e c, request s h = Some (k, v, f, e, c) ->
         match kind with
         | KSet | KAdd => (exists c', ask s o = OStored c') \/ ask s o = ORes ENAME
         | KReplace | KAppend | KPrepend => ask s o = ORes NOT_STORED
         | KCas => ask s o = ORes ENOENT
         end
     | _ => True
     end).
Proof.
  intros s k RS NE. destruct (reached_ref s RS) as (st & _ & _ & _ & H).
  assert (L : slook st k = None).
  { destruct (slook st k) as [e|] eqn:L; [|reflexivity]. exfalso. apply (NE (e_exp e)). rewrite (ask_exp _ _ _ H), L. reflexivity. }
  split; [rewrite (ask_get _ _ _ H), L; reflexivity|].
  intros o OK. destruct (step_ref _ _ _ H OK) as (st' & [[V _] E] & _).
  set (ev := map fst (evicted (fst (step s o)))) in *.
  set (s0 := w_map st (without (smap st) ev)) in E.
  assert (L0 : slook s0 k = None).
  { unfold slook, s0, without. cbn. destruct (existsb _ _); [reflexivity|exact L]. }
  destruct o; try exact I; cbn [effect] in E.
  - intros v f e c Q. change (spend s0) with (spend st) in E. rewrite (request_pend _ _ _ _ _ _ _ _ H Q) in E.
    unfold store_spec in E. cbn [r_key r_cas r_val r_flags r_exp] in E.
    match type of E with context [slook ?a k] => change (slook a k) with (slook s0 k) in E end. rewrite L0 in E.
    destruct kind; try (destruct E as [E _]; exact E).
    + destruct E as [(c' & E & _)|(E & _)]; eauto.
    + destruct E as [(c' & E & _)|(E & _)]; eauto.
  - intros ->. rewrite L0 in E. apply E.
  - intros ->. rewrite L0 in E. destruct create; [|apply E].
    destruct E as [(E & _)|[(E & _)|(c & E & _)]]; eauto.
  - intros ->. rewrite L0 in E. apply E.
  - intros ->. rewrite L0 in E. apply E.
  - intros ->. rewrite L0 in E. apply E.
  - intros ->. rewrite L0 in E. intro Z. rewrite Z in E. destruct E as [(E & _)|[(E & _)|(c & E & _)]]; discriminate.
Qed.

(* once the clock has reached the expiry time e of an item, the key stays invisible until
   some command that works on this key stores it again *)
Fixpoint untouched (s : state) (k : bytes) (ops : list op) : Prop :=
  match ops with
  | [] => True
  | o :: r => works_on s o <> Some k /\ untouched (fst (step s o)) k r
  end.

Theorem C03_expires_partial : forall s k e ops,
  reached s -> ask s (GetExp k) = OExp e -> e <> 0 -> runs_ok s ops -> untouched s k ops ->
  e <= now (after s ops) ->
  ask (after s ops) (Get k) = ORes ENOENT.
Proof.
  intros s k e ops RS A NZ OK U T. destruct (reached_ref s RS) as (st & _ & _ & _ & H).
  rewrite (ask_exp _ _ _ H) in A. destruct (slook st k) as [e0|] eqn:L; [|discriminate]. injection A as EX.
  apply slook_smap in L.
  assert (INV : forall e1, smap st k = Some e1 -> e_exp e1 = e) by (intros e1 Z; rewrite L in Z; injection Z as <-; exact EX).
  clear L EX e0 RS. revert s st H OK U T INV. induction ops as [|o r IH]; intros s st H OK U T INV.
  - unfold after in *. cbn in *. rewrite (ask_get _ _ _ H). unfold slook. destruct (smap st k) as [e1|] eqn:M; [|reflexivity].
    specialize (INV e1 eq_refl). unfold alive. rewrite (R_now _ _ _ _ H), INV.
    replace ((e =? 0) || (now s <? e)) with false by lia. reflexivity.
  - destruct OK as (O1 & O2 & O3). destruct U as [U1 U2].
    assert (OK1 : runs_ok s [o]) by (split; [exact O1|split; [exact O2|exact I]]).
    destruct (step_ref _ _ _ H OK1) as (st1 & S1 & H1).
    assert (E : after s (o :: r) = after (fst (step s o)) r).
    { unfold after. cbn [KvModel.run]. destruct (step s o) as [s1 x]. cbn. destruct (run s1 r). reflexivity. }
    rewrite E in *. eapply IH; try eassumption.
    intros e1 M. rewrite (works_op_key _ _ _ H) in U1. destruct (sstep_entry _ _ _ _ _ _ _ S1 M) as [(e2 & M2 & _ & [Q|Q])|[Q _]].
    + rewrite Q. auto.
    + subst o. cbn in U1. congruence.
    + congruence.
Qed.

(* an item without expiry time is not changed by the passing of time *)
Theorem C03_zero_never_expires_partial : forall s k d,
  reached s -> ask s (GetExp k) = OExp 0 -> now s + Z.of_nat d < sticky_time ->
  ask (after s [Tick d]) (Get k) = ask s (Get k) /\ ask (after s [Tick d]) (GetExp k) = OExp 0.
Proof.
  intros s k d RS A T. destruct (reached_ref s RS) as (st & _ & _ & _ & H).
  rewrite (ask_exp _ _ _ H) in A. destruct (slook st k) as [e0|] eqn:L; [|discriminate]. injection A as EX.
  assert (OK : runs_ok s [Tick d]) by (split; [exact T|split; [apply (R_rep _ _ _ _ H)|exact I]]).
  destruct (step_ref _ _ _ H OK) as (st1 & [[V _] E] & H1). rewrite (V eq_refl) in E. destruct E as [_ ->].
  change (fst (step s (Tick d))) with (after s [Tick d]) in H1.
  rewrite (ask_get _ _ _ H1), (ask_exp _ _ _ H1), (ask_get _ _ _ H), L.
  apply slook_smap in L. unfold slook, without. cbn. rewrite L. unfold alive. rewrite EX. cbn. rewrite EX. auto.
Qed.

(* ===== C04 ===== *)
Lemma arith_step s st k incr create d ini f e tail orc v fl c : R s st ->
  ask s (Get k) = OVal v fl c -> runs_ok s [Arith k incr create d ini f e tail orc] ->
  let s' := after s [Arith k incr create d ini f e tail orc] in
  let x := ask s (Arith k incr create d ini f e tail orc) in
  (x = ORes EINVAL /\ (forall n, ~ reads_as (v ++ [13; 10]%N ++ tail) n) /\ ask s' (Get k) = OVal v fl c) \/
  (exists n, reads_as (v ++ [13; 10]%N ++ tail) n /\
    ((x = ORes ENOMEM /\ ask s' (Get k) = OVal v fl c) \/
     exists c', x = ONum (arith incr n d) c' /\ (scas st < c')%N /\ ask s' (Get k) = OVal (dec_text (arith incr n d)) fl c')).
Proof.
  intros H A OK s' x. rewrite (ask_get _ _ _ H) in A. destruct (slook st k) as [e0|] eqn:L; [|discriminate].
  destruct (e_coll e0) eqn:EC; [discriminate|]. injection A as <- <- <-.
  destruct (step_ref _ _ _ H OK) as (st' & [[_ V] E] & H').
  assert (Es : fst (step s (Arith k incr create d ini f e tail orc)) = s').
  { subst s'. unfold after. cbn [KvModel.run]. destruct (step s _). reflexivity. }
  rewrite Es in *. fold x in E. cbn [effect] in E.
  match type of E with context [slook ?a k] => set (s0 := a) in E end.
  assert (NE : existsb (beqb k) (map fst (evicted s')) = false).
  { apply not_true_is_false. intro Z. apply existsb_exists in Z as (k1 & Z1 & Z2). apply beqb_eq in Z2 as <-.
    destruct (V k Z1) as [_ Q]. apply Q. reflexivity. }
  assert (L0 : slook s0 k = Some e0). { unfold slook, s0, without. cbn. rewrite NE. exact L. }
  rewrite L0, EC in E. destruct E as [(E1 & E2 & ->)|(n & E1 & [[E2 ->]|(c' & E2 & ST)])].
  - left. rewrite (ask_get _ _ _ H'), L0, EC. auto.
  - right. exists n. split; [exact E1|]. left. rewrite (ask_get _ _ _ H'), L0, EC. auto.
  - right. exists n. split; [exact E1|]. right. exists c'. split; [exact E2|]. split; [apply ST|].
    rewrite (ask_get _ _ _ H'), (slook_put _ _ _ _ _ _ _ _ ST). unfold put. rewrite beqb_refl. unfold live.
    unfold slook in L0. destruct (smap s0 k) as [e1|]; [|discriminate]. destruct (alive (snow s0) e1) eqn:AL; [|discriminate].
    injection L0 as <-. unfold alive in *. cbn [e_exp]. rewrite AL. reflexivity.
Qed.

(* incr/decr of an item that holds a number n: the answer and the next get show n plus or
   minus delta (wrapping at 2^64 / stopping at 0), flags are kept and the cas is new.
   Partial: for n >= 2^63 the bytes after the item must not contain '-' (C04_refuted). *)
Theorem C04_arithmetic_partial : forall s k v fl c n incr create d ini f e tail orc,
  reached s -> ask s (Get k) = OVal v fl c ->
  plain_number v n -> (n < 2 ^ 64)%N -> (n < 2 ^ 63 \/ ~ In 45 tail)%N ->
  runs_ok s [Arith k incr create d ini f e tail orc] ->
  let s' := after s [Arith k incr create d ini f e tail orc] in
  let x := ask s (Arith k incr create d ini f e tail orc) in
  let m := if incr then ((n + d) mod 2 ^ 64)%N else (n - d)%N in
  (x = ORes ENOMEM /\ ask s' (Get k) = OVal v fl c) \/
  (exists c', x = ONum m c' /\ (c < c')%N /\ exists t, plain_number t m /\ ask s' (Get k) = OVal t fl c').
Proof.
  intros s k v fl c n incr create d ini f e tail orc RS A P B T OK s' x m.
  destruct (reached_ref s RS) as (st & ops & xs & SR & H).
  pose proof (reads_plain v n tail P B T) as RD.
  destruct (arith_step s st k incr create d ini f e tail orc v fl c H A OK) as [(_ & Z & _)|(n' & R' & Z)]; [destruct (Z n RD)|].
  rewrite <- (reads_fun _ _ _ RD R') in Z. destruct Z as [Z|(c' & Z1 & Z2 & Z3)]; [left; exact Z|right].
  exists c'. split; [exact Z1|]. split.
  - rewrite (ask_get _ _ _ H) in A. destruct (slook st k) as [e0|] eqn:L; [|discriminate]. destruct (e_coll e0); [discriminate|].
    injection A as <- <- <-. pose proof (cas_bound _ _ _ SR k e0 (slook_smap _ _ _ L)). lia.
  - exists (dec_text m). split; [apply dec_text_plain|exact Z3].
Qed.

(* a value that does not begin like a number is refused and left alone *)
Theorem C04_not_a_number_partial : forall s k a v fl c incr create d ini f e tail orc,
  reached s -> ask s (Get k) = OVal (a :: v) fl c ->
  ~ is_space a -> ~ is_digit a -> a <> 43%N -> a <> 45%N ->
  runs_ok s [Arith k incr create d ini f e tail orc] ->
  ask s (Arith k incr create d ini f e tail orc) = ORes EINVAL /\
  ask (after s [Arith k incr create d ini f e tail orc]) (Get k) = OVal (a :: v) fl c.
Proof.
  intros s k a v fl c incr create d ini f e tail orc RS A NS ND N1 N2 OK.
  destruct (reached_ref s RS) as (st & ops & xs & SR & H).
  destruct (arith_step s st k incr create d ini f e tail orc (a :: v) fl c H A OK) as [(Z1 & _ & Z2)|(n' & R' & Z)]; [auto|exfalso].
  destruct R' as [(neg & m & rest & (w & sg & ds & E & W & SG & DS & DV & _) & _)|(_ & (c0 & r0 & E & W) & _)].
  - destruct w as [|w0 w]; cbn in E.
    + destruct SG as [[_ ->]|[_ [->| ->]]]; cbn in E; try congruence.
      destruct ds as [|d0 ds]; [congruence|]. cbn in E. injection E as <- _. apply ND.
      clear - DV. assert (F : Forall is_digit (a :: ds)).
      { induction DV; [constructor|]. apply Forall_app. auto. }
      inversion F; assumption.
    + injection E as <- _. inversion W; auto.
  - cbn in E. injection E as <- _. auto.
Qed.

(* incr/decr with an initial value on a missing key *)
Theorem C04_creates_partial : forall s k incr d ini f e tail orc,
  reached s -> ask s (Get k) = ORes ENOENT -> e = 0 \/ now s < e ->
  runs_ok s [Arith k incr true d ini f e tail orc] ->
  let s' := after s [Arith k incr true d ini f e tail orc] in
  let x := ask s (Arith k incr true d ini f e tail orc) in
  ((x = ORes ENOMEM \/ (x = ORes ENAME /\ bad_prefix_name k)) /\ ask s' (Get k) = ORes ENOENT) \/
  (exists c, x = ONum ini c /\ exists t, plain_number t ini /\ ask s' (Get k) = OVal t f c).
Proof.
  intros s k incr d ini f e tail orc RS A EX OK s' x.
  destruct (reached_ref s RS) as (st & ops & xs & SR & H).
  rewrite (ask_get _ _ _ H) in A. destruct (slook st k) as [e0|] eqn:L; [destruct (e_coll e0); discriminate|]. clear A.
  destruct (step_ref _ _ _ H OK) as (st' & [[_ V] E] & H').
  assert (Es : fst (step s (Arith k incr true d ini f e tail orc)) = s').
  { subst s'. unfold after. cbn [KvModel.run]. destruct (step s _). reflexivity. }
  rewrite Es in *. fold x in E. cbn [effect] in E.
  match type of E with context [slook ?a k] => set (s0 := a) in E end.
  assert (L0 : slook s0 k = None). { unfold slook, s0, without. cbn. destruct (existsb _ _); [reflexivity|exact L]. }
  rewrite L0 in E. destruct E as [[E ->]|[(E1 & E2 & ->)|(c & E & ST)]].
  - left. rewrite (ask_get _ _ _ H'), L0. auto.
  - left. rewrite (ask_get _ _ _ H'), L0. auto.
  - right. exists c. split; [exact E|]. exists (dec_text ini). split; [apply dec_text_plain|].
    rewrite (ask_get _ _ _ H'), (slook_put _ _ _ _ _ _ _ _ ST). unfold put. rewrite beqb_refl. unfold live, alive. cbn.
    replace (snow st) with (now s) by (symmetry; apply (R_now _ _ _ _ H)).
    replace ((e =? 0) || (now s <? e)) with true by lia. reflexivity.
Qed.

(* ===== C05 ===== *)
Lemma run_app s a b : run s (a ++ b) = (after (after s a) b, snd (run s a) ++ snd (run (after s a) b)).
Proof.
  unfold after. revert s. induction a as [|o a IH]; intro s; cbn [app KvModel.run].
  - cbn. destruct (run s b); reflexivity.
  - destruct (step s o) as [s1 x]. rewrite IH. destruct (run s1 a) as [s2 xs]. reflexivity.
Qed.

(* After an immediate flush_all no get ever returns an item that existed before: every cas
   unique a get returns later is larger than all cas uniques answered before the flush. *)
Theorem C05_flush_all_partial : forall ops1 ops2 x ev c1 k v f c2,
  runs_ok init (ops1 ++ Flush 0 :: ops2) ->
  In (x, ev) (snd (run init ops1)) -> answer_cas x = Some c1 ->
  ask (after init (ops1 ++ Flush 0 :: ops2)) (Get k) = OVal v f c2 -> (c1 < c2)%N.
Proof.
  intros ops1 ops2 x ev c1 k v f c2 OK IN AC A.
  apply runs_ok_app in OK as [OK1 OK2].
  destruct (run_ref _ _ _ (R_init lru_class maxcls) OK1) as (st1 & SR1 & H1).
  assert (B1 : (c1 <= scas st1)%N).
  { eapply answers_cas; [exact SR1| |apply (in_map (fun a => (fst a, map fst (snd a))) _ _ IN)|exact AC]. discriminate. }
  destruct OK2 as (O1 & O2 & O3). assert (OKF : runs_ok (after init ops1) [Flush 0]) by (split; [exact O1|split; [exact O2|exact I]]).
  destruct (step_ref _ _ _ H1 OKF) as (st2 & [[V _] E] & H2). rewrite (V eq_refl) in E. destruct E as [_ ->].
  destruct (run_ref _ _ _ H2 O3) as (st3 & SR3 & H3).
  assert (Es : after (fst (step (after init ops1) (Flush 0))) ops2 = after init (ops1 ++ Flush 0 :: ops2)).
  { unfold after at 3. rewrite run_app. cbn [fst]. unfold after at 1 3. cbn [KvModel.run]. destruct (step _ (Flush 0)) as [a b]. cbn.
    destruct (run a ops2). reflexivity. }
  rewrite Es in H3. rewrite (ask_get _ _ _ H3) in A. destruct (slook st3 k) as [e|] eqn:L; [|discriminate]. destruct (e_coll e); [discriminate|].
  injection A as <- <- <-. destruct (sruns_entry _ _ _ _ SR3 k e (slook_smap _ _ _ L)) as [(e0 & Z & _)|Z]; [discriminate|].
  cbn in Z. lia.
Qed.

(* The same for the keys of one prefix; right after the flush all other keys answer as before. *)
Theorem C05_flush_prefix_partial : forall ops1 p ops2 x ev c1,
  runs_ok init (ops1 ++ FlushPrefix p 0 :: ops2) ->
  In (x, ev) (snd (run init ops1)) -> answer_cas x = Some c1 ->
  let s1 := after init ops1 in
  (ask s1 (FlushPrefix p 0) = ORes PENOENT /\
     (forall k, has_prefix k p -> ask s1 (Get k) = ORes ENOENT)) \/
  (ask s1 (FlushPrefix p 0) = ORes SUCCESS /\
     (forall k v f c2, has_prefix k p ->
        ask (after init (ops1 ++ FlushPrefix p 0 :: ops2)) (Get k) = OVal v f c2 -> (c1 < c2)%N) /\
     (forall k, ~ has_prefix k p -> ask (after s1 [FlushPrefix p 0]) (Get k) = ask s1 (Get k))).
Proof.
  intros ops1 p ops2 x ev c1 OK IN AC s1.
  apply runs_ok_app in OK as [OK1 OK2].
  destruct (run_ref _ _ _ (R_init lru_class maxcls) OK1) as (st1 & SR1 & H1).
  assert (B1 : (c1 <= scas st1)%N).
  { eapply answers_cas; [exact SR1| |apply (in_map (fun a => (fst a, map fst (snd a))) _ _ IN)|exact AC]. discriminate. }
  destruct OK2 as (O1 & O2 & O3). assert (OKF : runs_ok s1 [FlushPrefix p 0]) by (split; [exact O1|split; [exact O2|exact I]]).
  destruct (step_ref _ _ _ H1 OKF) as (st2 & [[V _] E] & H2). rewrite (V eq_refl) in E. fold s1 in E, H1, H2. cbn [effect] in E.
  destruct E as [(E0 & E1 & E2 & _ & E4 & E5)|(E0 & E1 & E2)].
  - right. split; [exact E0|]. split.
    + intros k v f c2 HP A. destruct (run_ref _ _ _ H2 O3) as (st3 & SR3 & H3).
      assert (Es : after (fst (step s1 (FlushPrefix p 0))) ops2 = after init (ops1 ++ FlushPrefix p 0 :: ops2)).
      { unfold after at 2. rewrite run_app. cbn [fst]. fold s1. unfold after. cbn [KvModel.run]. destruct (step s1 (FlushPrefix p 0)) as [a b]. cbn.
        destruct (run a ops2). reflexivity. }
      fold s1 in H3. rewrite Es in H3. rewrite (ask_get _ _ _ H3) in A. destruct (slook st3 k) as [e|] eqn:L; [|discriminate]. destruct (e_coll e); [discriminate|].
      injection A as <- <- <-. destruct (sruns_entry _ _ _ _ SR3 k e (slook_smap _ _ _ L)) as [(e0 & Z & _)|Z].
      * rewrite (E4 k HP) in Z. discriminate.
      * rewrite E2 in Z. cbn in Z. lia.
    + intros k NP. assert (Es : after s1 [FlushPrefix p 0] = fst (step s1 (FlushPrefix p 0))).
      { unfold after. cbn [KvModel.run]. destruct (step s1 _). reflexivity. }
      rewrite Es, (ask_get _ _ _ H2), (ask_get _ _ _ H1). unfold slook. rewrite (E5 k NP), E1. reflexivity.
  - left. split; [exact E0|]. intros k HP. rewrite (ask_get _ _ _ H1).
    specialize (E1 k HP). change (slook st1 k = None) in E1. rewrite E1. reflexivity.
Qed.

(* ===== C38 ===== *)
Definition body (it : item) := (ikey it, idata it, iflags it, icoll it).

(* In every reached state: no assertion has failed and no freed item was touched; every item
   a client refers to is allocated; the reference count is the number of references; an item
   without references is linked into the hash table and its LRU list (nothing leaks). *)
Theorem C38_references_partial : forall s, reached s ->
  bad s = false /\
  (forall i b, In (i, b) (held s) -> exists it, items s i = Some it /\ (0 < iref it)%nat) /\
  (forall i it, items s i = Some it ->
     iref it = (count_occ Nat.eq_dec (map fst (held s)) i + count_occ Nat.eq_dec (lost s) i)%nat) /\
  (forall i it, items s i = Some it -> iref it = 0%nat ->
     In (ikey it, i) (table s) /\ In i (lru s (is_sticky it) (cls lru_class maxcls it))).
Proof.
  intros s RS. destruct (reached_ref s RS) as (st & _ & _ & _ & H).
  pose proof (R_core _ _ _ _ H) as C. pose proof (R_ref _ _ _ _ H) as RI. split; [apply C|].
  assert (CNT : forall i it, items s i = Some it ->
     iref it = (count_occ Nat.eq_dec (map fst (held s)) i + count_occ Nat.eq_dec (lost s) i)%nat).
  { intros i it Hi. rewrite (r_cnt _ _ RI i it Hi). unfold refs_of. apply count_occ_app. }
  split; [|split; [exact CNT|]].
  - intros i b I. assert (J : In i (refs_of s)) by (apply in_or_app; left; change i with (fst (i, b)); apply in_map; exact I).
    pose proof (r_in _ _ RI i J) as NN. destruct (items s i) as [it|] eqn:Hi; [|congruence]. exists it. split; [reflexivity|].
    rewrite (r_cnt _ _ RI i it Hi). apply (count_occ_In Nat.eq_dec). exact J.
  - intros i it Hi Z. destruct (r_zero _ _ RI i it Hi Z) as [Z1 Z2]. split.
    + apply (c_tab _ _ _ C). eauto.
    + apply (c_lru _ _ _ C). eauto 10.
Qed.

(* The bytes a client reads through its reference never change while it holds it,
   whatever all clients do. *)
Theorem C38_held_bytes_stay_partial : forall ops s i b b' it it',
  reached s -> runs_ok s ops ->
  In (i, b) (held s) -> items s i = Some it ->
  In (i, b') (held (after s ops)) -> items (after s ops) i = Some it' ->
  body it' = body it.
Proof.
  intros ops s i b b' it it' RS OK I1 Hi I2 Hi'.
  assert (K : keeps _ body s (after s ops)).
  { clear. revert s. induction ops as [|o r IH]; intro s; [apply keeps_refl|].
    unfold after. cbn [KvModel.run]. destruct (step s o) as [s1 x] eqn:E. specialize (IH s1). unfold after in IH. destruct (run s1 r) as [s2 xs]. cbn in *.
    eapply keeps_trans; [|exact IH]. eapply step_keeps; [| |exact E].
    - intro it. repeat split; reflexivity.
    - intro it. repeat split; reflexivity. }
  destruct K as [_ K]. destruct (K i it' Hi') as [Z|(it0 & Z1 & Z2)]; [|congruence].
  destruct (reached_ref s RS) as (st & _ & _ & _ & H). pose proof (c_next _ _ _ (R_core _ _ _ _ H) i Z). congruence.
Qed.

(* ===== C39 ===== *)
(* In every reached state the LRU list of a class holds each linked item of that class
   exactly once (except items pulled out while they were in use), newest first; items pulled
   out are in use. *)
Theorem C39_lru_lists_partial : forall s, reached s ->
  (forall b c, NoDup (lru s b c) /\ StronglySorted (fun i j => time_of s j <= time_of s i) (lru s b c)) /\
  (forall i it, items s i = Some it ->
     (ilinked it = true <-> In (ikey it, i) (table s)) /\
     (In i (lru s (is_sticky it) (cls lru_class maxcls it)) -> ilinked it = true) /\
     (ilinked it = true -> In i (lru s (is_sticky it) (cls lru_class maxcls it)) \/ (0 < iref it)%nat)) /\
  (forall b c i, In i (lru s b c) -> exists it, items s i = Some it /\ is_sticky it = b /\ cls lru_class maxcls it = c).
Proof.
  intros s RS. destruct (reached_ref s RS) as (st & _ & _ & _ & H).
  pose proof (R_core _ _ _ _ H) as C. pose proof (R_ref _ _ _ _ H) as RI. split; [|split].
  - intros b c. split; [apply (c_lnd _ _ _ C)|apply (c_srt _ _ _ C)].
  - intros i it Hi. split; [|split].
    + rewrite (c_tab _ _ _ C). split; [eauto|]. intros (it1 & A & B & _). congruence.
    + intro I. apply (c_lru _ _ _ C) in I as (it1 & A & B & _). rewrite Hi in A. injection A as <-. eapply (c_il _ _ _ C); eassumption.
    + intro L. destruct (iref it) eqn:Q; [|right; lia]. left. apply (c_lru _ _ _ C).
      destruct (r_zero _ _ RI i it Hi Q). eauto 10.
  - intros b c i I. apply (c_lru _ _ _ C) in I as (it & A & _ & B & D). eauto.
Qed.

(* What an allocation evicts: visible items no client refers to, not sticky, that were in
   the LRU list of their class and not younger than any item that stays in that list. *)
Theorem C39_victims_partial : forall s k f e v c orc,
  reached s -> runs_ok s [Alloc k f e v c orc] ->
  let s' := after s [Alloc k f e v c orc] in
  forall k' j, In (k', j) (evicted s') ->
  (exists w g u, ask s (Get k') = OVal w g u \/ ask s (Get k') = ORes EBADTYPE) /\
  exists it, items s j = Some it /\ ikey it = k' /\ iref it = 0%nat /\ iexp it <> sticky_time /\
    (forall b, ~ In (j, b) (held s)) /\
    exists cl, In j (lru s false cl) /\
      forall i, In i (lru s' false cl) -> i <> j /\ time_of s j <= time_of s i.
Proof.
  intros s k f e v c orc RS OK s' k' j I.
  destruct (reached_ref s RS) as (st & _ & _ & _ & H).
  destruct (step_ref _ _ _ H OK) as (st' & [[_ V] _] & H').
  assert (Es : fst (step s (Alloc k f e v c orc)) = s').
  { subst s'. unfold after. cbn [KvModel.run]. destruct (step s _). reflexivity. }
  assert (RF : repaired s' = false) by (rewrite <- Es; apply OK).
  rewrite Es in *. split.
  { destruct (V k') as [(e0 & L & _) _]; [change k' with (fst (k', j)); apply in_map; exact I|].
    exists (e_val e0), (e_flags e0), (e_cas e0). rewrite (ask_get _ _ _ H), L. destruct (e_coll e0); auto. }
  set (s0 := w_evicted s []) in *.
  assert (C0 : Core s0) by (eapply core_frame; [exact (R_core _ _ _ _ H)|..]; try reflexivity; cbn; lia).
  assert (A : exists cl0 g s1, mem_alloc lru_class maxcls evict_on s0 cl0 orc = (s1, g) /\ repaired s1 = false /\ evicted s1 = evicted s' /\ lru s1 = lru s' \/ evicted s' = []).
  { revert Es. unfold KvModel.step. fold s0. unfold alloc. destruct (o_fail orc).
    - cbn. intros <-. exists 0%nat, false, s0. right. reflexivity.
    - match goal with |- context [mem_alloc _ _ _ s0 ?cl orc] => exists cl; destruct (mem_alloc lru_class maxcls evict_on s0 cl orc) as [s1 g] end.
      exists g, s1. left. split; [reflexivity|]. revert Es. destruct g; cbn; intro Es; rewrite <- Es in RF |- *; cbn in *; auto. }
  destruct A as (cl0 & g & s1 & [(A1 & A2 & A3 & A4)|A]); [|rewrite A in I; destruct I].
  assert (R0 : repaired s0 = false) by apply (R_rep _ _ _ _ H).
  destruct (mem_alloc_oldest _ _ _ _ _ _ _ _ C0 R0 A1 A2) as [_ OF].
  destruct (mem_alloc_good _ _ _ _ _ _ _ _ C0 R0 A1 A2) as [_ DN].
  rewrite <- A3 in I. destruct (d_ev' _ _ DN k' j I) as [Z|(it & B1 & B2 & B3 & B4 & B5 & B6 & _)]; [destruct Z|].
  exists it. split; [exact B1|]. split; [exact B2|]. split; [exact B5|]. split.
  { unfold is_sticky in B6. lia. }
  split.
  { intros b Hb. pose proof (r_cnt _ _ (R_ref _ _ _ _ H) j it B1) as Q. rewrite B5 in Q.
    assert (J : In j (refs_of s)) by (apply in_or_app; left; change j with (fst (j, b)); apply in_map; exact Hb).
    apply (count_occ_In Nat.eq_dec) in J. lia. }
  destruct (OF k' j I) as [Z|(cl & Z1 & Z2)]; [destruct Z|]. exists cl. split; [exact Z1|]. rewrite <- A4. exact Z2.
Qed.
End P.

Print Assumptions C01_map_semantics_partial.
Print Assumptions C02_one_winner_partial.
Print Assumptions C02_stored_means_unchanged_partial.
Print Assumptions C03_visible_not_expired_partial.
Print Assumptions C03_invisible_to_all_partial.
Print Assumptions C03_expires_partial.
Print Assumptions C03_zero_never_expires_partial.
Print Assumptions C04_arithmetic_partial.
Print Assumptions C04_not_a_number_partial.
Print Assumptions C04_creates_partial.
Print Assumptions C05_flush_all_partial.
Print Assumptions C05_flush_prefix_partial.
Print Assumptions C38_references_partial.
Print Assumptions C38_held_bytes_stay_partial.
Print Assumptions C39_lru_lists_partial.
Print Assumptions C39_victims_partial.

(* ===== C01 without eviction: the domain condition is a condition on the commands only ===== *)
Fixpoint plain_ops (t : Z) (ops : list op) : Prop :=
  match ops with
  | [] => True
  | Tick d :: r => t + Z.of_nat d < sticky_time /\ plain_ops (t + Z.of_nat d) r
  | (Alloc k _ _ _ _ _ | Arith k _ _ _ _ _ _ _ _ | CollCreate k _ _ _) :: r => short k /\ plain_ops t r
  | (Flush _ | FlushPrefix _ _) :: _ => False
  | _ :: r => plain_ops t r
  end.

Lemma plain_runs lru_class maxcls ops : forall s st, R lru_class maxcls s st -> plain_ops (now s) ops ->
  runs_ok lru_class maxcls false s ops /\ Forall (fun a => snd a = []) (snd (run lru_class maxcls false s ops)).
Proof.
  induction ops as [|o r IH]; intros s st H P; [split; [exact I|constructor]|].
  destruct (step lru_class maxcls false s o) as [s1 x] eqn:E.
  destruct (step_still _ _ _ _ _ _ E) as [RF EV]. rewrite (R_rep _ _ _ _ H) in RF.
  assert (OK : ok_op s o) by (destruct o; cbn in P |- *; try exact I; try contradiction; apply P).
  destruct (step_refines _ _ _ _ _ _ _ _ H OK E RF) as (st1 & S1 & H1).
  assert (P1 : plain_ops (now s1) r).
  { rewrite <- (R_now _ _ _ _ H1). destruct o; cbn in P; try contradiction.
    1: { destruct S1 as [_ [_ ->]]. cbn. rewrite (R_now _ _ _ _ H). apply P. }
    all: replace (snow st1) with (now s); [try exact P; try apply P|].
    all: destruct S1 as [_ S1]; apply effect_now in S1; [|discriminate]; rewrite S1; cbn; symmetry; apply (R_now _ _ _ _ H). }
  destruct (IH s1 st1 H1 P1) as [I1 I2]. cbn [runs_ok run]. rewrite E. cbn [fst]. destruct (run lru_class maxcls false s1 r) as [s2 xs]. cbn in *.
  split; [auto|]. constructor; [exact EV|exact I2].
Qed.

Theorem C01_no_eviction_partial : forall lru_class maxcls ops,
  plain_ops 2 ops ->
  exists st, sruns empty_cache ops (map (fun a => (fst a, [])) (snd (run lru_class maxcls false init ops))) st.
Proof.
  intros lru_class maxcls ops P. destruct (plain_runs lru_class maxcls ops init empty_cache (R_init _ _) P) as [OK F].
  destruct (C01_map_semantics_partial lru_class maxcls false ops OK) as [st S]. exists st.
  replace (map (fun a => (fst a, [])) (snd (run lru_class maxcls false init ops)))
    with (map (fun a : out * list (bytes * nat) => (fst a, map fst (snd a))) (snd (run lru_class maxcls false init ops))); [exact S|].
  apply map_ext_in. intros [x ev] I. rewrite Forall_forall in F. specialize (F _ I). cbn in *. rewrite F. reflexivity.
Qed.
Print Assumptions C01_no_eviction_partial.

(* ===== concrete cases ===== *)
Definition cls1 : bool -> bytes -> bytes -> nat := fun _ _ _ => 1%nat.
Definition free_mem := mkOracle false 0 [true].
Definition full_mem := mkOracle false 0 [false; true].      (* one eviction makes room *)
Definition a_key := [97; 58; 49]%N.   (* a:1 *)
Definition b_key := [98]%N.
(* set key 10, keep the reference, tick *)
Definition set_cmd k v e := [Alloc k 7 e v 0 free_mem; Store 0 KSet free_mem; Release 0].

(* a computable check of runs_ok for runs without flush *)
Definition ok_opb (s : state) (o : op) : bool :=
  match o with
  | Tick d => now s + Z.of_nat d <? sticky_time
  | Alloc k _ _ _ _ _ | Arith k _ _ _ _ _ _ _ _ | CollCreate k _ _ _ =>
      match index_of 58 (tl k) 1 with Some i => Nat.ltb i 256 | None => true end
  | Flush _ | FlushPrefix _ _ => false
  | _ => true
  end.
Fixpoint runs_okb (s : state) (ops : list op) : bool :=
  match ops with
  | [] => true
  | o :: r => let s1 := fst (step cls1 2 true s o) in ok_opb s o && (negb (repaired s1) && runs_okb s1 r)
  end.
Lemma runs_okb_ok ops : forall s, runs_okb s ops = true -> runs_ok cls1 2 true s ops.
Proof.
  induction ops as [|o r IH]; intro s; cbn [runs_okb runs_ok]; [auto|].
  intro H. apply andb_true_iff in H as [H1 H]. apply andb_true_iff in H as [H2 H3]. split; [|split; [|auto]].
  - assert (SH : forall k, match index_of 58 (tl k) 1 with Some i => Nat.ltb i 256 | None => true end = true -> short k).
    { intro k. unfold short. destruct (index_of 58 (tl k) 1); [|auto]. apply Nat.ltb_lt. }
    destruct o; cbn in *; auto; try discriminate. lia.
  - destruct (repaired _); [discriminate|reflexivity].
Qed.
Ltac ok_run := apply runs_okb_ok; vm_compute; reflexivity.

Definition ex1 := set_cmd a_key [49; 48]%N 0 ++ [Tick 3] ++ set_cmd b_key [120]%N 9
  ++ [Get a_key; Alloc a_key 1 0 [33]%N 1 free_mem; Store 0 KCas free_mem; Arith b_key true false 1 0 0 0 [] free_mem;
      Alloc [99]%N 0 0 [122]%N 0 full_mem; Store 0 KAdd free_mem; Get b_key; Delete a_key 0; Get a_key].
Example C01_case_hyp : runs_ok cls1 2 true init ex1.
Proof. ok_run. Qed.
Example C01_case : map fst (snd (run cls1 2 true init ex1)) =
  [ORes SUCCESS; OStored 1; ONone; ONone; ORes SUCCESS; OStored 2; ONone;
   OVal [49; 48]%N 7 1; ORes SUCCESS; OStored 3; ORes EINVAL; ORes SUCCESS; OStored 4; ORes ENOENT; ORes SUCCESS; ORes ENOENT]
  /\ map (fun a => map fst (snd a)) (snd (run cls1 2 true init ex1)) =
  [[]; []; []; []; []; []; []; []; []; []; []; [b_key]; []; []; []; []].
Proof. vm_compute. split; reflexivity. Qed.
Example C01_no_eviction_case : plain_ops 2 ex1.
Proof. cbn. unfold short, sticky_time; cbn. repeat split; lia. Qed.

(* C02: two clients read cas 1 and both send cas; the first wins, the second gets EEXISTS *)
Definition ex2 := set_cmd a_key [49]%N 0 ++ [Get a_key; Alloc a_key 0 0 [50]%N 1 free_mem; Alloc a_key 0 0 [51]%N 1 free_mem].
Example C02_case : reached cls1 2 true (after cls1 2 true init ex2) /\
  let s := after cls1 2 true init ex2 in
  request s 1 = Some (a_key, [50]%N, 0, 0%Z, 1)%N /\ request s 0 = Some (a_key, [51]%N, 0, 0%Z, 1)%N /\
  ask cls1 2 true s (Store 1 KCas free_mem) = OStored 2 /\
  let s2 := after cls1 2 true s [Store 1 KCas free_mem] in
  ask cls1 2 true s2 (Store 0 KCas free_mem) = ORes EEXISTS.
Proof.
  split; [exists ex2; split; [ok_run|reflexivity]|]. vm_compute. repeat split; reflexivity.
Qed.

(* C03: stored with expiry 9, gone at 9 *)
Definition ex3 := set_cmd a_key [49]%N 9.
Example C03_case : let s := after cls1 2 true init ex3 in
  reached cls1 2 true s /\ ask cls1 2 true s (GetExp a_key) = OExp 9 /\
  runs_ok cls1 2 true s [Tick 7] /\ untouched cls1 2 true s a_key [Tick 7] /\ 9 <= now (after cls1 2 true s [Tick 7]) /\
  ask cls1 2 true (after cls1 2 true s [Tick 6]) (Get a_key) = OVal [49]%N 7 1 /\
  ask cls1 2 true (after cls1 2 true s [Tick 7]) (Get a_key) = ORes ENOENT.
Proof.
  cbn zeta. split; [exists ex3; split; [ok_run|reflexivity]|]. split; [vm_compute; reflexivity|].
  split; [ok_run|]. split; [cbn; split; [discriminate|exact I]|]. split; [vm_compute; discriminate|]. vm_compute. auto.
Qed.

(* C04 *)
Definition ex4 := set_cmd a_key [57; 57]%N 0.
Example C04_case : let s := after cls1 2 true init ex4 in
  reached cls1 2 true s /\ plain_number [57; 57]%N 99 /\
  ask cls1 2 true s (Arith a_key true false 1 0 0 0 [45]%N free_mem) = ONum 100 2 /\
  ask cls1 2 true (after cls1 2 true s [Arith a_key true false 1 0 0 0 [45]%N free_mem]) (Get a_key) = OVal [49; 48; 48]%N 7 2 /\
  ask cls1 2 true s (Arith a_key false false 100 0 0 0 [45]%N free_mem) = ONum 0 2 /\
  ask cls1 2 true s (Arith b_key false true 100 5 0 0 [45]%N free_mem) = ONum 5 2.
Proof.
  cbn zeta. split; [exists ex4; split; [ok_run|reflexivity]|]. split.
  { split; [discriminate|]. apply decimal_value_fold. split; [|reflexivity]. repeat constructor; unfold is_digit; lia. }
  vm_compute. auto 10.
Qed.

(* incr of a stored number >= 2^63 fails when the memory behind the item contains a '-'
   (util.c 101 strchr(str, '-') on item data that has no terminating NUL) *)
Theorem C04_refuted : exists s k v n tail,
  reached cls1 2 true s /\ ask cls1 2 true s (Get k) = OVal v 7 1 /\ plain_number v n /\ (n < 2 ^ 64)%N /\
  ask cls1 2 true s (Arith k true false 1 0 0 0 [] free_mem) = ONum (n + 1) 2 /\
  ask cls1 2 true s (Arith k true false 1 0 0 0 tail free_mem) = ORes EINVAL.
Proof.
  exists (after cls1 2 true init (set_cmd a_key (dec_text 9223372036854775808) 0)), a_key, (dec_text 9223372036854775808), 9223372036854775808%N, [45]%N.
  split; [eexists; split; [|reflexivity]; ok_run|]. split; [vm_compute; reflexivity|].
  split; [apply dec_text_plain|]. split; [reflexivity|]. vm_compute. auto.
Qed.
Print Assumptions C04_refuted.

(* C05 *)
Definition ex5 := set_cmd a_key [49]%N 0 ++ set_cmd b_key [50]%N 0 ++ [Tick 4] ++ set_cmd [99]%N [51]%N 0.
Lemma ex5_npo : no_pulled_out (after cls1 2 true init ex5).
Proof.
  intros j it. destruct j as [|[|[|j]]]; vm_compute; intros H; try discriminate H;
    injection H as <-; discriminate.
Qed.
Example C05_case : runs_ok cls1 2 true init (ex5 ++ Flush 0 :: set_cmd a_key [52]%N 0) /\
  runs_ok cls1 2 true init (ex5 ++ FlushPrefix (Some [97]%N) 0 :: []) /\
  ask cls1 2 true (after cls1 2 true init (ex5 ++ Flush 0 :: set_cmd a_key [52]%N 0)) (Get a_key) = OVal [52]%N 7 4 /\
  ask cls1 2 true (after cls1 2 true init (ex5 ++ Flush 0 :: set_cmd a_key [52]%N 0)) (Get b_key) = ORes ENOENT /\
  ask cls1 2 true (after cls1 2 true init (ex5 ++ [FlushPrefix (Some [97]%N) 0])) (Get a_key) = ORes ENOENT /\
  ask cls1 2 true (after cls1 2 true init (ex5 ++ [FlushPrefix (Some [97]%N) 0])) (Get b_key) = OVal [50]%N 7 2.
Proof.
  split.
  { apply runs_ok_app. split; [ok_run|]. split; [split; [reflexivity|exact ex5_npo]|]. split; [vm_compute; reflexivity|]. ok_run. }
  split.
  { apply runs_ok_app. split; [ok_run|]. split; [split; [reflexivity|exact ex5_npo]|]. split; [vm_compute; reflexivity|]. exact I. }
  vm_compute. auto 10.
Qed.

(* A delayed flush_all brings flushed items back: the first flush leaves items older than one
   second in place and hides them by oldest_live, which the second flush overwrites. *)
Theorem C05_delayed_flush_refuted : exists ops1 ops2 k v f c,
  runs_ok cls1 2 true init (ops1 ++ [Flush 0]) /\
  ask cls1 2 true (after cls1 2 true init (ops1 ++ [Flush 0])) (Get k) = ORes ENOENT /\
  ask cls1 2 true (after cls1 2 true init (ops1 ++ [Flush 0] ++ ops2)) (Get k) = OVal v f c /\
  In (OStored c, []) (snd (run cls1 2 true init ops1)).
Proof.
  exists ex5, [Flush 100], b_key, [50]%N, 7%N, 2%N.
  split; [apply runs_ok_app; split; [ok_run|]; split; [split; [reflexivity|exact ex5_npo]|]; split; [vm_compute; reflexivity|exact I]|].
  vm_compute. auto 20.
Qed.
Print Assumptions C05_delayed_flush_refuted.

(* A referenced item that an eviction search pulled out of the LRU list in the current second
   survives an immediate flush_all. *)
Definition ex5r := [Alloc a_key 7 0 [49]%N 0 free_mem; Store 0 KSet free_mem] ++ set_cmd b_key [50]%N 0
  ++ [Alloc [99]%N 0 0 [51]%N 0 full_mem].
Theorem C05_refuted : exists ops k v f c,
  runs_ok cls1 2 true init ops /\
  In (OStored c, []) (snd (run cls1 2 true init ops)) /\
  ask cls1 2 true (after cls1 2 true init (ops ++ [Flush 0])) (Get k) = OVal v f c.
Proof. exists ex5r, a_key, [49]%N, 7%N, 1%N. split; [ok_run|]. vm_compute. auto 20. Qed.
Print Assumptions C05_refuted.

(* A key whose first ':' is at position 256 or later is not found by flush_prefix with the
   key's own prefix (the length is kept in a uint8_t). *)
Definition long_key := repeat 97%N 257 ++ [58; 49]%N.
Theorem C05_long_prefix_refuted : exists k p v f c,
  has_prefix k p /\
  let s := after cls1 2 true init (set_cmd k v 0) in
  ask cls1 2 true s (FlushPrefix p 0) = ORes PENOENT /\
  ask cls1 2 true (after cls1 2 true s [FlushPrefix p 0]) (Get k) = OVal v f c.
Proof.
  exists long_key, (Some (repeat 97%N 257)), [49]%N, 7%N, 1%N. split.
  - exists 97%N, (repeat 97%N 256), [49]%N. split; [reflexivity|]. split; [reflexivity|].
    intro I. apply repeat_spec in I. discriminate.
  - vm_compute. auto.
Qed.
Print Assumptions C05_long_prefix_refuted.

(* C38 *)
Example C38_case : let s := after cls1 2 true init ex2 in
  reached cls1 2 true s /\ held s = [(2, true); (1, true); (0, false)]%nat /\
  runs_ok cls1 2 true s [Store 1 KSet free_mem; Tick 4; Alloc [99]%N 0 0 [51]%N 0 full_mem] /\
  In (0%nat, false) (held (after cls1 2 true s [Store 1 KSet free_mem; Tick 4; Alloc [99]%N 0 0 [51]%N 0 full_mem])).
Proof.
  cbn zeta. split; [exists ex2; split; [ok_run|reflexivity]|]. split; [reflexivity|]. split; [ok_run|]. vm_compute. auto 10.
Qed.

(* Tail repair (item_base.c 877-897) frees an item a client still refers to, when 201 items
   have been held for three hours: the client then reads freed memory. *)
Fixpoint hold (n : nat) : list op :=
  match n with
  | O => []
  | S n' => hold n' ++ [Alloc [98; N.of_nat n]%N 0 0 [49]%N 0 free_mem; Store 0 KSet free_mem]
  end.
Definition ex38 := hold 201 ++ [Tick 10801; Alloc a_key 0 0 [50]%N 0 full_mem].
Definition dangling (s : state) : bool :=
  existsb (fun h => match items s (fst h) with None => true | Some _ => false end) (held s).
Lemma dangling_ex s : dangling s = true -> exists i b, In (i, b) (held s) /\ items s i = None.
Proof.
  intro E. apply existsb_exists in E as ([i b] & I & E). exists i, b. split; [exact I|]. cbn in E.
  destruct (items s i); [discriminate|reflexivity].
Qed.
Theorem C38_refuted : exists ops i b, In (i, b) (held (after cls1 2 true init ops)) /\ items (after cls1 2 true init ops) i = None.
Proof. exists ex38. apply dangling_ex. vm_compute. reflexivity. Qed.
Print Assumptions C38_refuted.

(* incr on a collection takes a reference that is never given back (items.c 698-706): the
   item stays allocated after the collection is deleted. *)
Theorem C38_leak_refuted : exists ops,
  runs_ok cls1 2 true init ops /\
  let s := after cls1 2 true init ops in
  held s = [] /\ table s = [] /\ items s 0%nat <> None.
Proof.
  exists [CollCreate a_key 0 0 free_mem; Arith a_key true false 1 0 0 0 [] free_mem; Delete a_key 0].
  split; [ok_run|]. vm_compute. repeat split; discriminate.
Qed.
Print Assumptions C38_leak_refuted.

(* C39: two stored items, the older one is evicted *)
Definition ex39 := set_cmd a_key [49]%N 0 ++ [Tick 1] ++ set_cmd b_key [50]%N 0.
Example C39_case : let s := after cls1 2 true init ex39 in
  reached cls1 2 true s /\ lru s false 1 = [1; 0]%nat /\
  runs_ok cls1 2 true s [Alloc [99]%N 0 0 [51]%N 0 full_mem] /\
  evicted (after cls1 2 true s [Alloc [99]%N 0 0 [51]%N 0 full_mem]) = [(a_key, 0%nat)].
Proof.
  cbn zeta. split; [exists ex39; split; [ok_run|reflexivity]|]. split; [reflexivity|]. split; [ok_run|]. vm_compute. reflexivity.
Qed.
