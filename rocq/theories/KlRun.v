From Coq Require Import String Ascii.
From Verif Require Import Base UtilModel UtilSpec UtilProofs ArgTypes ArgSpec ArgModel.
From Verif Require KvModel KvSpec KvRefine KvFlush KvStep KvRun KvStill AtModel AtSpec AtProofs2.
From Verif Require Import KlModel KlSpec KlProofs.
From Coq Require Import List ZArith NArith Lia Bool.
Import KvSpec.
Local Open Scope nat_scope.
Local Open Scope list_scope.

Lemma short_short k : short_prefix k -> KvRefine.short k.
Proof.
  intro H. unfold KvRefine.short. destruct (KvModel.index_of 58 (tl k) 1) as [i|] eqn:E; [|exact I].
  assert (B : forall l n j, KvModel.index_of 58 l n = Some j -> j < n + List.length l).
  { induction l as [|x l IH]; intros n j; cbn; [discriminate|]. destruct (N.eqb _ _); [intro X; injection X as <-; lia|]. intro X. apply IH in X. lia. }
  apply B in E as L. specialize (H (firstn i k)). rewrite firstn_length in H.
  assert (i <= List.length k) by (destruct k; cbn in *; lia).
  rewrite Nat.min_l in H by lia. apply H. apply KvFlush.fpfx_has. unfold KvFlush.fpfx. destruct k as [|c r]; [discriminate|]. cbn [tl] in E. rewrite E. reflexivity.
Qed.

Lemma pair_inj {A B} (a a' : A) (b b' : B) : (a, b) = (a', b') -> a = a' /\ b = b'.
Proof. intro H. inversion H. now split. Qed.
Lemma trip_inj {A B C} (a a' : A) (b b' : B) (c c' : C) : (a, b, c) = (a', b', c') -> a = a' /\ b = b' /\ c = c'.
Proof. intro H. inversion H. now repeat split. Qed.
Lemma other_not_ours toks : parse toks = Other -> ~ ours toks.
Proof.
  assert (UP : forall kind cas, update_cmd toks kind cas <> Other).
  { intros kind cas H. unfold update_cmd in H. cbv zeta in H.
    repeat match type of H with (if ?c then _ else _) = _ => destruct c | match ?c with _ => _ end = _ => destruct c end; discriminate H. }
  assert (AR : forall incr, arith_cmd toks incr <> Other).
  { intros incr H. unfold arith_cmd in H. cbv zeta in H.
    repeat match type of H with (if ?c then _ else _) = _ => destruct c | match ?c with _ => _ end = _ => destruct c end; discriminate H. }
  assert (FL : forall all, flush_cmd toks all <> Other).
  { intros all H. unfold flush_cmd in H. cbv zeta in H.
    repeat match type of H with (if ?c then _ else _) = _ => destruct c | match ?c with _ => _ end = _ => destruct c end; discriminate H. }
  intros H (w & rest & E & C). cbv zeta in C. assert (W : word toks 0 = w) by (rewrite E; reflexivity). assert (L : List.length toks = S (List.length rest)) by (rewrite E; reflexivity).
  destruct C as [[[c G] C]|[[[kd G] C]|[[G C]|[[[i G] C]|[[G C]|[[G C]|[[G C]|[G C]]]]]]]].
  - rewrite (get_len toks w c G W) in H by lia. unfold get_cmd in H. destruct (existsb _ _); discriminate.
  - rewrite (store_len toks w kd G W) in H by lia. exact (UP _ _ H).
  - rewrite (cas_len toks) in H; [exact (UP _ _ H)|congruence|lia].
  - rewrite (arith_len toks w i G W) in H by lia. exact (AR _ H).
  - rewrite (delete_len toks) in H; [|congruence|lia]. unfold delete_cmd in H. cbv zeta in H.
    match type of H with (if ?c then _ else _) = _ => destruct c end; [discriminate|]. destruct (too_long _); discriminate.
  - rewrite (flush_len toks) in H; [exact (FL _ H)|congruence|lia].
  - rewrite (prefix_cmd_len toks) in H; [exact (FL _ H)|congruence|lia].
  - rewrite (touch_len toks) in H; [|congruence|lia]. unfold touch_cmd in H. destruct (too_long _); [discriminate|]. cbv zeta in H. destruct (safe_strtoll _); discriminate.
Qed.
Section S.
Variable lru_class : bool -> bytes -> bytes -> nat.
Variable maxcls : nat.
Variable started : Z.
Hypothesis started_ok : (0 <= started)%Z.
Notation step := (KvModel.step lru_class maxcls false).
Notation R := (KvStep.R lru_class maxcls).
Notation exec := (KlModel.exec lru_class maxcls false started).
Notation answers := (KlSpec.answers started).

Lemma step_one s st o s' x : R s st -> step s o = (s', x) -> KvStep.ok_op s o -> exists st', effect st o x st' /\ R s' st'.
Proof.
  intros H E OK. destruct (KvStill.step_still _ _ _ _ _ _ E) as [RP EV].
  destruct (KvRun.step_refines _ _ _ _ _ _ _ _ H OK E) as (st' & [_ F] & H'); [rewrite RP; apply (KvStep.R_rep _ _ _ _ H)|].
  exists st'. split; [|exact H']. rewrite EV in F. destruct st. exact F.
Qed.
Definition in_time (s : KvModel.state) : Prop := (1 <= KvModel.now s < 2 ^ 31 - 2592000)%Z.
Lemma when_expiry s st e : R s st -> in_time s -> when started s e = expiry started st e.
Proof.
  intros H T. unfold when, expiry. rewrite (KvStep.R_now _ _ _ _ H). f_equal. apply AtProofs2.realtime_due. split; [exact T|exact started_ok].
Qed.
Lemma same_refl st : same_cache st st.
Proof. repeat split. Qed.
Lemma same_look st st' k : same_cache st st' -> slook st' k = slook st k.
Proof. intros (A & _ & _ & D). unfold slook. rewrite A, D. reflexivity. Qed.

(* ---- get ---- *)
Definition found (cas : bool) (st : cache) (k : bytes) : bytes :=
  match slook st k with Some e => if e_coll e then [] else value_line cas k e | None => [] end.
Lemma value_text_line cas k e : value_text cas k (e_val e) (e_flags e) (e_cas e) = value_line cas k e.
Proof.
  unfold value_text, value_line, crlf, line_end. f_equal. f_equal.
  set (a := dec_text (e_flags e)). set (b := dec_text (N.of_nat (List.length (e_val e)))). destruct cas.
  - replace (32%N :: a ++ 32%N :: b ++ [13%N; 10%N]) with ((32%N :: a ++ 32%N :: b) ++ [13%N; 10%N]) by (cbn; rewrite <- app_assoc; reflexivity).
    rewrite firstn_app, app_length. cbn [List.length].
    replace (S (List.length (a ++ 32%N :: b)) + 2 - 2 - S (List.length (a ++ 32%N :: b))) with 0 by lia.
    rewrite firstn_all2 by (cbn [List.length]; lia). cbn [firstn app]. rewrite app_nil_r. do 6 (cbn [app]; try rewrite <- !app_assoc). reflexivity.
  - do 6 (cbn [app]; try rewrite <- !app_assoc). reflexivity.
Qed.
Lemma get_all_ok cas keys : forall s st s' n t, R s st -> get_all lru_class maxcls false s cas keys = (s', n, t) ->
  t = List.concat (map (found cas st) keys) /\ exists st', R s' st' /\ st' = w_pend st (repeat None n ++ spend st).
Proof.
  induction keys as [|k keys IH]; intros s st s' n t H E; cbn [get_all] in E.
  - apply trip_inj in E; destruct E as (<- & <- & <-). split; [reflexivity|]. exists st. split; [exact H|]. destruct st; reflexivity.
  - destruct (step s (KvModel.Get k)) as [s1 x] eqn:E1.
    destruct (get_all lru_class maxcls false s1 cas keys) as [[s2 m] u] eqn:E2.
    destruct (step_one s st _ s1 x H E1 I) as (st1 & F & H1). destruct (IH s1 st1 s2 m u H1 E2) as [-> (st2 & H2 & X2)].
    cbn [effect] in F. cbn [map List.concat]. unfold found at 1.
    assert (G : forall p, map (found cas (w_pend st p)) keys = map (found cas st) keys) by (intro p; apply map_ext; reflexivity).
    destruct (slook st k) as [e|].
    + destruct (e_coll e).
      * destruct F as [-> ->]. apply trip_inj in E; destruct E as (<- & <- & <-). split; [reflexivity|]. eauto.
      * destruct F as [-> ->]. apply trip_inj in E; destruct E as (<- & <- & <-). rewrite value_text_line, G. split; [reflexivity|].
        exists st2. split; [exact H2|]. rewrite X2. unfold w_pend. cbn [spend smap scas snow].
        f_equal. change (repeat None (S m)) with (@None req :: repeat None m). cbn [app].
        clear. induction m as [|m IH]; [reflexivity|]. cbn [repeat app]. f_equal. exact IH.
    + destruct F as [-> ->]. apply trip_inj in E; destruct E as (<- & <- & <-). split; [reflexivity|]. eauto.
Qed.
Lemma release_all_ok n : forall s st, R s st -> exists st', R (release_all lru_class maxcls false s n) st' /\ st' = w_pend st (skipn n (spend st)).
Proof.
  induction n as [|n IH]; intros s st H; cbn [release_all].
  - exists st. split; [exact H|]. destruct st; reflexivity.
  - destruct (step s (KvModel.Release 0)) as [s1 x] eqn:E. destruct (step_one s st _ s1 x H E I) as (st1 & F & H1). cbn [effect] in F. destruct F as [_ ->].
    destruct (IH _ _ H1) as (st2 & H2 & X). exists st2. split; [exact H2|]. rewrite X. unfold w_pend. cbn [spend smap scas snow]. f_equal.
    destruct (spend st) as [|p l]; [destruct n; reflexivity|reflexivity].
Qed.

(* ---- the requests ---- *)
Lemma tail_is data n : Z.of_nat (List.length data) = (n + 2)%Z -> (0 <= n)%Z ->
  if tail_crlf data then data = firstn (Z.to_nat n) data ++ line_end else forall v, data <> v ++ line_end.
Proof.
  intros L P. unfold tail_crlf. replace (List.length data - 2) with (Z.to_nat n) by lia.
  destruct (beqb_spec (skipn (Z.to_nat n) data) crlf) as [E|E].
  - rewrite <- (firstn_skipn (Z.to_nat n) data) at 1. rewrite E. reflexivity.
  - intros v D. apply E. rewrite D in *. rewrite app_length in L. cbn [List.length line_end] in L. 
    rewrite skipn_app. replace (Z.to_nat n) with (List.length v) by lia. rewrite skipn_all, Nat.sub_diag. reflexivity.
Qed.
Lemma exec_answers s st r data o1 o2 tail s' t : R s st -> in_time s -> plain r data ->
  (forall kind k f e n c, r = RStore kind k f e n c -> (0 <= n)%Z /\ (kind <> KvModel.KCas -> c = 0%N)) ->
  exec s r data o1 o2 tail = (s', t) -> exists st', answers st r data tail t st' /\ R s' st' /\ KvModel.now s' = KvModel.now s.
Proof.
  intros H T P C E.
  cut (exists st', answers st r data tail t st' /\ R s' st' /\ snow st' = snow st).
  { intros (st' & A & B & D). exists st'. split; [exact A|]. split; [exact B|]. rewrite <- (KvStep.R_now _ _ _ _ B), <- (KvStep.R_now _ _ _ _ H). exact D. }
  destruct r as [cas keys|kind k f e n c|incr k d ini|k|k e|d|p d]; cbn [plain] in P; try contradiction; cbn [KlModel.exec] in E.
  - destruct (get_all lru_class maxcls false s cas keys) as [[s1 m] u] eqn:G. apply pair_inj in E; destruct E as [<- <-].
    destruct (get_all_ok _ _ _ _ _ _ _ H G) as [-> (st1 & H1 & X1)]. destruct (release_all_ok m _ _ H1) as (st2 & H2 & X2).
    exists st2. split; [|split; [exact H2|rewrite X2, X1; reflexivity]]. cbn [KlSpec.answers]. split; [|reflexivity].
    rewrite X2, X1. repeat split. unfold w_pend. cbn [spend]. 
    assert (Q : forall l : list (option req), skipn m (repeat None m ++ l) = l) by (clear; induction m; [reflexivity|exact IHm]). apply Q.
  - destruct P as [L SH]. destruct (C _ _ _ _ _ _ eq_refl) as [N0 C0]. rewrite (when_expiry s st e H T) in E.
    destruct (step s (KvModel.Alloc k f (expiry started st e) (firstn (Z.to_nat n) data) c o1)) as [s1 x] eqn:E1.
    destruct (step_one s st _ s1 x H E1 (short_short k SH)) as (st1 & F & H1). cbn [effect] in F.
    destruct F as [[-> ->]|[-> ->]].
    + pose proof (tail_is data n L N0) as TD. destruct (tail_crlf data).
      * destruct (step s1 (KvModel.Store 0 kind o2)) as [s2 y] eqn:E2. destruct (step_one s1 _ _ s2 y H1 E2 I) as (st2 & F & H2).
        destruct (step s2 (KvModel.Release 0)) as [s3 z] eqn:E3. destruct (step_one s2 _ _ s3 z H2 E3 I) as (st3 & G & H3). cbn [effect] in G. destruct G as [_ G].
        cbn [fst] in E. apply pair_inj in E; destruct E as [<- <-]. exists st3. cbn [effect spend nth_error w_pend KvModel.set_nth] in F.
        set (st0 := w_pend (w_pend st (Some (mkReq k f (expiry started st e) (firstn (Z.to_nat n) data) c) :: spend st)) (None :: spend st)) in *.
        set (v := firstn (Z.to_nat n) data) in *.
        assert (SAME : st2 = st0 -> same_cache st st3) by (intros ->; rewrite G; repeat split).
        assert (NEW : forall w g x c1, stores st0 k w g x false c1 st2 -> new_entry st k w g x st3).
        { intros w g x c1 [LT ->]. exists c1. split; [exact LT|]. rewrite G. repeat split. }
        assert (NOW : snow st2 = snow st -> snow st3 = snow st) by (intros Q; rewrite G; exact Q).
        assert (NOW1 : forall w g x c1, stores st0 k w g x false c1 st2 -> snow st3 = snow st) by (intros w g x c1 [_ ->]; apply NOW; reflexivity).
        assert (NOW2 : st2 = st0 -> snow st3 = snow st) by (intros ->; apply NOW; reflexivity).
        assert (LK : slook st0 k = slook st k) by reflexivity. unfold store_spec in F. cbn [r_key r_val r_flags r_exp r_cas] in F. rewrite LK in F.
        cut (match slook st k with
        | Some x =>
            if e_coll x then store_text y = txt "TYPE_MISMATCH" /\ same_cache st st3
            else match kind with
                 | KvModel.KSet | KvModel.KReplace => store_text y = txt "STORED" /\ new_entry st k v f (expiry started st e) st3
                 | KvModel.KAdd => store_text y = txt "NOT_STORED" /\ same_cache st st3
                 | KvModel.KCas => (c = e_cas x /\ store_text y = txt "STORED" /\ new_entry st k v f (expiry started st e) st3) \/
                                   (c <> e_cas x /\ store_text y = txt "EXISTS" /\ same_cache st st3)
                 | KvModel.KAppend => (store_text y = txt "NOT_STORED" /\ same_cache st st3) (* memory *) \/
                                      (store_text y = txt "STORED" /\ new_entry st k (e_val x ++ v) (e_flags x) (e_exp x) st3)
                 | KvModel.KPrepend => (store_text y = txt "NOT_STORED" /\ same_cache st st3) \/
                                       (store_text y = txt "STORED" /\ new_entry st k (v ++ e_val x) (e_flags x) (e_exp x) st3)
                 end
        | None =>
            match kind with
            | KvModel.KSet | KvModel.KAdd =>
                (store_text y = txt "STORED" /\ new_entry st k v f (expiry started st e) st3) \/
                (store_text y = txt "CLIENT_ERROR invalid prefix name" /\ bad_prefix_name k /\ same_cache st st3)
            | KvModel.KCas => store_text y = txt "NOT_FOUND" /\ same_cache st st3
            | _ => store_text y = txt "NOT_STORED" /\ same_cache st st3
            end
        end /\ snow st3 = snow st).
        { intros [A B]. split; [|split; [exact H3|exact B]]. cbn [KlSpec.answers]. right. right. exists v. split; [exact TD|exact A]. }
        clear E1 E2 E3 H1 H2 H3.
        destruct (slook st k) as [x|].
        -- destruct (e_coll x); [destruct F as [-> F2]; auto|].
           destruct kind.
           all: try (destruct F as (c1 & -> & F); now eauto 6).
           all: try (destruct F as [-> F2]; now auto).
           all: try (rewrite (C0 ltac:(discriminate)) in F; cbn [N.eqb orb] in F; destruct F as [[-> F]|(c1 & -> & F)];
             [now auto|split; [right; split; [reflexivity|now eauto]|now eauto]]).
           destruct (N.eqb_spec c (e_cas x)) as [EQ|NE].
           ++ destruct F as (c1 & -> & F). split; [|eauto]. left. eauto 6.
           ++ destruct F as [-> F]. auto 8.
        -- destruct kind; try (destruct F as [-> F]; now auto 6).
           ++ destruct F as [(c1 & -> & F)|(-> & B & F)]; [|auto 8]. split; [|eauto]. left. eauto 6.
           ++ destruct F as [(c1 & -> & F)|(-> & B & F)]; [|auto 8]. split; [|eauto]. left. eauto 6.
      * destruct (step s1 (KvModel.Release 0)) as [s2 y] eqn:E2. destruct (step_one s1 _ _ s2 y H1 E2 I) as (st2 & F & H2). cbn [effect] in F. destruct F as [_ ->].
        apply pair_inj in E; destruct E as [<- <-]. eexists. split; [|split; [exact H2|reflexivity]]. cbn [KlSpec.answers]. right. left. split; [reflexivity|]. split; [exact TD|]. repeat split.
    + destruct kind; try (injection E as <- <-; exists st; split; [left; split; [reflexivity|apply same_refl]|split; [exact H1|reflexivity]]).
      destruct (step s1 (KvModel.Delete k 0)) as [s2 y] eqn:E2. destruct (step_one s1 _ _ s2 y H1 E2 I) as (st2 & F & H2). cbn [effect] in F.
      apply pair_inj in E; destruct E as [<- <-]. exists st2. cbn [KlSpec.answers]. destruct (slook st k) as [x|].
      * cbn [N.eqb orb] in F. destruct F as [_ ->]. split; [left; split; [reflexivity|repeat split]|split; [exact H2|reflexivity]].
      * destruct F as [_ ->]. split; [left; split; [reflexivity|apply same_refl]|split; [exact H2|reflexivity]].
  - destruct (match ini with Some (f, e, i) => (true, f, e, i) | None => (false, 0%N, 0%Z, 0%N) end) as [[[create f] e] i] eqn:EI.
    destruct (step s (KvModel.Arith k incr create d i f (when started s e) tail o1)) as [s1 x] eqn:E1. rewrite (when_expiry s st e H T) in E1.
    destruct (step_one s st _ s1 x H E1 (short_short k P)) as (st1 & F & H1). apply pair_inj in E; destruct E as [<- <-]. exists st1. cbn [effect] in F. cbn [KlSpec.answers].
    assert (NEW : forall w g z c1, stores st k w g z false c1 st1 -> new_entry st k w g z st1 /\ snow st1 = snow st).
    { intros w g z c1 [LT ->]. split; [|reflexivity]. exists c1. split; [exact LT|]. repeat split. }
    destruct (slook st k) as [y|].
    + destruct (e_coll y); [destruct F as [-> ->]; auto using same_refl|].
      destruct F as [(-> & B & ->)|(v & RV & [[-> ->]|(c1 & -> & F)])].
      * split; [right; left; auto using same_refl|auto].
      * split; [left; auto using same_refl|auto].
      * apply NEW in F. destruct F as [F1 F2]. split; [right; right|auto]. exists v. auto.
    + destruct ini as [[[f' e'] i']|]; injection EI as <- <- <- <-.
      * destruct F as [[-> ->]|[(-> & B & ->)|(c1 & -> & F)]].
        -- split; [left; auto using same_refl|auto].
        -- split; [right; left; auto using same_refl|auto].
        -- apply NEW in F. destruct F as [F1 F2]. split; [right; right; auto|auto].
      * destruct F as [-> ->]. auto using same_refl.
  - destruct (step s (KvModel.Delete k 0)) as [s1 x] eqn:E1. destruct (step_one s st _ s1 x H E1 I) as (st1 & F & H1). apply pair_inj in E; destruct E as [<- <-]. exists st1. cbn [effect] in F. cbn [KlSpec.answers].
    destruct (slook st k) as [y|].
    + cbn [N.eqb orb] in F. destruct F as [-> ->]. split; [split; [reflexivity|repeat split]|auto].
    + destruct F as [-> ->]. auto using same_refl.
  - destruct (step s (KvModel.SetExp k (when started s e))) as [s1 x] eqn:E1. rewrite (when_expiry s st e H T) in E1.
    destruct (step_one s st _ s1 x H E1 I) as (st1 & F & H1). apply pair_inj in E; destruct E as [<- <-]. exists st1. cbn [effect] in F. cbn [KlSpec.answers].
    assert (ST : Z.eqb (expiry started st e) KvModel.sticky_time = Z.eqb e (-1)).
    { pose proof (AtProofs2.due_sticky {| AtModel.cur := snow st; AtModel.started := started |} e) as D. unfold expiry, KvModel.sticky_time.
      assert (CO : AtSpec.clock_ok {| AtModel.cur := snow st; AtModel.started := started |}) by (split; cbn; [rewrite (KvStep.R_now _ _ _ _ H); exact T|exact started_ok]).
      specialize (D CO). destruct (Z.eqb_spec e (-1)) as [Q|Q].
      - rewrite (proj2 D Q). reflexivity.
      - apply Z.eqb_neq. intro Z1. apply Q, D. lia. }
    destruct (slook st k) as [y|].
    + rewrite ST in F. change KvModel.sticky_time with 4294967295%Z in F. destruct (Bool.eqb _ _).
      * destruct F as [-> ->]. split; [split; [reflexivity|repeat split]|auto].
      * destruct F as [-> ->]. auto using same_refl.
    + destruct F as [-> ->]. auto using same_refl.
Qed.

(* ---- the dialogue ---- *)
Lemma says_store toks r q : says toks r q \/ ignores toks r q ->
  forall kind k f e n c, r = RStore kind k f e n c -> (0 <= n)%Z /\ (kind <> KvModel.KCas -> c = 0%N).
Proof.
  assert (A : forall toks r q, says toks r q -> forall kind k f e n c, r = RStore kind k f e n c -> (0 <= n)%Z /\ (kind <> KvModel.KCas -> c = 0%N)).
  { clear. intros toks r q S kind k f e n c ->. inversion S; subst; unfold size_ok in *; split; try lia; congruence. }
  intros [S|S]; [eapply A; eassumption|]. intros kind k f e n c ->. inversion S; subst. eapply A; [eassumption|reflexivity].
Qed.
Lemma refused_text toks t q : parse toks = Refused t q -> error_reply t /\ (q = true -> last toks [] = txt "noreply").
Proof.
  assert (N : forall l, noreply l = true -> last l [] = txt "noreply") by (intros l; unfold noreply; apply beqb_eq).
  assert (ER : forall u, error_reply (txt "CLIENT_ERROR " ++ u)) by (intro u; exists u; reflexivity).
  assert (E1 : error_reply bad_line) by (exists (txt "bad command line format"); reflexivity).
  assert (RI : forall a b a' b', Refused a b = Refused a' b' -> a = a' /\ b = b') by (intros ? ? ? ? X; inversion X; auto).
  unfold parse. intro H.
  assert (UP : forall kind cas, update_cmd toks kind cas = Refused t q -> error_reply t /\ (q = true -> last toks [] = txt "noreply")).
  { clear H. intros kind cas H. unfold update_cmd in H. cbv zeta in H.
    repeat match type of H with
    | (if ?c then _ else _) = _ => destruct c
    | match ?c with _ => _ end = _ => destruct c
    end; try discriminate H; apply RI in H; destruct H as [<- <-]; auto. }
  assert (AR : forall incr, arith_cmd toks incr = Refused t q -> error_reply t /\ (q = true -> last toks [] = txt "noreply")).
  { clear H UP. intros incr H. unfold arith_cmd in H. cbv zeta in H.
    repeat match type of H with
    | (if ?c then _ else _) = _ => destruct c
    | match ?c with _ => _ end = _ => destruct c
    end; try discriminate H; apply RI in H; destruct H as [<- <-]; auto.
    split; [exists (txt "invalid numeric delta argument"); reflexivity|auto]. }
  assert (FL : forall all, flush_cmd toks all = Refused t q -> error_reply t /\ (q = true -> last toks [] = txt "noreply")).
  { clear H UP AR. intros all H. unfold flush_cmd in H. cbv zeta in H.
    match type of H with (if ?c then _ else _) = _ => destruct c end.
    { apply RI in H; destruct H as [<- <-]. split; [exists (txt "too long prefix name"); reflexivity|auto]. }
    match type of H with (if ?c then _ else _) = _ => destruct c end; [|discriminate].
    destruct (safe_strtoll _) as [d|]; [|apply RI in H; destruct H as [<- <-]; auto].
    destruct (Z.ltb d 0); [apply RI in H; destruct H as [<- <-]; auto|discriminate]. }
  assert (GE : forall cas, get_cmd toks cas = Refused t q -> error_reply t /\ (q = true -> last toks [] = txt "noreply")).
  { clear H UP AR FL. intros cas H. unfold get_cmd in H. destruct (existsb _ _); [|discriminate]. apply RI in H; destruct H as [<- <-]. split; [exact E1|discriminate]. }
  repeat match type of H with
  | (if ?c then get_cmd _ _ else _) = _ => destruct c; [exact (GE _ H)|]
  | (if ?c then update_cmd _ _ _ else _) = _ => destruct c; [exact (UP _ _ H)|]
  | match ?c with Some _ => _ | None => _ end = _ => destruct c; [exact (UP _ _ H)|]
  | (if ?c then arith_cmd _ _ else _) = _ => destruct c; [exact (AR _ H)|]
  | (if ?c then flush_cmd _ _ else _) = _ => destruct c; [exact (FL _ H)|]
  | (if ?c then delete_cmd _ else _) = _ => destruct c; [|]
  | (if ?c then touch_cmd _ else _) = _ => destruct c; [|discriminate]
  end.
  - unfold delete_cmd in H. cbv zeta in H.
    match type of H with (if ?c then _ else _) = _ => destruct c end.
    { apply RI in H; destruct H as [<- <-]. split; [exists (txt "bad command line format.  Usage: delete <key> [noreply]"); reflexivity|].
      intro Q. apply andb_prop in Q. apply N, Q. }
    destruct (too_long _); [|discriminate]. apply RI in H; destruct H as [<- <-]. split; [exact E1|]. intro Q. apply andb_prop in Q. apply N, Q.
  - unfold touch_cmd in H. destruct (too_long _); [apply RI in H; destruct H as [<- <-]; split; [exact E1|discriminate]|]. cbv zeta in H.
    destruct (safe_strtoll _); [discriminate|]. apply RI in H; destruct H as [<- <-]. split; [exists (txt "bad value"); reflexivity|auto].
Qed.
Lemma unparsed toks r b : (forall r' q, parse toks <> Ask r' q) -> ~ says toks r b.
Proof.
  intros H S. destruct (list_eq_dec (list_eq_dec N.eq_dec) toks [txt "flush_prefix"; txt "noreply"]) as [->|D].
  - apply (H _ _ (ignores_parsed _ _ _ i_noreply)).
  - apply (H _ _ (says_parsed _ _ _ S D)).
Qed.
Lemma serve_all_ok l : forall s st s' os, R s st -> Forall plain_event l -> (1 <= KvModel.now s)%Z -> (KvModel.now s + waits l < 2 ^ 31 - 2592000)%Z ->
  serve_all lru_class maxcls false started s l = (s', os) -> exists st', dialogue started st l os st' /\ R s' st'.
Proof.
  assert (W0 : forall m, (0 <= waits m)%Z) by (intro m; induction m as [|[] m IH]; cbn [waits]; lia).
  induction l as [|e l IH]; intros s st s' os H P T1 T2 E; cbn [serve_all] in E.
  - apply pair_inj in E; destruct E as [<- <-]. exists st. split; [constructor|exact H].
  - destruct (serve lru_class maxcls false started s e) as [s1 o] eqn:E1. destruct (serve_all lru_class maxcls false started s1 l) as [s2 xs] eqn:E2. apply pair_inj in E; destruct E as [<- <-].
    inversion P as [|? ? P1 P2]; subst.
    assert (ONE : exists st1, exchange started st e o st1 /\ R s1 st1 /\ (1 <= KvModel.now s1)%Z /\ (KvModel.now s1 + waits l < 2 ^ 31 - 2592000)%Z).
    { destruct e as [d|toks data o1 o2 tail]; cbn [serve waits] in *; pose proof (W0 l) as W.
      - destruct (step s (KvModel.Tick d)) as [s3 x] eqn:E3. apply pair_inj in E1; destruct E1 as [<- <-].
        assert (OK : KvStep.ok_op s (KvModel.Tick d)) by (cbn; unfold KvModel.sticky_time; lia).
        destruct (step_one s st _ s3 x H E3 OK) as (st1 & F & H1). cbn [effect] in F. destruct F as [_ F].
        assert (Q : KvModel.now s3 = (KvModel.now s + Z.of_nat d)%Z) by (rewrite <- (KvStep.R_now _ _ _ _ H1), <- (KvStep.R_now _ _ _ _ H), F; reflexivity).
        exists st1. split; [|split; [exact H1|cbn [fst]; lia]]. rewrite F. constructor; reflexivity.
      - destruct (parse toks) as [r q|t q|] eqn:PA.
        + destruct (exec s r data o1 o2 tail) as [s3 t] eqn:EX. apply pair_inj in E1; destruct E1 as [<- <-].
          pose proof (parsed_says _ _ _ PA) as SA.
          assert (SI : says toks r q \/ ignores toks r q) by tauto.
          destruct (exec_answers _ _ _ _ _ _ _ _ _ H ltac:(unfold in_time; lia) (P1 _ _ SI) (says_store _ _ _ SI) EX) as (st1 & AN & H1 & NO).
          exists st1. split; [|split; [exact H1|lia]]. destruct SI as [S|S]; [eapply x_request|eapply x_ignored]; try eassumption; reflexivity.
        + apply pair_inj in E1; destruct E1 as [<- <-]. destruct (refused_text _ _ _ PA) as [A B]. exists st. split; [|split; [exact H|lia]].
          eapply x_error; [|exact A|exact B|reflexivity|apply same_refl]. intros r b. apply unparsed. rewrite PA. discriminate.
        + apply pair_inj in E1; destruct E1 as [<- <-]. exists st. split; [|split; [exact H|lia]]. apply x_other; [exact (other_not_ours _ PA)|]. intros r b. apply unparsed. rewrite PA. discriminate. }
    destruct ONE as (st1 & X & H1 & T3 & T4). destruct (IH _ _ _ _ H1 P2 T3 T4 E2) as (st2 & D & H2). exists st2. split; [econstructor; eassumption|exact H2].
Qed.
End S.
