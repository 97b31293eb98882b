(* Refinement, third part: time, allocation, arithmetic, collections, flush, whole runs. *)
From Coq Require Import Permutation.
From Verif Require Import Base UtilModel UtilSpec UtilProofs KvModel KvSpec KvProofs KvRefine KvFlush KvStep KvStep2.
Open Scope Z_scope.
Set Default Proof Using "Type".

Lemma reads_as_char s v : safe_strtoull s = Some v <-> reads_as s v.
Proof. apply safe_strtoull_char. Qed.

Lemma arith_eq (incr : bool) (v d : N) : (if incr then ((v + d) mod 2 ^ 64)%N else if (v <? d)%N then 0%N else (v - d)%N) = arith incr v d.
Proof. unfold arith. destruct incr; [reflexivity|]. destruct (N.ltb_spec v d); lia. Qed.

Section S.
Variable lru_class : bool -> bytes -> bytes -> nat.
Variable maxcls : nat.
Notation unlink := (unlink lru_class maxcls).
Notation link := (link lru_class maxcls).
Notation replace := (replace lru_class maxcls).
Notation update := (update lru_class maxcls).
Notation do_get := (do_get lru_class maxcls).
Notation release := (release lru_class maxcls).
Notation Core := (Core lru_class maxcls).
Notation Sim := (Sim lru_class maxcls).
Notation R := (R lru_class maxcls).

Lemma later_valid s t it : oldest s < now s -> (forall q, pold s q < now s) -> now s <= t ->
  notflushed (w_now s t) it = notflushed s it.
Proof.
  intros A B D. unfold notflushed, flushed_by. cbn [w_now oldest now pold].
  pose proof (B (pfx (ikey it))).
  replace (oldest s <=? t) with (oldest s <=? now s) by lia.
  replace (pold s (pfx (ikey it)) <=? t) with (pold s (pfx (ikey it)) <=? now s) by lia. reflexivity.
Qed.

Lemma step_tick s st d : R s st -> now s + Z.of_nat d < sticky_time ->
  exists st', sstep st (Tick d) ONone [] st' /\ R (w_now (w_evicted s []) (now s + Z.of_nat d)) st'.
Proof.
  intros H Hb. exists (mkCache (smap st) (spend st) (scas st) (snow st + Z.of_nat d)).
  split; [split; [apply ev_ok_nil|]; cbn; auto|].
  pose proof H as H0. destruct H0. set (t := now s + Z.of_nat d).
  split; cbn [w_now w_evicted now oldest pold casid snow scas spend repaired held lost items]; try assumption; try lia.
  - apply (core_frame lru_class maxcls s); try reflexivity; cbn; try assumption; lia.
  - destruct R_ref. split; assumption.
  - intro k. specialize (R_view k). unfold eview in *. cbn [w_now w_evicted table items] in *.
    unfold slook in *. cbn [smap snow].
    destruct (tfind k (table s)) as [i|] eqn:T.
    + destruct (items s i) as [it|] eqn:Hi.
      * destruct (notflushed s it) eqn:NF.
        -- rewrite (alive_valid s it NF) in R_view.
           assert (NF' : notflushed (w_now (w_evicted s []) t) it = true)
             by (rewrite later_valid; cbn; auto; lia).
           rewrite (alive_valid _ it NF'). cbn [w_now now]. unfold live, alive in *.
           destruct (smap st k) as [e|] eqn:M.
           ++ destruct ((e_exp e =? 0) || (snow st <? e_exp e)) eqn:Q1;
                destruct ((e_exp (entry_of it) =? 0) || (now s <? e_exp (entry_of it))) eqn:Q2; try discriminate.
              ** injection R_view as <-. rewrite R_now. reflexivity.
              ** replace ((e_exp (entry_of it) =? 0) || (t <? e_exp (entry_of it))) with false by lia.
                 replace ((e_exp e =? 0) || (snow st + Z.of_nat d <? e_exp e)) with false by lia. reflexivity.
           ++ destruct ((e_exp (entry_of it) =? 0) || (now s <? e_exp (entry_of it))) eqn:Q2; try discriminate.
              replace ((e_exp (entry_of it) =? 0) || (t <? e_exp (entry_of it))) with false by lia. reflexivity.
        -- rewrite isvalid_split, NF, andb_false_r in R_view.
           assert (NF' : notflushed (w_now (w_evicted s []) t) it = false)
             by (rewrite later_valid; cbn; auto; lia).
           rewrite isvalid_split, NF', andb_false_r. destruct (smap st k) as [e|]; [|reflexivity].
           unfold alive in *. destruct ((e_exp e =? 0) || (snow st <? e_exp e)) eqn:Q1; [discriminate|].
           replace ((e_exp e =? 0) || (snow st + Z.of_nat d <? e_exp e)) with false by lia. reflexivity.
      * destruct (smap st k) as [e|]; [|reflexivity].
        unfold alive in *. destruct ((e_exp e =? 0) || (snow st <? e_exp e)) eqn:Q1; [discriminate|].
        replace ((e_exp e =? 0) || (snow st + Z.of_nat d <? e_exp e)) with false by lia. reflexivity.
    + destruct (smap st k) as [e|]; [|reflexivity].
      unfold alive in *. destruct ((e_exp e =? 0) || (snow st <? e_exp e)) eqn:Q1; [discriminate|].
      replace ((e_exp e =? 0) || (snow st + Z.of_nat d <? e_exp e)) with false by lia. reflexivity.
Qed.

Lemma w_map_nil st : w_map st (without (smap st) (map fst (@nil (bytes * nat)))) = st_without st [].
Proof. reflexivity. Qed.

Lemma no_ev_key (ev : list (bytes * nat)) f k x : (forall j, ~ In (k, j) ev) -> f k = x -> gone_keys f ev k = x.
Proof.
  intros N F. unfold gone_keys. destruct (existsb (beqb k) (map fst ev)) eqn:Z; [|exact F].
  apply existsb_key in Z as [j Z]. exfalso. eapply N. exact Z.
Qed.
Lemma gone_none (ev : list (bytes * nat)) f k : f k = None -> gone_keys f ev k = None.
Proof. intros F. unfold gone_keys. destruct (existsb (beqb k) (map fst ev)); [reflexivity|exact F]. Qed.

Section Alloc.
Variable evict_on : bool.

Lemma step_alloc s st k f e v c orc s' x : R s st -> short k ->
  step lru_class maxcls evict_on s (Alloc k f e v c orc) = (s', x) -> repaired s' = false ->
  exists st', sstep st (Alloc k f e v c orc) x (map fst (evicted s')) st' /\ R s' st'.
Proof.
  intros H SK. unfold step. destruct (KvModel.alloc _ _ _ _ false _ _ _ _ _ orc) as [s1 a] eqn:AL. intros E RF.
  pose proof (sim_start _ _ s st (w_evicted s []) [] H ltac:(repeat split)) as S0.
  assert (RF1 : repaired s1 = false) by (destruct a; injection E as <- <-; exact RF).
  destruct (sim_alloc _ _ _ _ evict_on _ _ _ _ _ _ _ _ _ _ _ _ _ S0 (R_rep _ _ _ _ H) SK ltac:(eauto) AL RF1) as (E1 & E2 & E3 & _ & E4).
  assert (EV : ev_ok st (Alloc k f e v c orc) (map fst (evicted s1))).
  { split; [discriminate|]. intros k' Hin. apply in_map_iff in Hin as ([k2 j] & <- & Hin). split; [eauto|discriminate]. }
  destruct a as [i|]; injection E as <- <-.
  - destruct E4 as (N1 & N2 & N3 & S2). change (evicted (w_held s1 _)) with (evicted s1).
    exists (w_pend (st_without st (evicted s1)) (Some (mkReq k f e v c) :: spend st)).
    split; [split; [exact EV|]; cbn [effect]; left; auto|].
    assert (EH : held s1 = held s) by (apply (S_held _ _ _ _ _ _ _ _ _ S2)).
    assert (EL : lost s1 = lost s) by (apply (S_lost _ _ _ _ _ _ _ _ _ S2)).
    rewrite <- (state_eta (w_held s1 _)). cbn [held lost w_held]. rewrite EL.
    change (w_held (w_held s1 ((i, true) :: held s1)) ((i, true) :: held s1)) with (w_held s1 ((i, true) :: held s1)).
    rewrite EH.
    assert (NI : ~ In i (refs_of s)).
    { intro Q. apply (r_in _ _ (R_ref _ _ _ _ H)) in Q. contradiction. }
    eapply (R_end _ _ s st (w_evicted s [])); [exact H|repeat split|exact S2|reflexivity| |reflexivity|apply H| |].
    + intro k'. rewrite <- slook_without. reflexivity.
    + cbn. constructor; [left|].
      * split; [reflexivity|]. eexists. split; [exact N3|]. split; reflexivity.
      * eapply Forall2_imp; [|apply (R_pend _ _ _ _ H)]. intros; right; auto.
    + intros j [Q|Q]; cbn [map fst app].
      * injection Q as <-. rewrite count_cons_eq. f_equal. apply count_occ_not_In. exact NI.
      * destruct (Nat.eq_dec j i) as [->|N]; [|rewrite count_cons_ne by exact N; apply (R_one _ _ _ _ H); exact Q].
        exfalso. apply NI. unfold refs_of. apply in_or_app. left. apply (in_map fst _ _ Q).
  - exists (st_without st (evicted s1)).
    split; [split; [exact EV|]; cbn [effect]; right; auto|]. eapply fin_same; [exact H|exact E4|apply H].
Qed.

(* a new entry, stored by the operation itself *)
Lemma fin_put s st s' ev k v f e b : R s st ->
  Sim (w_evicted s []) [] s' (refs_of s)
    (put (gone_keys (slook st) ev) k (live (now s) (mkEntry v f e (N.succ (casid s)) b))) ev (N.succ (casid s)) ->
  exists st', stores (st_without st ev) k v f e b (N.succ (casid s)) st' /\ R s' st'.
Proof.
  intros H S.
  assert (ST : stores (st_without st ev) k v f e b (N.succ (casid s))
    (w_scas (w_map (st_without st ev) (put (smap (st_without st ev)) k (Some (mkEntry v f e (N.succ (casid s)) b)))) (N.succ (casid s)))).
  { split; [|reflexivity]. cbn. pose proof (R_cas _ _ _ _ H). lia. }
  eexists. split; [exact ST|]. eapply fin_plain; [exact H|exact S| |reflexivity| |reflexivity].
  - intro k'. rewrite (slook_put _ _ _ _ _ _ _ _ ST). unfold put. rewrite slook_without.
    change (snow (st_without st ev)) with (snow st). rewrite (R_now _ _ _ _ H). reflexivity.
  - cbn. lia.
Qed.

Lemma add_rep s i k : repaired (fst (store_add lru_class maxcls s i k)) = repaired s.
Proof.
  unfold store_add. pose proof (do_get_rep lru_class maxcls s k) as G. destruct (do_get s k false) as [s1 o]. cbn [fst] in G.
  destruct o as [old|].
  - destruct (items s1 old) as [oit|]; [|exact G].
    destruct (icoll oit); cbn [fst]; rewrite release_rep, ?update_rep; exact G.
  - pose proof (link_rep lru_class maxcls s1 i) as L. destruct (link s1 i) as [s2 c]. cbn [fst] in *. congruence.
Qed.

Lemma step_coll_create s st k f e orc s' x : R s st -> short k ->
  coll_create lru_class maxcls evict_on (w_evicted s []) k f e orc = (s', x) -> repaired s' = false ->
  exists st', sstep st (CollCreate k f e orc) x (map fst (evicted s')) st' /\ R s' st'.
Proof.
  intros H SK. unfold coll_create. destruct (do_get (w_evicted s []) k false) as [s1 o] eqn:G.
  pose proof (sim_start _ _ s st (w_evicted s []) [] H ltac:(repeat split)) as S0.
  pose proof (based_past _ _ s st (w_evicted s []) H ltac:(repeat split)) as past.
  pose proof (sim_get _ _ _ _ _ _ _ _ _ _ _ _ _ S0 G) as K. destruct o as [i|].
  { destruct K as (it & Hi & Hl & Hk & V & F & S1 & _). injection 1 as <- <-. intros _. apply sim_release in S1.
    rewrite (S_ev _ _ _ _ _ _ _ _ _ S1). exists (st_without st []). split; [|eapply fin_same; [exact H|exact S1|apply H]].
    split; [apply ev_ok_nil|]. cbn [effect]. rewrite w_map_nil, st_nil, F. auto. }
  destruct K as (F & S1 & T).
  destruct (KvModel.alloc _ _ _ s1 true _ _ _ _ _ orc) as [s2 a] eqn:AL. intros E RF.
  assert (RF2 : repaired s2 = false).
  { destruct a; [|injection E as <- <-; exact RF]. pose proof (link_rep lru_class maxcls s2 n) as L.
    destruct (link s2 n) as [s3 c]. injection E as <- <-. rewrite release_rep in RF. cbn in L. congruence. }
  assert (HD : true = false -> exists v : bytes, [] = v ++ [13; 10]%N) by discriminate.
  destruct (sim_alloc _ _ _ _ evict_on _ _ _ _ _ _ _ _ _ _ _ _ _ S1 (R_rep _ _ _ _ H) SK HD AL RF2) as (E1 & E2 & E3 & ET & E4).
  assert (EV : ev_ok st (CollCreate k f e orc) (map fst (evicted s2))).
  { split; [discriminate|]. intros k' Hin. apply in_map_iff in Hin as ([k2 j] & <- & Hin). split; [eauto|].
    cbn. intro Z. injection Z as Z. destruct (E1 _ _ Hin) as (ee & Z1 & _). congruence. }
  assert (GK : slook (st_without st (evicted s2)) k = None) by (rewrite slook_without; apply gone_none; exact F).
  destruct a as [n|].
  - destruct E4 as (N1 & N2 & N3 & S2). destruct (link s2 n) as [s3 c] eqn:L. injection E as <- <-.
    destruct (sim_link _ _ _ _ s2 _ _ _ _ n _ s3 c past S2 N3 eq_refl (or_intror N2) (ET k T) L) as [(-> & EC & S3)|(-> & BP & S3)];
      apply sim_release in S3; rewrite (S_ev _ _ _ _ _ _ _ _ _ S3).
    + destruct (fin_put s st _ (evicted s2) k [] f e true H S3) as (st' & ST & RR). exists st'. split; [|exact RR].
      split; [exact EV|]. cbn [effect]. fold (st_without st (evicted s2)). rewrite GK. right. right. eauto.
    + exists (st_without st (evicted s2)). split; [|eapply fin_same; [exact H|exact S3|pose proof (R_cas _ _ _ _ H); lia]].
      split; [exact EV|]. cbn [effect]. fold (st_without st (evicted s2)). rewrite GK. auto.
  - injection E as <- <-. exists (st_without st (evicted s2)). split; [|eapply fin_same; [exact H|exact E4|apply H]].
    split; [exact EV|]. cbn [effect]. fold (st_without st (evicted s2)). rewrite GK. auto.
Qed.

Lemma step_arith s st k incr create delta initial f e tail orc s' x : R s st -> short k ->
  arithmetic lru_class maxcls evict_on (w_evicted s []) k incr create delta initial f e tail orc = (s', x) -> repaired s' = false ->
  exists st', sstep st (Arith k incr create delta initial f e tail orc) x (map fst (evicted s')) st' /\ R s' st'.
Proof.
  intros H SK. unfold arithmetic. destruct (do_get (w_evicted s []) k false) as [s1 o] eqn:G.
  pose proof (sim_start _ _ s st (w_evicted s []) [] H ltac:(repeat split)) as S0.
  pose proof (based_past _ _ s st (w_evicted s []) H ltac:(repeat split)) as past.
  pose proof (sim_get _ _ _ _ _ _ _ _ _ _ _ _ _ S0 G) as K. destruct o as [i|].
  - destruct K as (it & Hi & Hl & Hk & V & F & S1 & _). rewrite Hi. destruct (icoll it) eqn:C.
    { injection 1 as <- <-. intros _. change (evicted (w_lost s1 _)) with (evicted s1). rewrite (S_ev _ _ _ _ _ _ _ _ _ S1).
      exists (st_without st []). split.
      { split; [apply ev_ok_nil|]. cbn [effect]. rewrite w_map_nil, st_nil, F. cbn [entry_of e_coll]. rewrite C. auto. }
      assert (EH : held s1 = held s) by (apply (S_held _ _ _ _ _ _ _ _ _ S1)).
      assert (EL : lost s1 = lost s) by (apply (S_lost _ _ _ _ _ _ _ _ _ S1)).
      rewrite <- (state_eta (w_lost s1 _)). cbn [held lost w_lost]. rewrite EL.
      change (w_lost (w_held (w_lost s1 (i :: lost s)) (held s1)) (i :: lost s)) with (w_lost (w_held s1 (held s1)) (i :: lost s)).
      rewrite EH.
      assert (PP : Permutation (i :: refs_of s) (map fst (held s) ++ i :: lost s)) by apply Permutation_middle.
      eapply (R_end _ _ s st (w_evicted s [])); [exact H|repeat split|exact S1|exact PP| |reflexivity|apply H| |].
      - intro k'. apply st_nil.
      - cbn. eapply Forall2_imp; [|apply (R_pend _ _ _ _ H)]. intros; right; auto.
      - intros j Q. rewrite <- (count_perm _ _ j PP).
        destruct (Nat.eq_dec j i) as [->|N]; [|rewrite count_cons_ne by exact N; apply (R_one _ _ _ _ H); exact Q].
        exfalso. apply In_nth_error in Q as [n Q]. destruct (Forall2_nth _ _ _ _ _ (R_pend _ _ _ _ H) Q) as (p & _ & PO).
        destruct p as [r|]; [|discriminate]. cbn in PO. destruct PO as (_ & y & Y1 & Y2 & _).
        assert (In i (refs_of s)) by (unfold refs_of; apply in_or_app; left; apply (in_map fst _ (i, true)); eapply nth_error_In; exact Q).
        destruct (sim_kept _ _ _ _ _ _ _ _ _ _ _ S1 (in_nil (a := i)) ltac:(right; assumption) Y1 Y2) as (z & Z1 & Z2 & _).
        congruence. }
    unfold add_delta. rewrite Hi.
    destruct (c_crlf _ _ _ (S_core _ _ _ _ _ _ _ _ _ S1) _ _ Hi C) as [ov Ov].
    assert (EVV : e_val (entry_of it) = ov) by (unfold entry_of; cbn; rewrite C, Ov; apply strip_crlf).
    assert (RA : forall v, safe_strtoull (idata it ++ tail) = Some v <-> reads_as (e_val (entry_of it) ++ [13; 10]%N ++ tail) v).
    { intro v. rewrite EVV, app_assoc, <- Ov. apply reads_as_char. }
    destruct (safe_strtoull (idata it ++ tail)) as [v|] eqn:SS.
    + rewrite arith_eq. set (w := arith incr v delta). unfold num_data.
      destruct (KvModel.alloc _ _ _ s1 false _ _ _ _ _ orc) as [s2 a] eqn:AL. intros E RF. rewrite Hk in AL.
      assert (RF2 : repaired s2 = false).
      { destruct a as [n|]; injection E as <- <-; rewrite ?release_rep, ?replace_rep in RF; exact RF. }
      destruct (alloc_replace _ _ evict_on _ [] s1 (refs_of s) (slook st) (casid s) i it _ _ _ _ orc s2 a past S1 (R_rep _ _ _ _ H) SK Hi Hl Hk V AL RF2)
        as (EV1 & EV2 & RES).
      assert (EVO : ev_ok st (Arith k incr create delta initial f e tail orc) (map fst (evicted s2))).
      { split; [discriminate|]. intros k' Hin'. apply in_map_iff in Hin' as ([k2 j] & <- & Hin'). split; [eauto|].
        cbn. intro Z. injection Z as Z. subst k2. eapply EV2. exact Hin'. }
      assert (GK : slook (st_without st (evicted s2)) k = Some (entry_of it)).
      { rewrite slook_without. apply no_ev_key; assumption. }
      destruct a as [n|].
      * destruct RES as [S3 CC]. injection E as <- <-. rewrite (S_ev _ _ _ _ _ _ _ _ _ S3).
        destruct (fin_put s st _ (evicted s2) k _ _ _ _ H S3) as (st' & ST & RR).
        exists st'. split; [|exact RR]. split; [exact EVO|]. cbn [effect]. fold (st_without st (evicted s2)). rewrite GK.
        replace (e_coll (entry_of it)) with false by (symmetry; exact C).
        right. exists v. split; [apply RA; reflexivity|]. right. rewrite CC. eauto.
      * injection E as <- <-. rewrite (S_ev _ _ _ _ _ _ _ _ _ RES). exists (st_without st (evicted s2)).
        split; [|eapply fin_same; [exact H|exact RES|apply H]].
        split; [exact EVO|]. cbn [effect]. fold (st_without st (evicted s2)). rewrite GK.
        replace (e_coll (entry_of it)) with false by (symmetry; exact C).
        right. exists v. split; [apply RA; reflexivity|]. auto.
    + injection 1 as <- <-. intros _. apply sim_release in S1. rewrite (S_ev _ _ _ _ _ _ _ _ _ S1).
      exists (st_without st []). split; [|eapply fin_same; [exact H|exact S1|apply H]].
      split; [apply ev_ok_nil|]. cbn [effect]. rewrite w_map_nil, st_nil, F.
      replace (e_coll (entry_of it)) with false by (symmetry; exact C).
      left. split; [reflexivity|]. split; [|reflexivity]. intros v Hv. apply RA in Hv. discriminate.
  - destruct K as (F & S1 & T). destruct create.
    2:{ injection 1 as <- <-. intros _. rewrite (S_ev _ _ _ _ _ _ _ _ _ S1). exists (st_without st []).
        split; [|eapply fin_same; [exact H|exact S1|apply H]].
        split; [apply ev_ok_nil|]. cbn [effect]. rewrite w_map_nil, st_nil, F. auto. }
    unfold num_data.
    destruct (KvModel.alloc _ _ _ s1 false _ _ _ _ _ orc) as [s2 a] eqn:AL. intros E RF.
    assert (RF2 : repaired s2 = false).
    { destruct a; [|injection E as <- <-; exact RF]. pose proof (add_rep s2 n k) as L.
      destruct (store_add _ _ s2 n k) as [s3 c]. injection E as <- <-. rewrite release_rep in RF. cbn in L. congruence. }
    destruct (sim_alloc _ _ _ _ evict_on _ _ _ _ _ _ _ _ _ _ _ _ _ S1 (R_rep _ _ _ _ H) SK ltac:(eauto) AL RF2) as (E1 & E2 & E3 & ET & E4).
    assert (EV : ev_ok st (Arith k incr true delta initial f e tail orc) (map fst (evicted s2))).
    { split; [discriminate|]. intros k' Hin. apply in_map_iff in Hin as ([k2 j] & <- & Hin). split; [eauto|].
      cbn. intro Z. injection Z as Z. destruct (E1 _ _ Hin) as (ee & Z1 & _). congruence. }
    assert (GK : slook (st_without st (evicted s2)) k = None) by (rewrite slook_without; apply gone_none; exact F).
    destruct a as [n|].
    + destruct E4 as (N1 & N2 & N3 & S2). unfold store_add, KvModel.do_get in E. rewrite (ET k T) in E.
      destruct (link s2 n) as [s3 c] eqn:L. injection E as <- <-.
      destruct (sim_link _ _ _ _ s2 _ _ _ _ n _ s3 c past S2 N3 eq_refl (or_intror N2) (ET k T) L) as [(-> & EC & S3)|(-> & BP & S3)];
        apply sim_release in S3; rewrite (S_ev _ _ _ _ _ _ _ _ _ S3).
      * unfold entry_of in S3. cbn [ikey set_cas icoll idata iflags iexp icas] in S3. rewrite strip_crlf in S3.
        destruct (fin_put s st _ (evicted s2) k _ f e false H S3) as (st' & ST & RR). exists st'. split; [|exact RR].
        split; [exact EV|]. cbn [effect]. fold (st_without st (evicted s2)). rewrite GK. right. right. rewrite EC. eauto.
      * exists (st_without st (evicted s2)). split; [|eapply fin_same; [exact H|exact S3|pose proof (R_cas _ _ _ _ H); lia]].
        split; [exact EV|]. cbn [effect]. fold (st_without st (evicted s2)). rewrite GK. auto.
    + injection E as <- <-. exists (st_without st (evicted s2)). split; [|eapply fin_same; [exact H|exact E4|apply H]].
      split; [exact EV|]. cbn [effect]. fold (st_without st (evicted s2)). rewrite GK. auto.
Qed.

Lemma step_store s st h kind orc s' x : R s st ->
  store lru_class maxcls evict_on (w_evicted s []) h kind orc = (s', x) -> repaired s' = false ->
  exists st', sstep st (Store h kind orc) x (map fst (evicted s')) st' /\ R s' st'.
Proof.
  intros H. unfold store. cbn [w_evicted held].
  assert (OTHER : (forall i, nth_error (held s) h <> Some (i, true)) ->
     exists st', sstep st (Store h kind orc) ONone (map fst (evicted (w_evicted s []))) st' /\ R (w_evicted s []) st').
  { intro N. pose proof (pend_none _ _ s st h H N) as PN. exists (st_without st []). split.
    - split; [apply ev_ok_nil|]. cbn [effect]. change (spend (w_map _ _)) with (spend st).
      destruct (nth_error (spend st) h) as [[r|]|] eqn:Q; auto. exfalso. eapply PN. reflexivity.
    - eapply fin_same; [exact H| |apply H]. apply sim_start; [exact H|repeat split]. }
  destruct (nth_error (held s) h) as [[i b]|] eqn:E.
  2:{ injection 1 as <- <-. intros _. apply OTHER. intros; discriminate. }
  destruct b.
  2:{ injection 1 as <- <-. intros _. apply OTHER. intros; congruence. }
  destruct (pend_nth _ _ s st h i H E) as (r & it & EP & Hi & Hl & HC).
  change (items (w_held _ _)) with (items s). rewrite Hi.
  assert (HK : ikey it = r_key r) by (apply content_fields in HC; tauto). rewrite HK.
  fold (sbase s h i). intros ST RF. destruct kind.
  - eapply step_store_set; eassumption.
  - eapply step_store_add; eassumption.
  - eapply step_store_replace; eassumption.
  - eapply step_store_cas; eassumption.
  - apply (step_store_attach _ _ s st h i r it H E EP Hi Hl HC evict_on (R_rep _ _ _ _ H) s' x orc true ST RF).
  - apply (step_store_attach _ _ s st h i r it H E EP Hi Hl HC evict_on (R_rep _ _ _ _ H) s' x orc false ST RF).
Qed.
End Alloc.

(* flushing: what is kept, whatever the criterion *)
Lemma flush_common s st s1 s' P st' : R s st -> Core s' -> Fl P s1 s' ->
  items s1 = items s -> held s1 = held s -> lost s1 = lost s -> now s1 = now s -> casid s1 = casid s -> repaired s1 = repaired s ->
  oldest s1 < now s -> (forall q, pold s1 q < now s) ->
  (forall k, eview s' k = slook st' k) -> snow st' = snow st -> (scas st' <= scas st)%N -> spend st' = spend st -> R s' st'.
Proof.
  intros H C F EI EH EL EN EC ER Ho Hp V Hn Hc Hs. destruct F. destruct f_env as (A1 & A2 & A3 & A4 & A5 & A6 & A7).
  assert (EHH : held s' = held s) by congruence. assert (ELL : lost s' = lost s) by congruence.
  assert (ERR : refs_of s' = refs_of s) by (unfold refs_of; congruence).
  rewrite EI in *. pose proof H as H0. destruct H0. split.
  - exact C.
  - rewrite ERR. destruct R_ref. split.
    + intros i it' Hi. pose proof (f_bwd _ _ Hi) as B. destruct (items s i) as [it|] eqn:Q; [|contradiction].
      destruct (f_fwd _ _ Q) as [K|(_ & _ & [(K1 & K2)|(K1 & K2)])]; rewrite Hi in *; try discriminate.
      * injection K as ->. auto. * injection K2 as ->. cbn. auto.
    + intros i it' Hi. pose proof (f_bwd _ _ Hi) as B. destruct (items s i) as [it|] eqn:Q; [|contradiction].
      destruct (f_fwd _ _ Q) as [K|(_ & _ & [(K1 & K2)|(K1 & K2)])]; rewrite Hi in *; try discriminate.
      * injection K as ->. eauto. * injection K2 as ->. cbn. intro; contradiction.
    + intros i Hi. pose proof (r_in _ Hi) as B. destruct (items s i) as [it|] eqn:Q; [|contradiction].
      destruct (f_fwd _ _ Q) as [K|(_ & _ & [(K1 & K2)|(K1 & K2)])]; try congruence.
      exfalso. rewrite (r_cnt _ _ Q) in K1. apply count_occ_not_In in K1. contradiction.
  - congruence.
  - lia.
  - lia.
  - exact V.
  - rewrite EHH, Hs. eapply Forall2_imp; [|exact R_pend]. intros [j b] p. unfold pend_ok. destruct p as [r|]; [|auto].
    intros (-> & it & B1 & B2 & B3). split; [reflexivity|]. exists it. split; [|auto].
    destruct (f_fwd _ _ B1) as [K|(K & _)]; congruence.
  - rewrite EHH, ERR. exact R_one.
  - rewrite A4, EC. lia.
  - congruence.
  - intro q. rewrite A2, EN. destruct (f_pold' q) as [-> | ->]; [apply Hp|lia].
  - intros i it' Hi. pose proof (f_bwd _ _ Hi) as B. destruct (items s i) as [it|] eqn:Q; [|contradiction].
    destruct (f_fwd _ _ Q) as [K|(_ & _ & [(K1 & K2)|(K1 & K2)])]; rewrite Hi in *; try discriminate.
    + injection K as ->. eauto. + injection K2 as ->. cbn. eauto.
  - congruence.
Qed.

Lemma eview_none s k : Core s -> (forall i it, items s i = Some it -> ilinked it = true -> ikey it = k -> isvalid s it = false) ->
  eview s k = None.
Proof.
  intros C N. destruct (eview s k) as [e|] eqn:E; [|reflexivity]. apply (eview_some lru_class maxcls) in E as (i & it & A & B & D & V & _); [|exact C].
  rewrite (N _ _ A B D) in V. discriminate.
Qed.

Lemma ol_now s : 2 <= now s -> now s < sticky_time -> (now s - 1) mod 2 ^ 32 = now s - 1.
Proof. unfold sticky_time. intros. apply Z.mod_small. lia. Qed.

Lemma step_flush s st wh s' x : R s st -> wh = 0 -> no_pulled_out s ->
  flush_all lru_class maxcls (w_evicted s []) wh = (s', x) ->
  exists st', sstep st (Flush wh) x (map fst (evicted s')) st' /\ R s' st'.
Proof.
  intros H -> NP. unfold flush_all. cbn [Z.eqb]. change (now (w_evicted s [])) with (now s).
  pose proof (R_lo _ _ _ _ H) as Hlo. pose proof (R_hi _ _ _ _ H) as Hhi. rewrite (ol_now s Hlo Hhi).
  replace (now s - 1 =? 0) with false by lia. set (s1 := w_oldest (w_evicted s []) (now s - 1)).
  assert (C1 : Core s1) by (apply (core_frame lru_class maxcls s); try reflexivity; cbn; try lia; apply H).
  destruct (flush_classes_spec lru_class maxcls s1 (now s - 1) true None C1) as (C2 & FL & K).
  injection 1 as <- <-. set (s2 := flush_classes _ _ s1 _ _ _) in *.
  rewrite (f_ev _ _ _ FL). exists (w_map (st_without st []) (fun _ => None)). split.
  { split; [apply ev_ok_nil|]. cbn [effect]. auto. }
  destruct (f_env _ _ _ FL) as (A1 & A2 & A3 & A4 & A5 & A6 & A7).
  eapply (flush_common s st s1); [exact H|exact C2|exact FL|reflexivity..| | | |reflexivity|cbn; lia|reflexivity].
  - cbn. lia.
  - intro q. apply (R_pold _ _ _ _ H).
  - intro k. change (slook (w_map _ _) k) with (@None entry). apply eview_none; [exact C2|].
    intros i it Hi Hl Hk.
    assert (itime it <= now s - 1).
    { pose proof (fl_linked _ _ _ _ _ FL Hi Hl) as Hi'. destruct (inlru it) eqn:Q.
      - specialize (K _ _ Hi Q eq_refl). lia.
      - specialize (NP _ _ Hi' Hl Q). lia. }
    unfold isvalid, flushed_by. rewrite A3, A2. cbn [s1 w_oldest oldest now w_evicted].
    replace (now s - 1 =? 0) with false by lia. replace (now s - 1 <=? now s) with true by lia.
    replace (itime it <=? now s - 1) with true by lia. cbn. rewrite andb_false_r. reflexivity.
Qed.

Lemma pfx_exists_spec s : Core s -> (forall i it, items s i = Some it -> short (ikey it)) ->
  forall p, pfx_exists s p = true -> p = None \/ exists k', short k' /\ pfx k' = p.
Proof.
  intros C SH p. destruct p as [q|]; [|auto]. cbn. rewrite existsb_exists. intros ([k' i] & B & D). cbn in D.
  apply obeqb_eq in D. apply (c_tab _ _ _ C) in B as (it & B1 & B2 & B3). right. exists k'. split; [|exact D].
  rewrite <- B3. eapply SH. exact B1.
Qed.

Lemma step_flush_prefix s st p wh s' x : R s st -> wh = 0 -> no_pulled_out s ->
  flush_prefix lru_class maxcls (w_evicted s []) p wh = (s', x) ->
  exists st', sstep st (FlushPrefix p wh) x (map fst (evicted s')) st' /\ R s' st'.
Proof.
  intros H -> NP. unfold flush_prefix. cbn [Z.eqb]. change (now (w_evicted s [])) with (now s).
  change (pfx_exists (w_evicted s []) p) with (pfx_exists s p).
  pose proof (R_lo _ _ _ _ H) as Hlo. pose proof (R_hi _ _ _ _ H) as Hhi. pose proof (R_core _ _ _ _ H) as C0.
  destruct (pfx_exists s p) eqn:PE; cbn [negb].
  2:{ injection 1 as <- <-. exists (st_without st []). split.
      - split; [apply ev_ok_nil|]. cbn [effect]. right. rewrite w_map_nil. split; [reflexivity|]. split; [|reflexivity].
        intros k Hk. rewrite st_nil, <- (R_view _ _ _ _ H). apply eview_none; [exact C0|].
        intros i it Hi Hl Hk'. exfalso. destruct p as [q|]; [|discriminate].
        cbn in PE. assert (B : existsb (fun e => obeqb (pfx (fst e)) (Some q)) (table s) = true); [|congruence].
        apply existsb_exists. exists (k, i). split; [apply (c_tab _ _ _ C0); eauto|]. cbn. apply obeqb_eq.
        apply pfx_has; [rewrite <- Hk'; eapply (R_short _ _ _ _ H); exact Hi|exact Hk].
      - eapply fin_same; [exact H| |apply H]. apply sim_start; [exact H|repeat split]. }
  pose proof (pfx_exists_spec s C0 (R_short _ _ _ _ H) p PE) as PP.
  rewrite (ol_now s Hlo Hhi).
  replace (now s - 1 =? 0) with false by lia.
  set (s1 := w_pold (w_evicted s []) (fun q => if obeqb q p then now s - 1 else pold (w_evicted s []) q)).
  assert (C1 : Core s1) by (apply (core_frame lru_class maxcls s); try reflexivity; cbn; try lia; apply H).
  destruct (flush_classes_spec lru_class maxcls s1 (now s - 1) false p C1) as (C2 & FL & K).
  injection 1 as <- <-. set (s2 := flush_classes _ _ s1 _ _ _) in *.
  rewrite (f_ev _ _ _ FL).
  set (st' := w_map (st_without st []) (fun k => if obeqb (fpfx k) p then None else smap (st_without st []) k)).
  exists st'. split.
  { split; [apply ev_ok_nil|]. cbn [effect]. left. repeat split.
    - intros k Hk. apply fpfx_has in Hk. cbn. rewrite (proj2 (obeqb_eq _ _) Hk). reflexivity.
    - intros k Hk. cbn. destruct (obeqb (fpfx k) p) eqn:Q; [|reflexivity]. apply obeqb_eq, fpfx_has in Q. contradiction. }
  destruct (f_env _ _ _ FL) as (A1 & A2 & A3 & A4 & A5 & A6 & A7).
  assert (FPX : forall it, short (ikey it) -> (fp false p it = true <-> pfx (ikey it) = p)).
  { intros it Si. unfold fp. cbn [orb]. apply isincluded_eq; assumption. }
  eapply (flush_common s st s1); [exact H|exact C2|exact FL|reflexivity..| | | |reflexivity|cbn; lia|reflexivity].
  - apply (R_old _ _ _ _ H).
  - intro q. cbn. destruct (obeqb q p); [lia|apply (R_pold _ _ _ _ H)].
  - intro k. destruct (obeqb (fpfx k) p) eqn:Q.
    + transitivity (@None entry); [|unfold slook; cbn; rewrite Q; reflexivity].
      apply eview_none; [exact C2|]. intros i it Hi Hl Hk. apply obeqb_eq in Q.
      pose proof (fl_linked _ _ _ _ _ FL Hi Hl) as Hi'.
      assert (Si : short (ikey it)) by (eapply (R_short _ _ _ _ H); exact Hi').
      assert (PX : pfx (ikey it) = p) by (rewrite fpfx_short by exact Si; congruence).
      assert (itime it <= now s - 1).
      { destruct (inlru it) eqn:Z.
        - specialize (K _ _ Hi Z (proj2 (FPX it Si) PX)). lia.
        - specialize (NP _ _ Hi' Hl Z). lia. }
      unfold isvalid, flushed_by. rewrite (f_pold _ _ _ FL _ _ Hi Hl), A2. cbn [s1 w_pold pold now w_evicted].
      rewrite PX, (proj2 (obeqb_eq p p) eq_refl).
      replace (now s - 1 =? 0) with false by lia. replace (now s - 1 <=? now s) with true by lia.
      replace (itime it <=? now s - 1) with true by lia. cbn. rewrite andb_false_r. reflexivity.
    + transitivity (slook st k); [|unfold slook; cbn; rewrite Q; reflexivity].
      rewrite <- (R_view _ _ _ _ H).
      assert (VE : forall i it, items s2 i = Some it -> ilinked it = true -> ikey it = k -> isvalid s2 it = isvalid s it).
      { intros i it Hi Hl Hk. unfold isvalid, flushed_by. rewrite (f_pold _ _ _ FL _ _ Hi Hl), A2, A3.
        cbn [s1 w_pold pold now w_evicted oldest].
        pose proof (fl_linked _ _ _ _ _ FL Hi Hl) as Hi'.
        assert (Si : short (ikey it)) by (eapply (R_short _ _ _ _ H); exact Hi').
        rewrite (fpfx_short _ Si), Hk, Q. reflexivity. }
      destruct (eview s k) as [e|] eqn:E.
      * apply (eview_some lru_class maxcls) in E as (i & it & B1 & B2 & B3 & B4 & ->); [|exact C0].
        assert (Hi : items s2 i = Some it).
        { destruct (f_fwd _ _ _ FL i it B1) as [Z|(_ & Z & _)]; [exact Z|]. exfalso.
          assert (Si : short (ikey it)) by (eapply (R_short _ _ _ _ H); exact B1).
          apply (FPX it Si) in Z. rewrite (fpfx_short _ Si), B3 in Z. apply obeqb_eq in Z. congruence. }
        apply (eview_some lru_class maxcls); [exact C2|]. exists i, it. rewrite (VE i it Hi B2 B3). auto.
      * apply eview_none; [exact C2|]. intros i it Hi Hl Hk. rewrite (VE i it Hi Hl Hk).
        destruct (isvalid s it) eqn:V; [|reflexivity]. exfalso.
        pose proof (fl_linked _ _ _ _ _ FL Hi Hl) as Hi'.
        assert (Z : eview s k = Some (entry_of it)); [|congruence].
        apply (eview_some lru_class maxcls); [exact C0|]. exists i, it. auto.
Qed.

Lemma R_init : R init empty_cache.
Proof.
  split; cbn; try lia; try discriminate; try (intros; discriminate); auto.
  - split; cbn; try discriminate; try contradiction; try (intros; discriminate); auto.
    + constructor.
    + intros k i. split; [intros []|intros (it & Z & _); discriminate].
    + intros _ _. constructor.
    + intros b c i. split; [intros []|intros (it & Z & _); discriminate].
    + intros _ _. constructor.
  - split; cbn; try discriminate; try contradiction; intros; discriminate.
  - unfold sticky_time. lia.
Qed.

Variable evict_on : bool.

Theorem step_refines s st o s' x : R s st -> ok_op s o -> step lru_class maxcls evict_on s o = (s', x) -> repaired s' = false ->
  exists st', sstep st o x (map fst (evicted s')) st' /\ R s' st'.
Proof.
  intros H OK E RF. destruct o.
  - unfold step in E. injection E as <- <-. apply step_tick; assumption.
  - eapply step_alloc; eassumption.
  - eapply step_store; eassumption.
  - eapply step_get; eassumption.
  - eapply step_release; [exact H|]. exact E.
  - eapply step_arith; eassumption.
  - eapply step_delete; eassumption.
  - eapply step_set_expire; eassumption.
  - eapply step_get_expire; eassumption.
  - destruct OK. eapply step_flush; eassumption.
  - destruct OK. eapply step_flush_prefix; eassumption.
  - eapply step_coll_create; eassumption.
Qed.

(* the conditions on a whole run: see ok_op; and the tail-repair code is never needed *)
Fixpoint runs_ok (s : state) (ops : list op) : Prop :=
  match ops with
  | [] => True
  | o :: r => ok_op s o /\ repaired (fst (step lru_class maxcls evict_on s o)) = false /\
              runs_ok (fst (step lru_class maxcls evict_on s o)) r
  end.

Theorem run_refines ops : forall s st s' xs, R s st -> runs_ok s ops -> run lru_class maxcls evict_on s ops = (s', xs) ->
  exists st', sruns st ops (map (fun a => (fst a, map fst (snd a))) xs) st' /\ R s' st'.
Proof.
  induction ops as [|o r IH]; intros s st s' xs H OK.
  - cbn. injection 1 as <- <-. exists st. split; [constructor|exact H].
  - cbn [runs_ok] in OK. destruct OK as (O1 & O2 & O3). cbn [run].
    destruct (step lru_class maxcls evict_on s o) as [s1 x] eqn:E. cbn [fst] in O2, O3.
    destruct (run lru_class maxcls evict_on s1 r) as [s2 ys] eqn:E2. injection 1 as <- <-.
    destruct (step_refines s st o s1 x H O1 E O2) as (st1 & ST & R1).
    destruct (IH s1 st1 s2 ys R1 O3 E2) as (st2 & SR & R2).
    exists st2. split; [|exact R2]. cbn. econstructor; eassumption.
Qed.

End S.
