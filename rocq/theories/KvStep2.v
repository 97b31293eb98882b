(* Refinement, second part: storing operations, flush, and whole runs. *)
From Coq Require Import Permutation.
From Verif Require Import Base UtilModel UtilSpec UtilProofs KvModel KvSpec KvProofs KvRefine KvFlush KvStep.
Open Scope Z_scope.
Set Default Proof Using "Type".

Section S.
Variable lru_class : bool -> bytes -> bytes -> nat.
Variable maxcls : nat.
Notation unlink := (unlink lru_class maxcls).
Notation link := (link lru_class maxcls).
Notation replace := (replace lru_class maxcls).
Notation update := (update lru_class maxcls).
Notation do_get := (do_get lru_class maxcls).
Notation release := (release lru_class maxcls).
Notation Core := (Core lru_class maxcls).
Notation Sim := (Sim lru_class maxcls).
Notation R := (R lru_class maxcls).

Lemma pend_nth s st h i : R s st -> nth_error (held s) h = Some (i, true) ->
  exists r it, nth_error (spend st) h = Some (Some r) /\ items s i = Some it /\ ilinked it = false /\
    content it = (r_key r, r_val r ++ [13; 10]%N, r_flags r, r_exp r, r_cas r, false).
Proof.
  intros H E. destruct (Forall2_nth _ _ _ _ _ (R_pend _ _ _ _ H) E) as (p & P1 & P2).
  destruct p as [r|]; [|discriminate]. cbn in P2. destruct P2 as (_ & it & A & B & D). exists r, it. auto.
Qed.

Lemma pend_none s st h : R s st -> (forall i, nth_error (held s) h <> Some (i, true)) ->
  forall r, nth_error (spend st) h <> Some (Some r).
Proof.
  intros H N r E.
  assert (F : exists x, nth_error (held s) h = Some x).
  { destruct (nth_error (held s) h) eqn:Q; [eauto|]. apply (Forall2_len _ _ _ h (R_pend _ _ _ _ H)) in Q. congruence. }
  destruct F as [[i b] F]. destruct (Forall2_nth _ _ _ _ _ (R_pend _ _ _ _ H) F) as (p & P1 & P2).
  rewrite E in P1. injection P1 as <-. cbn in P2. destruct P2 as (-> & _). eapply N. exact F.
Qed.

Lemma content_fields it k d f e c b : content it = (k, d, f, e, c, b) ->
  ikey it = k /\ idata it = d /\ iflags it = f /\ iexp it = e /\ icas it = c /\ icoll it = b.
Proof. unfold content. intro H. injection H. auto 10. Qed.

Lemma entry_new it k v f e c0 c : content it = (k, v ++ [13; 10]%N, f, e, c0, false) ->
  entry_of (set_cas it c) = mkEntry v f e c false.
Proof.
  intro H. apply content_fields in H as (A & B & D & E & F & G). unfold entry_of.
  cbn [set_cas idata iflags iexp icoll icas]. rewrite B, D, E, G, strip_crlf. reflexivity.
Qed.

Definition sbase (s : state) (h i : nat) : state := w_held (w_evicted s []) (set_nth h (i, false) (held s)).
Definition sst (st : cache) (ev : list (bytes * nat)) (h : nat) : cache :=
  w_pend (st_without st ev) (set_nth h None (spend st)).

Lemma sst_look st ev h k : slook (sst st ev h) k = gone_keys (slook st) ev k.
Proof. rewrite <- slook_without. reflexivity. Qed.

(* the end of a store operation: nothing stored, or request r stored *)
Lemma fin_store_same s st s' ev ci h i : R s st -> nth_error (held s) h = Some (i, true) ->
  Sim (sbase s h i) [i] s' (refs_of s) (gone_keys (slook st) ev) ev ci -> (casid s <= ci)%N -> R s' (sst st ev h).
Proof.
  intros H E S Hc. eapply fin_store; [exact H|exact E|exact S| |reflexivity| |reflexivity].
  - intro k. apply sst_look.
  - cbn. pose proof (R_cas _ _ _ _ H). lia.
Qed.

Lemma fin_store_put s st s' ev h i k v f e : R s st -> nth_error (held s) h = Some (i, true) ->
  Sim (sbase s h i) [i] s' (refs_of s)
    (put (gone_keys (slook st) ev) k (live (now s) (mkEntry v f e (N.succ (casid s)) false))) ev (N.succ (casid s)) ->
  exists st', stores (sst st ev h) k v f e false (N.succ (casid s)) st' /\ R s' st'.
Proof.
  intros H E S.
  assert (ST : stores (sst st ev h) k v f e false (N.succ (casid s))
    (w_scas (w_map (sst st ev h) (put (smap (sst st ev h)) k (Some (mkEntry v f e (N.succ (casid s)) false)))) (N.succ (casid s)))).
  { split; [|reflexivity]. cbn. pose proof (R_cas _ _ _ _ H). lia. }
  eexists. split; [exact ST|]. eapply fin_store; [exact H|exact E|exact S| |reflexivity| |reflexivity].
  - intro k'. rewrite (slook_put _ _ _ _ _ _ _ _ ST). unfold put. rewrite sst_look.
    change (snow (sst st ev h)) with (snow st). rewrite (R_now _ _ _ _ H). reflexivity.
  - cbn. lia.
Qed.

Lemma gone_nil f k : gone_keys f [] k = f k.
Proof. reflexivity. Qed.

Lemma link_q_rep s i : repaired (KvModel.link_q lru_class maxcls s i) = repaired s.
Proof.
  unfold KvModel.link_q. destruct (items s i) as [it|]; [|reflexivity]. destruct (inlru it); [reflexivity|].
  destruct (negb (is_sticky it) && (0 <? iexp it)); [destruct (lowmk s _)|]; reflexivity.
Qed.
Lemma attach_rep s i c : repaired (KvModel.attach lru_class maxcls s i c) = repaired s.
Proof.
  unfold KvModel.attach. destruct (items s i) as [it|]; [|reflexivity]. destruct (tfind _ _); [reflexivity|].
  rewrite link_q_rep. reflexivity.
Qed.
Lemma unlink_q_rep s i : repaired (KvModel.unlink_q lru_class maxcls s i) = repaired s.
Proof. apply unlink_q_env. Qed.
Lemma link_rep s i : repaired (fst (link s i)) = repaired s.
Proof.
  unfold KvModel.link. destruct (items s i) as [it|]; [|reflexivity]. destruct (ilinked it); [reflexivity|].
  match goal with |- context [negb ?b] => destruct b end; cbn [negb fst]; [rewrite attach_rep|]; reflexivity.
Qed.
Lemma replace_rep s o n : repaired (replace s o n) = repaired s.
Proof.
  unfold KvModel.replace. destruct (items s o) as [oi|]; [|reflexivity]. destruct (items s n) as [ni|]; [|reflexivity].
  destruct (_ || _); [reflexivity|]. rewrite attach_rep.
  set (s1 := KvModel.unlink_q lru_class maxcls s o).
  transitivity (repaired s1); [|apply unlink_q_rep].
  match goal with |- context [items ?t o] => destruct (items t o) end;
  (match goal with |- context [if ?b then _ else _] => destruct b end); rewrite ?free_repaired; reflexivity.
Qed.
Lemma release_rep s i : repaired (release s i) = repaired s.
Proof.
  unfold KvModel.release. destruct (items s i) as [it|]; [|reflexivity].
  repeat (match goal with |- context [if ?b then _ else _] => destruct b end);
    rewrite ?free_repaired, ?link_q_rep, ?unlink_repaired; reflexivity.
Qed.
Lemma do_get_rep s k : repaired (fst (do_get s k false)) = repaired s.
Proof.
  unfold KvModel.do_get. destruct (tfind k (table s)); [|reflexivity]. destruct (items s n) as [it|]; [|reflexivity].
  destruct (isvalid s it); cbn [fst]; [reflexivity|apply unlink_repaired].
Qed.
Lemma update_rep s i f : repaired (update s i f) = repaired s.
Proof.
  unfold KvModel.update. destruct (items s i) as [it|]; [|reflexivity]. destruct (negb (ilinked it)); [reflexivity|].
  destruct (_ || _); [|reflexivity]. pose proof (unlink_q_rep s i) as U.
  destruct (items (KvModel.unlink_q lru_class maxcls s i) i); [rewrite link_q_rep|]; exact U.
Qed.

Lemma alloc_replace (evict_on : bool) base X s1 refs f ci old oit k fl ex v orc s2 a : flush_past base ->
  Sim base X s1 (old :: refs) f [] ci -> repaired base = false -> short k ->
  items s1 old = Some oit -> ilinked oit = true -> ikey oit = k -> isvalid s1 oit = true ->
  KvModel.alloc lru_class maxcls evict_on s1 false k fl ex (v ++ [13; 10]%N) 0%N orc = (s2, a) -> repaired s2 = false ->
  (forall k j, In (k, j) (evicted s2) -> exists e, f k = Some e /\ e_exp e <> sticky_time) /\
  (forall j, ~ In (k, j) (evicted s2)) /\
  match a with
  | None => Sim base X (release s2 old) refs (gone_keys f (evicted s2)) (evicted s2) ci
  | Some n =>
      Sim base X (release (release (replace s2 old n) n) old) refs
        (put (gone_keys f (evicted s2)) k (live (now base) (mkEntry v fl ex (N.succ ci) false))) (evicted s2) (N.succ ci) /\
      cas_of (replace s2 old n) n = N.succ ci
  end.
Proof.
  intros FP S RF SK Ho Hlo Hk V AL RF2.
  destruct (sim_alloc _ _ _ _ evict_on _ _ _ _ _ _ _ _ _ _ _ _ _ S RF SK ltac:(eauto) AL RF2) as (E1 & E2 & E3 & _ & E4).
  destruct (E2 old oit Ho Hlo V (or_introl eq_refl)) as (E5 & o2 & O1 & O2 & O3 & O4).
  split; [exact E1|]. rewrite Hk in E5. split; [exact E5|]. destruct a as [n|].
  - destruct E4 as (N1 & N2 & N3 & S2).
    destruct (sim_replace _ _ _ _ s2 _ _ _ _ old o2 n _ FP S2 O1 O2 ltac:(right; left; reflexivity) N3 eq_refl) as [S3 CC].
    { cbn. apply key_content in O4. congruence. } { auto. }
    apply sim_release in S3. apply sim_release in S3. split; [|exact CC].
    cbn [ikey] in S3. unfold entry_of in S3. cbn [set_cas icoll idata iflags iexp icas] in S3. rewrite strip_crlf in S3. exact S3.
  - apply sim_release in E4. exact E4.
Qed.

Section Store.
Variables (s : state) (st : cache) (h i : nat) (r : req) (it0 : item).
Hypothesis H : R s st.
Hypothesis E : nth_error (held s) h = Some (i, true).
Hypothesis EP : nth_error (spend st) h = Some (Some r).
Hypothesis Hi0 : items s i = Some it0.
Hypothesis Hl0 : ilinked it0 = false.
Hypothesis HC0 : content it0 = (r_key r, r_val r ++ [13; 10]%N, r_flags r, r_exp r, r_cas r, false).
Let base := sbase s h i.
Let past : flush_past base.
Proof. apply (based_past lru_class maxcls s st); [exact H|repeat split]. Qed.
Let S0 : Sim base [] base (refs_of s) (slook st) [] (casid s).
Proof. apply sim_start; [exact H|repeat split]. Qed.
Let Hin : In i (refs_of s).
Proof. unfold refs_of. apply in_or_app. left. apply (in_map fst _ (i, true)). eapply nth_error_In. exact E. Qed.

Let keep s1 refs f ev ci : Sim base [] s1 refs f ev ci -> In i refs ->
  exists it, items s1 i = Some it /\ ilinked it = false /\
    content it = (r_key r, r_val r ++ [13; 10]%N, r_flags r, r_exp r, r_cas r, false) /\ ikey it = r_key r.
Proof.
  intros S Hn. destruct (sim_kept _ _ _ _ _ _ _ _ _ _ it0 S (in_nil (a := i)) Hn Hi0 Hl0) as (it & A & B & D).
  exists it. rewrite HC0 in D. repeat split; auto. apply content_fields in D. tauto.
Qed.

Lemma sstep_store kind x ev st' orc : ev_ok st (Store h kind orc) (map fst ev) ->
  store_spec kind (sst st ev h) r x st' -> sstep st (Store h kind orc) x (map fst ev) st'.
Proof using E EP.
  intros A B. split; [exact A|]. cbn [effect]. change (spend (w_map _ _)) with (spend st). rewrite EP. exact B.
Qed.

Ltac same S := match type of S with Sim _ _ ?s' _ _ _ _ =>
  rewrite (S_ev _ _ _ _ _ _ _ _ _ S); exists (sst st [] h); split;
  [apply sstep_store; [apply ev_ok_nil|]; unfold store_spec; rewrite sst_look, gone_nil
  |eapply (fin_store_same s st s' [] (casid s)); [exact H|exact E|eapply sim_weaken; [exact S|intros ? []]|lia]] end.

(* replacing an existing entry with the request *)
Lemma do_replace s1 old oit : Sim base [] s1 (old :: refs_of s) (slook st) [] (casid s) ->
  items s1 old = Some oit -> ilinked oit = true -> ikey oit = r_key r ->
  exists st', stores (sst st [] h) (r_key r) (r_val r) (r_flags r) (r_exp r) false (cas_of (replace s1 old i) i) st' /\
    R (release (replace s1 old i) old) st' /\ evicted (release (replace s1 old i) old) = [].
Proof using H E Hi0 Hl0 HC0.
  intros S1 Ho Hlo Hk. destruct (keep _ _ _ _ _ S1 ltac:(right; exact Hin)) as (it & A & B & D & F).
  assert (S1' : Sim base [i] s1 (old :: refs_of s) (slook st) [] (casid s)) by (eapply sim_weaken; [exact S1|intros ? []]).
  destruct (sim_replace _ _ _ _ s1 _ _ _ _ old oit i it past S1' Ho Hlo (or_introl eq_refl) A B ltac:(congruence) (or_introl (or_introl eq_refl)))
    as [S2 EC].
  apply sim_release in S2. rewrite EC. rewrite (entry_new _ _ _ _ _ _ _ D), F in S2.
  destruct (fin_store_put s st _ [] h i (r_key r) _ _ _ H E S2) as (st' & ST & RR).
  exists st'. split; [exact ST|]. split; [exact RR|]. apply S2.
Qed.

Lemma do_link s1 s2 c : Sim base [] s1 (refs_of s) (slook st) [] (casid s) ->
  tfind (r_key r) (table s1) = None -> link s1 i = (s2, c) ->
  exists st', R s2 st' /\ evicted s2 = [] /\
   ((c = SUCCESS /\ stores (sst st [] h) (r_key r) (r_val r) (r_flags r) (r_exp r) false (cas_of s2 i) st') \/
    (c = ENAME /\ bad_prefix_name (r_key r) /\ st' = sst st [] h)).
Proof using H E Hi0 Hl0 HC0.
  intros S1 T L. destruct (keep _ _ _ _ _ S1 Hin) as (it & A & B & D & F).
  assert (S1' : Sim base [i] s1 (refs_of s) (slook st) [] (casid s)) by (eapply sim_weaken; [exact S1|intros ? []]).
  rewrite <- F in T.
  destruct (sim_link _ _ _ _ s1 _ _ _ _ i it s2 c past S1' A B (or_introl (or_introl eq_refl)) T L)
    as [(-> & EC & S2)|(-> & BP & S2)].
  - rewrite (entry_new _ _ _ _ _ _ _ D), F in S2. rewrite EC.
    destruct (fin_store_put s st _ [] h i (r_key r) _ _ _ H E S2) as (st' & ST & RR).
    exists st'. split; [exact RR|]. split; [apply S2|]. left. auto.
  - exists (sst st [] h). split; [eapply fin_store_same; [exact H|exact E|exact S2|lia]|]. split; [apply S2|]. right.
    rewrite <- F. auto.
Qed.

Lemma step_store_set s' x orc : store_set lru_class maxcls base i (r_key r) = (s', x) ->
  exists st', sstep st (Store h KSet orc) x (map fst (evicted s')) st' /\ R s' st'.
Proof using H E EP Hi0 Hl0 HC0.
  unfold store_set. destruct (do_get base (r_key r) false) as [s1 o] eqn:G.
  pose proof (sim_get _ _ _ _ _ _ _ _ _ _ _ _ _ S0 G) as K. destruct o as [old|].
  - destruct K as (oit & Ho & Hlo & Hk & V & F & S1 & _). rewrite Ho. destruct (icoll oit) eqn:C.
    + injection 1 as <- <-. apply sim_release in S1. same S1. rewrite F. cbn [entry_of e_coll]. rewrite C. auto.
    + destruct (do_replace s1 old oit S1 Ho Hlo Hk) as (st' & ST & RR & EV). injection 1 as <- <-.
      rewrite EV. exists st'. split; [|exact RR]. apply (sstep_store _ _ []); [apply ev_ok_nil|].
      unfold store_spec. rewrite sst_look, gone_nil, F. cbn [entry_of e_coll]. rewrite C. eauto.
  - destruct K as (F & S1 & T). destruct (link s1 i) as [s2 c] eqn:L. injection 1 as <- <-.
    destruct (do_link s1 s2 c S1 T L) as (st' & RR & EV & [(-> & ST)|(-> & BP & ->)]);
      rewrite EV; eexists; (split; [apply (sstep_store _ _ []); [apply ev_ok_nil|]|exact RR]);
      unfold store_spec; rewrite sst_look, gone_nil, F; eauto.
Qed.

Lemma step_store_add s' x orc : store_add lru_class maxcls base i (r_key r) = (s', x) ->
  exists st', sstep st (Store h KAdd orc) x (map fst (evicted s')) st' /\ R s' st'.
Proof using H E EP Hi0 Hl0 HC0.
  unfold store_add. destruct (do_get base (r_key r) false) as [s1 o] eqn:G.
  pose proof (sim_get _ _ _ _ _ _ _ _ _ _ _ _ _ S0 G) as K. destruct o as [old|].
  - destruct K as (oit & Ho & Hlo & Hk & V & F & S1 & _). rewrite Ho. destruct (icoll oit) eqn:C.
    + injection 1 as <- <-. apply sim_release in S1. same S1. rewrite F. cbn [entry_of e_coll]. rewrite C. auto.
    + injection 1 as <- <-.
      destruct (update_spec lru_class maxcls s1 old oit false (S_core _ _ _ _ _ _ _ _ _ S1) Ho Hlo (valid_notflushed _ _ V))
            as (Cu & it3 & U1 & U2 & U3 & U4 & U5 & U6 & U7 & U8 & U9 & U10 & U11).
      assert (S2 : Sim base [] (update s1 old false) (old :: refs_of s) (slook st) [] (casid s)).
      { eapply sim_one; [exact S1|exact Cu|exact Ho|exact U1|exact U7|exact U8|exact U9|exact U10|exact U2| | | |].
        - congruence.
        - auto.
        - pose proof (S_ref _ _ _ _ _ _ _ _ _ S1) as RI. eapply ref_one; [exact RI|exact U1|exact U7| |reflexivity|].
          + rewrite U4. apply (r_cnt _ _ RI). exact Ho.
          + rewrite U4. intro Z. destruct (r_zero _ _ RI _ _ Ho Z). auto.
        - apply incl_tl, incl_refl. }
      apply sim_release in S2. same S2. rewrite F. cbn [entry_of e_coll]. rewrite C. auto.
  - destruct K as (F & S1 & T). destruct (link s1 i) as [s2 c] eqn:L. injection 1 as <- <-.
    destruct (do_link s1 s2 c S1 T L) as (st' & RR & EV & [(-> & ST)|(-> & BP & ->)]);
      rewrite EV; eexists; (split; [apply (sstep_store _ _ []); [apply ev_ok_nil|]|exact RR]);
      unfold store_spec; rewrite sst_look, gone_nil, F; eauto.
Qed.

Lemma step_store_replace s' x orc : store_replace lru_class maxcls base i (r_key r) = (s', x) ->
  exists st', sstep st (Store h KReplace orc) x (map fst (evicted s')) st' /\ R s' st'.
Proof using H E EP Hi0 Hl0 HC0.
  unfold store_replace. destruct (do_get base (r_key r) false) as [s1 o] eqn:G.
  pose proof (sim_get _ _ _ _ _ _ _ _ _ _ _ _ _ S0 G) as K. destruct o as [old|].
  - destruct K as (oit & Ho & Hlo & Hk & V & F & S1 & _). rewrite Ho. destruct (icoll oit) eqn:C.
    + injection 1 as <- <-. apply sim_release in S1. same S1. rewrite F. cbn [entry_of e_coll]. rewrite C. auto.
    + destruct (do_replace s1 old oit S1 Ho Hlo Hk) as (st' & ST & RR & EV). injection 1 as <- <-.
      rewrite EV. exists st'. split; [|exact RR]. apply (sstep_store _ _ []); [apply ev_ok_nil|].
      unfold store_spec. rewrite sst_look, gone_nil, F. cbn [entry_of e_coll]. rewrite C. eauto.
  - destruct K as (F & S1 & T). injection 1 as <- <-. same S1. rewrite F. auto.
Qed.

Lemma step_store_cas s' x orc : store_cas lru_class maxcls base i (r_key r) = (s', x) ->
  exists st', sstep st (Store h KCas orc) x (map fst (evicted s')) st' /\ R s' st'.
Proof using H E EP Hi0 Hl0 HC0.
  unfold store_cas. destruct (do_get base (r_key r) false) as [s1 o] eqn:G.
  pose proof (sim_get _ _ _ _ _ _ _ _ _ _ _ _ _ S0 G) as K. destruct o as [old|].
  - destruct K as (oit & Ho & Hlo & Hk & V & F & S1 & _). rewrite Ho. destruct (icoll oit) eqn:C.
    + injection 1 as <- <-. apply sim_release in S1. same S1. rewrite F. cbn [entry_of e_coll]. rewrite C. auto.
    + destruct (keep _ _ _ _ _ S1 ltac:(right; exact Hin)) as (it & A & B & D & K).
      assert (EC : cas_of s1 i = r_cas r).
      { unfold cas_of. rewrite A. apply content_fields in D. tauto. }
      rewrite EC. destruct (N.eqb (r_cas r) (icas oit)) eqn:Q.
      * destruct (do_replace s1 old oit S1 Ho Hlo Hk) as (st' & ST & RR & EV). injection 1 as <- <-.
        rewrite EV. exists st'. split; [|exact RR]. apply (sstep_store _ _ []); [apply ev_ok_nil|].
        unfold store_spec. rewrite sst_look, gone_nil, F. cbn [entry_of e_coll e_cas]. rewrite C, Q. eauto.
      * injection 1 as <- <-. apply sim_release in S1. same S1. rewrite F. cbn [entry_of e_coll e_cas]. rewrite C, Q. auto.
  - destruct K as (F & S1 & T). injection 1 as <- <-. same S1. rewrite F. auto.
Qed.

Variable evict_on : bool.
Hypothesis RF : repaired s = false.

Lemma step_store_attach s' x orc append : store_attach lru_class maxcls evict_on base i (r_key r) append orc = (s', x) ->
  repaired s' = false ->
  exists st', sstep st (Store h (if append then KAppend else KPrepend) orc) x (map fst (evicted s')) st' /\ R s' st'.
Proof using H E EP Hi0 Hl0 HC0 RF.
  unfold store_attach. destruct (do_get base (r_key r) false) as [s1 o] eqn:G.
  pose proof (sim_get _ _ _ _ _ _ _ _ _ _ _ _ _ S0 G) as K. destruct o as [old|].
  2:{ destruct K as (F & S1 & T). injection 1 as <- <-. intros _. same S1. rewrite F. destruct append; auto. }
  destruct K as (oit & Ho & Hlo & Hk & V & F & S1 & _). rewrite Ho.
  destruct (keep _ _ _ _ _ S1 ltac:(right; exact Hin)) as (it & A & B & D & K). rewrite A.
  pose proof (content_fields _ _ _ _ _ _ _ D) as (D1 & D2 & D3 & D4 & D5 & D6).
  destruct (icoll oit) eqn:C.
  { injection 1 as <- <-. intros _. apply sim_release in S1. same S1. rewrite F. cbn [entry_of e_coll]. rewrite C. auto. }
  rewrite D5. destruct (negb (N.eqb (r_cas r) 0) && negb (N.eqb (r_cas r) (icas oit))) eqn:Q.
  { injection 1 as <- <-. intros _. apply sim_release in S1. same S1. rewrite F. cbn [entry_of e_coll e_cas]. rewrite C.
    replace (N.eqb (r_cas r) 0 || N.eqb (r_cas r) (icas oit)) with false
      by (destruct (N.eqb (r_cas r) 0), (N.eqb (r_cas r) (icas oit)); solve [reflexivity|discriminate]). destruct append; auto. }
  assert (Q' : N.eqb (r_cas r) 0 || N.eqb (r_cas r) (icas oit) = true)
    by (destruct (N.eqb (r_cas r) 0), (N.eqb (r_cas r) (icas oit)); solve [reflexivity|discriminate]).
  destruct (c_crlf _ _ _ (S_core _ _ _ _ _ _ _ _ _ S1) _ _ Ho C) as [ov Ov].
  set (nv := if append then ov ++ r_val r else r_val r ++ ov).
  match goal with |- context [KvModel.alloc _ _ _ s1 false _ _ _ ?dd] => set (d := dd) end.
  assert (Ed : d = nv ++ [13; 10]%N).
  { subst d nv. rewrite Ov, D2. fold (strip (ov ++ [13; 10]%N)). fold (strip (r_val r ++ [13; 10]%N)). rewrite !strip_crlf.
    destruct append; rewrite <- app_assoc; reflexivity. }
  rewrite Ed, D1. clear d Ed.
  destruct (KvModel.alloc _ _ _ s1 false _ _ _ _ _ orc) as [s2 a] eqn:AL. intros EX RF'.
  assert (RF2 : repaired s2 = false).
  { destruct a as [n|]; injection EX as <- <-; rewrite ?release_rep, ?replace_rep in RF'; exact RF'. }
  assert (SH : short (r_key r)) by (rewrite <- K; eapply (S_short _ _ _ _ _ _ _ _ _ S1); exact A).
  destruct (alloc_replace evict_on base [] s1 (refs_of s) (slook st) (casid s) old oit _ _ _ _ orc s2 a past S1 RF SH Ho Hlo Hk V AL RF2)
    as (EV1 & EV2 & RES).
  assert (EVO : ev_ok st (Store h (if append then KAppend else KPrepend) orc) (map fst (evicted s2))).
  { split; [destruct append; discriminate|]. intros k Hin'. apply in_map_iff in Hin' as ([k' j] & <- & Hin'). split; [eauto|].
    cbn [op_key fst]. rewrite EP. intro Z. injection Z as <-. eapply EV2. exact Hin'. }
  assert (GK : gone_keys (slook st) (evicted s2) (r_key r) = Some (entry_of oit)).
  { unfold gone_keys. destruct (existsb (beqb (r_key r)) (map fst (evicted s2))) eqn:Z; [|rewrite F; reflexivity].
    apply existsb_key in Z as [j Z]. exfalso. eapply EV2. exact Z. }
  assert (EVV : e_val (entry_of oit) = ov) by (unfold entry_of; cbn; rewrite C, Ov; apply strip_crlf).
  destruct a as [n|].
  - destruct RES as [S3 CC]. injection EX as <- <-. rewrite (S_ev _ _ _ _ _ _ _ _ _ S3).
    apply (sim_weaken _ _ _ _ [i]) in S3; [|intros ? []].
    destruct (fin_store_put s st _ (evicted s2) h i (r_key r) _ _ _ H E S3) as (st' & ST & RR).
    exists st'. split; [|exact RR]. apply sstep_store; [exact EVO|]. unfold store_spec. rewrite sst_look, GK.
    cbn [entry_of e_coll e_cas e_flags e_exp]. fold (entry_of oit). rewrite C, Q', CC. subst nv. 
    destruct append; right; eexists; (split; [reflexivity|]); rewrite EVV; exact ST.
  - injection EX as <- <-. rewrite (S_ev _ _ _ _ _ _ _ _ _ RES).
    exists (sst st (evicted s2) h). split.
    + apply sstep_store; [exact EVO|]. unfold store_spec. rewrite sst_look, GK.
      cbn [entry_of e_coll e_cas e_flags e_exp]. rewrite C, Q'. destruct append; auto.
    + eapply (fin_store_same s st _ (evicted s2) (casid s)); [exact H|exact E|eapply sim_weaken; [exact RES|intros ? []]|lia].
Qed.
End Store.
End S.
