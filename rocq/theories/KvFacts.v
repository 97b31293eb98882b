(* Facts about the map specification of the key-value commands. *)
From Coq Require Import Sorted.
From Verif Require Import Base UtilModel UtilSpec UtilProofs KvModel KvSpec KvProofs KvRefine KvFlush KvStep KvStep2 KvRun KvKeep KvStill.
Open Scope Z_scope.
Set Default Proof Using "Type".

(* ===== facts about the specification ===== *)

Lemma without_some m ev k e : without m ev k = Some e -> m k = Some e.
Proof. unfold without. destruct (existsb _ _); [discriminate|auto]. Qed.

Definition same_value (e e' : entry) : Prop :=
  e_val e' = e_val e /\ e_flags e' = e_flags e /\ e_cas e' = e_cas e /\ e_coll e' = e_coll e.

Lemma stores_entry st k v f ex b c st' k0 e' : stores st k v f ex b c st' -> smap st' k0 = Some e' ->
  smap st k0 = Some e' \/ (k0 = k /\ (scas st < e_cas e' <= scas st')%N).
Proof.
  intros [L ->]. cbn. unfold put. destruct (beqb k0 k) eqn:B; [|auto].
  intros [= <-]. right. apply beqb_eq in B. cbn. split; [exact B|lia].
Qed.

(* an entry after a step is an entry from before with the same value, or has a fresh cas *)
Lemma effect_entry st o x st' k e' : effect st o x st' -> smap st' k = Some e' ->
  (exists e, smap st k = Some e /\ same_value e e' /\ (e_exp e' = e_exp e \/ o = SetExp k (e_exp e'))) \/
  (op_key st o = Some k /\ (scas st < e_cas e' <= scas st')%N).
Proof.
  intros E S.
  assert (K : smap st k = Some e' -> exists e, smap st k = Some e /\ same_value e e' /\ (e_exp e' = e_exp e \/ o = SetExp k (e_exp e'))).
  { intro. exists e'. unfold same_value. auto 10. }
  assert (ST : forall k1 v f ex b c, stores st k1 v f ex b c st' -> op_key st o = Some k1 ->
     (exists e, smap st k = Some e /\ same_value e e' /\ (e_exp e' = e_exp e \/ o = SetExp k (e_exp e'))) \/
     (op_key st o = Some k /\ (scas st < e_cas e' <= scas st')%N)).
  { intros k1 v f ex b c T O. destruct (stores_entry _ _ _ _ _ _ _ _ _ _ T S) as [Z|[-> Z]]; auto. }
  destruct o; cbn [effect] in E.
  - destruct E as [_ ->]. auto.
  - destruct E as [[_ ->]|[_ ->]]; auto.
  - destruct (nth_error (spend st) h) as [[r|]|] eqn:N; [|destruct E as [_ ->]; auto|destruct E as [_ ->]; auto].
    assert (OK : op_key st (Store h kind orc) = Some (r_key r)) by (cbn; rewrite N; reflexivity).
    set (s1 := w_pend st (set_nth h None (spend st))) in E.
    assert (ST' : forall v f ex b c, stores s1 (r_key r) v f ex b c st' ->
      (exists e, smap st k = Some e /\ same_value e e' /\ (e_exp e' = e_exp e \/ Store h kind orc = SetExp k (e_exp e'))) \/
      (op_key st (Store h kind orc) = Some k /\ (scas st < e_cas e' <= scas st')%N)).
    { intros v f ex b c T. destruct (stores_entry _ _ _ _ _ _ _ _ _ _ T S) as [Z|[-> Z]]; auto. }
    assert (KS : st' = s1 -> exists e, smap st k = Some e /\ same_value e e' /\ (e_exp e' = e_exp e \/ Store h kind orc = SetExp k (e_exp e'))).
    { intros ->. auto. }
    clearbody s1. unfold store_spec in E. destruct (slook s1 (r_key r)) as [e0|].
    + destruct (e_coll e0); [destruct E as [_ E]; auto|].
      destruct kind; try (destruct E as (c & _ & E); eapply ST'; exact E).
      * destruct E as [_ E]; auto.
      * destruct (_ =? _)%N; [destruct E as (c & _ & E); eapply ST'; exact E|destruct E as [_ E]; auto].
      * destruct (_ || _); [|destruct E as [_ E]; auto]. destruct E as [[_ E]|(c & _ & E)]; [auto|eapply ST'; exact E].
      * destruct (_ || _); [|destruct E as [_ E]; auto]. destruct E as [[_ E]|(c & _ & E)]; [auto|eapply ST'; exact E].
    + destruct kind; try (destruct E as [_ E]; auto; fail).
      * destruct E as [(c & _ & E)|(_ & _ & E)]; [eapply ST'; exact E|auto].
      * destruct E as [(c & _ & E)|(_ & _ & E)]; [eapply ST'; exact E|auto].
  - destruct (slook st k0); [destruct (e_coll e)|]; destruct E as [_ ->]; auto.
  - destruct E as [_ ->]; auto.
  - destruct (slook st k0) as [e0|].
    + destruct (e_coll e0); [destruct E as [_ ->]; auto|].
      destruct E as [(_ & _ & ->)|(v & _ & [[_ ->]|(c & _ & E)])]; auto. eapply ST; [exact E|reflexivity].
    + destruct create; [|destruct E as [_ ->]; auto].
      destruct E as [[_ ->]|[(_ & _ & ->)|(c & _ & E)]]; auto. eapply ST; [exact E|reflexivity].
  - destruct (slook st k0); [|destruct E as [_ ->]; auto].
    destruct (_ || _); destruct E as [_ ->]; auto. cbn in S. unfold put in S. destruct (beqb k k0); [discriminate|auto].
  - destruct (slook st k0) as [e0|] eqn:L; [|destruct E as [_ ->]; auto].
    destruct (Bool.eqb _ _); destruct E as [_ ->]; auto. cbn in S. unfold put in S.
    destruct (beqb k k0) eqn:B; [|auto]. apply beqb_eq in B as ->. injection S as <-. left.
    unfold slook in L. destruct (smap st k0) as [e1|] eqn:M; [|discriminate]. destruct (alive _ _); [|discriminate].
    injection L as ->. exists e0. unfold same_value. cbn. auto 10.
  - destruct (slook st k0); destruct E as [_ ->]; auto.
  - destruct E as [_ ->]. discriminate S.
  - destruct E as [(_ & _ & _ & _ & E1 & E2)|(_ & _ & ->)]; [|auto].
    left. destruct (smap st k) as [e|] eqn:M; [|].
    + assert (NH : ~ has_prefix k p) by (intro Z; rewrite (E1 k Z) in S; discriminate).
      rewrite (E2 k NH), M in S. injection S as <-. exists e. unfold same_value. auto 10.
    + assert (NH : ~ has_prefix k p) by (intro Z; rewrite (E1 k Z) in S; discriminate).
      rewrite (E2 k NH), M in S. discriminate.
  - destruct (slook st k0); [destruct E as [_ ->]; auto|].
    destruct E as [[_ ->]|[(_ & _ & ->)|(c & _ & E)]]; auto. eapply ST; [exact E|reflexivity].
Qed.

Lemma effect_cas st o x st' : effect st o x st' -> (scas st <= scas st')%N /\ snow st <= snow st'.
Proof.
  intro E.
  assert (ST : forall s1 k1 v f ex b c, scas s1 = scas st -> snow s1 = snow st -> stores s1 k1 v f ex b c st' -> (scas st <= scas st')%N /\ snow st <= snow st').
  { intros s1 k1 v f ex b c A B [L ->]. cbn. rewrite <- A, <- B. split; lia. }
  assert (KS : forall s1, scas s1 = scas st -> snow s1 = snow st -> st' = s1 -> (scas st <= scas st')%N /\ snow st <= snow st').
  { intros s1 A B ->. rewrite A, B. split; lia. }
  destruct o; cbn [effect] in E.
  - destruct E as [_ ->]. cbn. lia.
  - destruct E as [[_ ->]|[_ ->]]; cbn; lia.
  - destruct (nth_error (spend st) h) as [[r|]|] eqn:N; [|destruct E as [_ ->]; lia|destruct E as [_ ->]; lia].
    set (s1 := w_pend st (set_nth h None (spend st))) in E.
    assert (A1 : scas s1 = scas st) by reflexivity. assert (A2 : snow s1 = snow st) by reflexivity.
    clearbody s1. unfold store_spec in E. destruct (slook s1 (r_key r)) as [e0|].
    + destruct (e_coll e0); [destruct E as [_ E]; eauto|].
      destruct kind; try (destruct E as (c & _ & E); eauto; fail).
      * destruct E as [_ E]; eauto.
      * destruct (_ =? _)%N; [destruct E as (c & _ & E)|destruct E as [_ E]]; eauto.
      * destruct (_ || _); [|destruct E as [_ E]; eauto]. destruct E as [[_ E]|(c & _ & E)]; eauto.
      * destruct (_ || _); [|destruct E as [_ E]; eauto]. destruct E as [[_ E]|(c & _ & E)]; eauto.
    + destruct kind; try (destruct E as [_ E]; eauto; fail).
      * destruct E as [(c & _ & E)|(_ & _ & E)]; eauto.
      * destruct E as [(c & _ & E)|(_ & _ & E)]; eauto.
  - destruct (slook st k); [destruct (e_coll e)|]; destruct E as [_ ->]; cbn; lia.
  - destruct E as [_ ->]; cbn; lia.
  - destruct (slook st k) as [e0|].
    + destruct (e_coll e0); [destruct E as [_ ->]; lia|].
      destruct E as [(_ & _ & ->)|(v & _ & [[_ ->]|(c & _ & E)])]; try lia. eauto.
    + destruct create; [|destruct E as [_ ->]; lia].
      destruct E as [[_ ->]|[(_ & _ & ->)|(c & _ & E)]]; try lia. eauto.
  - destruct (slook st k); [destruct (_ || _)|]; destruct E as [_ ->]; cbn; lia.
  - destruct (slook st k); [destruct (Bool.eqb _ _)|]; destruct E as [_ ->]; cbn; lia.
  - destruct (slook st k); destruct E as [_ ->]; cbn; lia.
  - destruct E as [_ ->]. cbn; lia.
  - destruct E as [(_ & A & B & _)|(_ & _ & ->)]; lia.
  - destruct (slook st k); [destruct E as [_ ->]; lia|].
    destruct E as [[_ ->]|[(_ & _ & ->)|(c & _ & E)]]; try lia. eauto.
Qed.

Lemma op_key_wmap st m o : op_key (w_map st m) o = op_key st o.
Proof. reflexivity. Qed.

Lemma sstep_entry st o x ev st' k e' : sstep st o x ev st' -> smap st' k = Some e' ->
  (exists e, smap st k = Some e /\ same_value e e' /\ (e_exp e' = e_exp e \/ o = SetExp k (e_exp e'))) \/
  (op_key st o = Some k /\ (scas st < e_cas e' <= scas st')%N).
Proof.
  intros [_ E] S. destruct (effect_entry _ _ _ _ _ _ E S) as [(e & A & B)|Z]; [|right; exact Z].
  left. exists e. split; [eapply without_some; exact A|exact B].
Qed.
Lemma sstep_cas st o x ev st' : sstep st o x ev st' -> (scas st <= scas st')%N /\ snow st <= snow st'.
Proof. intros [_ E]. apply (effect_cas _ _ _ _ E). Qed.

Lemma sruns_cas st ops xs st' : sruns st ops xs st' -> (scas st <= scas st')%N /\ snow st <= snow st'.
Proof. induction 1; [lia|]. apply sstep_cas in H. lia. Qed.

Lemma sruns_entry st ops xs st' : sruns st ops xs st' -> forall k e', smap st' k = Some e' ->
  (exists e, smap st k = Some e /\ same_value e e') \/ (scas st < e_cas e' <= scas st')%N.
Proof.
  induction 1; intros k e' S.
  - left. exists e'. unfold same_value. auto.
  - pose proof (sstep_cas _ _ _ _ _ H). pose proof (sruns_cas _ _ _ _ H0).
    destruct (IHsruns k e' S) as [(e & A & B)|Z]; [|right; lia].
    destruct (sstep_entry _ _ _ _ _ _ _ H A) as [(e1 & A1 & B1 & _)|[_ Z]].
    + left. exists e1. split; [exact A1|]. unfold same_value in *. intuition congruence.
    + right. unfold same_value in B. destruct B as (_ & _ & Q & _). rewrite Q. lia.
Qed.

Lemma cas_bound ops xs st : sruns empty_cache ops xs st -> forall k e, smap st k = Some e -> (0 < e_cas e <= scas st)%N.
Proof. intros H k e S. destruct (sruns_entry _ _ _ _ H k e S) as [(e0 & A & _)|Z]; [discriminate|exact Z]. Qed.

Lemma slook_smap st k e : slook st k = Some e -> smap st k = Some e.
Proof. unfold slook. destruct (smap st k); [destruct (alive _ _); congruence|discriminate]. Qed.

Definition answer_cas (x : out) : option N :=
  match x with OVal _ _ c | OStored c | ONum _ c => Some c | _ => None end.

Lemma sstep_answer st o x ev st' c : sstep st o x ev st' -> answer_cas x = Some c ->
  (exists k e, smap st k = Some e /\ e_cas e = c) \/ (c <= scas st')%N.
Proof.
  intros [_ E] A. set (s0 := w_map st _) in E.
  assert (B : (exists k e, smap s0 k = Some e /\ e_cas e = c) \/ (c <= scas st')%N).
  2:{ destruct B as [(k & e & B1 & B2)|B]; [|auto]. left. exists k, e. split; [eapply without_some; exact B1|exact B2]. }
  clearbody s0.
  assert (ST : forall s1 k1 v f ex b c1, stores s1 k1 v f ex b c1 st' -> Some c1 = Some c -> (c <= scas st')%N).
  { intros s1 k1 v f ex b c1 [L ->] [= ->]. cbn. lia. }
  destruct o; cbn [effect] in E.
  - destruct E as [-> _]; discriminate.
  - destruct E as [[-> _]|[-> _]]; discriminate.
  - right. destruct (nth_error (spend s0) h) as [[r|]|] eqn:N; [|destruct E as [-> _]; discriminate|destruct E as [-> _]; discriminate].
    unfold store_spec in E. destruct (slook _ (r_key r)) as [e0|].
    + destruct (e_coll e0); [destruct E as [-> _]; discriminate|].
      destruct kind; try (destruct E as (c1 & -> & E); eapply ST; [exact E|exact A]).
      * destruct E as [-> _]; discriminate.
      * destruct (_ =? _)%N; [destruct E as (c1 & -> & E); eapply ST; [exact E|exact A]|destruct E as [-> _]; discriminate].
      * destruct (_ || _); [|destruct E as [-> _]; discriminate]. destruct E as [[-> E]|(c1 & -> & E)]; [discriminate|eapply ST; [exact E|exact A]].
      * destruct (_ || _); [|destruct E as [-> _]; discriminate]. destruct E as [[-> E]|(c1 & -> & E)]; [discriminate|eapply ST; [exact E|exact A]].
    + destruct kind; try (destruct E as [-> _]; discriminate).
      * destruct E as [(c1 & -> & E)|(-> & _ & E)]; [eapply ST; [exact E|exact A]|discriminate].
      * destruct E as [(c1 & -> & E)|(-> & _ & E)]; [eapply ST; [exact E|exact A]|discriminate].
  - left. destruct (slook s0 k) as [e|] eqn:L; [destruct (e_coll e)|]; destruct E as [-> _]; try discriminate.
    injection A as <-. exists k, e. split; [apply slook_smap; exact L|reflexivity].
  - destruct E as [-> _]; discriminate.
  - right. destruct (slook s0 k) as [e0|].
    + destruct (e_coll e0); [destruct E as [-> _]; discriminate|].
      destruct E as [(-> & _ & _)|(v & _ & [[-> _]|(c1 & -> & E)])]; try discriminate. eapply ST; [exact E|exact A].
    + destruct create; [|destruct E as [-> _]; discriminate].
      destruct E as [[-> _]|[(-> & _ & _)|(c1 & -> & E)]]; try discriminate. eapply ST; [exact E|exact A].
  - destruct (slook s0 k); [destruct (_ || _)|]; destruct E as [-> _]; discriminate.
  - destruct (slook s0 k); [destruct (Bool.eqb _ _)|]; destruct E as [-> _]; discriminate.
  - destruct (slook s0 k); destruct E as [-> _]; discriminate.
  - destruct E as [-> _]; discriminate.
  - destruct E as [(-> & _)|(-> & _)]; discriminate.
  - destruct (slook s0 k); [destruct E as [-> _]; discriminate|].
    destruct E as [[-> _]|[(-> & _ & _)|(c1 & -> & E)]]; discriminate.
Qed.

Lemma answers_cas ops xs st0 st : sruns st0 ops xs st -> (forall k e, smap st0 k = Some e -> (e_cas e <= scas st0)%N) ->
  forall x ev c, In (x, ev) xs -> answer_cas x = Some c -> (c <= scas st)%N.
Proof.
  induction 1 as [|st0 o x0 ev0 st1 ops xs st2 H H0 IH]; intros B x ev c I A; [destruct I|].
  pose proof (sstep_cas _ _ _ _ _ H). pose proof (sruns_cas _ _ _ _ H0).
  destruct I as [[= -> ->]|I].
  - destruct (sstep_answer _ _ _ _ _ _ H A) as [(k & e & A1 & A2)|Z]; [|lia]. specialize (B k e A1). lia.
  - apply (IH) with (c := c) in I; auto. intros k e S.
    destruct (sstep_entry _ _ _ _ _ _ _ H S) as [(e1 & A1 & (_ & _ & Q & _) & _)|[_ Z]]; [|lia].
    specialize (B k e1 A1). rewrite Q. lia.
Qed.

Lemma effect_now st o x st' : effect st o x st' -> (forall d, o <> Tick d) -> snow st' = snow st.
Proof.
  intros E NT.
  assert (ST : forall s1 k1 v f ex b c, snow s1 = snow st -> stores s1 k1 v f ex b c st' -> snow st' = snow st).
  { intros s1 k1 v f ex b c A [L ->]. exact A. }
  destruct o; cbn [effect] in E.
  - destruct (NT _ eq_refl).
  - destruct E as [[_ ->]|[_ ->]]; reflexivity.
  - destruct (nth_error (spend st) h) as [[r|]|] eqn:N; [|destruct E as [_ ->]; reflexivity|destruct E as [_ ->]; reflexivity].
    set (s1 := w_pend st (set_nth h None (spend st))) in E.
    assert (A1 : snow s1 = snow st) by reflexivity.
    assert (KS : st' = s1 -> snow st' = snow st) by (intros ->; exact A1).
    clearbody s1. unfold store_spec in E. destruct (slook s1 (r_key r)) as [e0|].
    + destruct (e_coll e0); [destruct E as [_ E]; eauto|].
      destruct kind; try (destruct E as (c & _ & E); eauto; fail).
      * destruct E as [_ E]; eauto.
      * destruct (_ =? _)%N; [destruct E as (c & _ & E)|destruct E as [_ E]]; eauto.
      * destruct (_ || _); [|destruct E as [_ E]; eauto]. destruct E as [[_ E]|(c & _ & E)]; eauto.
      * destruct (_ || _); [|destruct E as [_ E]; eauto]. destruct E as [[_ E]|(c & _ & E)]; eauto.
    + destruct kind; try (destruct E as [_ E]; eauto; fail).
      * destruct E as [(c & _ & E)|(_ & _ & E)]; eauto.
      * destruct E as [(c & _ & E)|(_ & _ & E)]; eauto.
  - destruct (slook st k); [destruct (e_coll e)|]; destruct E as [_ ->]; reflexivity.
  - destruct E as [_ ->]; reflexivity.
  - destruct (slook st k) as [e0|].
    + destruct (e_coll e0); [destruct E as [_ ->]; reflexivity|].
      destruct E as [(_ & _ & ->)|(v & _ & [[_ ->]|(c & _ & E)])]; eauto.
    + destruct create; [|destruct E as [_ ->]; reflexivity].
      destruct E as [[_ ->]|[(_ & _ & ->)|(c & _ & E)]]; eauto.
  - destruct (slook st k); [destruct (_ || _)|]; destruct E as [_ ->]; reflexivity.
  - destruct (slook st k); [destruct (Bool.eqb _ _)|]; destruct E as [_ ->]; reflexivity.
  - destruct (slook st k); destruct E as [_ ->]; reflexivity.
  - destruct E as [_ ->]. reflexivity.
  - destruct E as [(_ & A & B & _)|(_ & _ & ->)]; [exact A|reflexivity].
  - destruct (slook st k); [destruct E as [_ ->]; reflexivity|].
    destruct E as [[_ ->]|[(_ & _ & ->)|(c & _ & E)]]; eauto.
Qed.
