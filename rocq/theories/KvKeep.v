(* What operations never change in an item, and the order in which items are evicted. *)
From Coq Require Import Permutation Sorted.
From Verif Require Import Base UtilModel KvModel KvProofs KvStep2.
Open Scope Z_scope.
Set Default Proof Using "Type".

Section K.
Variable T : Type.
Variable pr : item -> T.
(* item numbers are never reused and the projection of an item never changes *)
Definition keeps (s s' : state) : Prop :=
  (next_id s <= next_id s')%nat /\
  forall i it', items s' i = Some it' ->
    (next_id s <= i)%nat \/ exists it, items s i = Some it /\ pr it' = pr it.

Lemma keeps_refl s : keeps s s.
Proof. split; [lia|]. intros i it H. right. eauto. Qed.
Lemma keeps_trans s s1 s2 : keeps s s1 -> keeps s1 s2 -> keeps s s2.
Proof.
  intros [A B] [D E]. split; [lia|]. intros i it H. destruct (E i it H) as [Z|(x & X1 & X2)]; [left; lia|].
  destruct (B i x X1) as [Z|(y & Y1 & Y2)]; [left; exact Z|]. right. exists y. split; congruence.
Qed.
Lemma keeps_same s s' : items s' = items s -> next_id s' = next_id s -> keeps s s'.
Proof. intros A B. split; [lia|]. rewrite A. intros; right; eauto. Qed.
Lemma keeps_set s i it it' : items s i = Some it -> pr it' = pr it -> keeps s (set_item s i it').
Proof.
  intros H E. split; [cbn; lia|]. intros j x. cbn. unfold fset. destruct (Nat.eqb j i) eqn:Q.
  - intro Z. injection Z as <-. right. exists it. apply Nat.eqb_eq in Q. subst j. auto.
  - right. eauto.
Qed.
Lemma keeps_del s i : keeps s (w_items s (fset (items s) i None)).
Proof.
  split; [cbn; lia|]. intros j x. cbn. unfold fset. destruct (Nat.eqb j i) eqn:Q; [discriminate|]. right. eauto.
Qed.
Lemma keeps_upd s s1 i it it' : items s1 = items s -> next_id s1 = next_id s -> items s i = Some it -> pr it' = pr it ->
  keeps s (set_item s1 i it').
Proof. intros A B H E. eapply keeps_trans; [apply keeps_same; eassumption|]. apply (keeps_set _ _ it); congruence. Qed.
Lemma keeps_post s s1 s2 : keeps s s1 -> items s2 = items s1 -> next_id s2 = next_id s1 -> keeps s s2.
Proof. intros K A B. eapply keeps_trans; [exact K|apply keeps_same; assumption]. Qed.

Variable lru_class : bool -> bytes -> bytes -> nat.
Variable maxcls : nat.
Notation unlink := (unlink lru_class maxcls).
Notation unlink_q := (unlink_q lru_class maxcls).
Notation link_q := (link_q lru_class maxcls).

Hypothesis H1 : forall it, (forall b, pr (set_linked it b) = pr it) /\ (forall b, pr (set_inlru it b) = pr it) /\
  (forall n, pr (set_ref it n) = pr it).

Lemma link_q_keeps s i : keeps s (link_q s i).
Proof using H1.
  unfold KvModel.link_q. destruct (items s i) as [it|] eqn:E; [|apply keeps_same; reflexivity].
  destruct (inlru it); [apply keeps_same; reflexivity|].
  match goal with |- keeps s (put_lru (set_item ?x _ _) _ _ _) => set (s1 := x) end.
  assert (A : items s1 = items s /\ next_id s1 = next_id s)
    by (subst s1; destruct (negb (is_sticky it) && (0 <? iexp it)); [destruct (lowmk s _)|]; split; reflexivity).
  eapply keeps_post; [apply (keeps_upd s s1 i it (set_inlru it true)); try tauto; apply H1|reflexivity|reflexivity].
Qed.
Lemma unlink_q_keeps s i : keeps s (unlink_q s i).
Proof using H1.
  unfold KvModel.unlink_q. destruct (items s i) as [it|] eqn:E; [|apply keeps_same; reflexivity].
  destruct (negb (inlru it)); [apply keeps_refl|].
  destruct (negb (existsb _ _)); [apply keeps_same; reflexivity|].
  match goal with |- keeps s (put_lru (set_item ?x _ _) _ _ _) => set (s1 := x) end.
  assert (A : items s1 = items s /\ next_id s1 = next_id s)
    by (subst s1; destruct (is_sticky it); [destruct (onat_eqb _ _)|]; split; reflexivity).
  eapply keeps_post; [apply (keeps_upd s s1 i it (set_inlru it false)); try tauto; apply H1|reflexivity|reflexivity].
Qed.
Lemma free_keeps s i : keeps s (free s i).
Proof. unfold free. destruct (items s i); [destruct (_ || _)|]; try (apply keeps_same; reflexivity). apply keeps_del. Qed.
Lemma drop_keeps s p : keeps s (drop_prefix s p).
Proof. unfold drop_prefix. destruct p; [destruct (pfx_exists _ _)|]; apply keeps_same; reflexivity. Qed.
Lemma detach_keeps s i : keeps s (detach s i).
Proof using H1.
  unfold detach. destruct (items s i) as [it|] eqn:E; [|apply keeps_same; reflexivity].
  eapply keeps_trans; [|apply drop_keeps]. apply (keeps_upd s _ i it); try reflexivity; [exact E|apply H1].
Qed.
Lemma unlink_keeps s i : keeps s (unlink s i).
Proof using H1.
  unfold KvModel.unlink. destruct (items s i) as [it|]; [|apply keeps_same; reflexivity].
  destruct (negb _); [apply keeps_refl|].
  assert (A : keeps s (detach (unlink_q s i) i)) by (eapply keeps_trans; [apply unlink_q_keeps|apply detach_keeps]).
  destruct (Nat.eqb _ _); [eapply keeps_trans; [exact A|apply free_keeps]|exact A].
Qed.
Lemma evict_keeps s i : keeps s (evict lru_class maxcls s i).
Proof using H1.
  unfold evict. destruct (items s i); [|apply keeps_same; reflexivity].
  eapply keeps_trans; [|apply unlink_keeps]. apply keeps_same; reflexivity.
Qed.
Lemma repair_keeps s i : keeps s (repair lru_class maxcls s i).
Proof using H1.
  unfold repair. destruct (items s i) eqn:E; [|apply keeps_same; reflexivity].
  eapply keeps_trans; [|apply unlink_keeps]. eapply keeps_post; [|reflexivity|reflexivity]. eapply keeps_set; [exact E|apply H1].
Qed.
Lemma reclaim_keeps s i c ora s' g o' : reclaim lru_class maxcls s i c ora = (s', g, o') -> keeps s s'.
Proof using H1.
  unfold reclaim. destruct (Nat.eqb c 0); [destruct (popb ora)|]; injection 1 as <- _ _; apply unlink_keeps.
Qed.
Lemma invalidate_keeps s o : keeps s (invalidate_if_dead lru_class maxcls s o).
Proof using H1.
  destruct o as [i|]; cbn; [|apply keeps_refl]. destruct (items s i); [|apply keeps_same; reflexivity].
  destruct (dead s i); [apply unlink_keeps|apply keeps_refl].
Qed.
Lemma regain_keeps n : forall l s, keeps s (regain lru_class maxcls n l s).
Proof using H1.
  induction n as [|n IH]; intros [|i l] s; cbn [regain]; try apply keeps_refl.
  destruct (items s i) as [it|]; [|apply keeps_same; reflexivity]. eapply keeps_trans; [|apply IH].
  destruct (Nat.eqb _ _); [destruct (isvalid s it); [apply evict_keeps|apply unlink_keeps]|apply unlink_q_keeps].
Qed.
Lemma sticky_keeps n : forall s c ora s' g o', sticky_loop lru_class maxcls n s c ora = (s', g, o') -> keeps s s'.
Proof using H1.
  induction n as [|n IH]; intros s c ora s' g o'; cbn [sticky_loop]; [injection 1 as <- _ _; apply keeps_refl|].
  destruct (smk s c); [|injection 1 as <- _ _; apply keeps_refl].
  destruct (items s n0); [|injection 1 as <- _ _; apply keeps_same; reflexivity].
  match goal with |- context [dead ?x _] => set (s1 := x) end.
  assert (A : keeps s s1) by (apply keeps_same; reflexivity).
  destruct (dead s1 n0).
  - destruct (reclaim _ _ s1 n0 c ora) as [[s2 got] o2] eqn:RC. apply reclaim_keeps in RC.
    destruct got; [injection 1 as <- _ _; eauto 4 using keeps_trans|].
    intro E. apply IH in E. eapply keeps_trans; [|exact E]. eauto 4 using keeps_trans.
  - intro E. apply IH in E. eauto 4 using keeps_trans.
Qed.
Lemma step2_keeps n : forall s c ora s' g o', step2_loop lru_class maxcls n s c ora = (s', g, o') -> keeps s s'.
Proof using H1.
  induction n as [|n IH]; intros s c ora s' g o'; cbn [step2_loop]; [injection 1 as <- _ _; apply keeps_refl|].
  destruct (curmk s c); [|injection 1 as <- _ _; apply keeps_refl].
  destruct (items s n0); [|injection 1 as <- _ _; apply keeps_same; reflexivity].
  match goal with |- context [dead ?x _] => set (s1 := x) end.
  assert (A : keeps s s1) by (apply keeps_same; reflexivity).
  destruct (dead s1 n0).
  - destruct (reclaim _ _ s1 n0 c ora) as [[s2 got] o2] eqn:RC. apply reclaim_keeps in RC.
    destruct got; [injection 1 as <- _ _; eauto 4 using keeps_trans|].
    intro E. apply IH in E. eapply keeps_trans; [|exact E]. eauto 4 using keeps_trans.
  - intro E. apply IH in E. eauto 4 using keeps_trans.
Qed.
Lemma step1_keeps n : forall s c se pv ora s' g p t o',
  step1_loop lru_class maxcls n s c se pv ora = (s', g, p, t, o') -> keeps s s'.
Proof using H1.
  induction n as [|n IH]; intros s c se pv ora s' g p t o'; cbn [step1_loop]; [injection 1 as <- _ _ _; apply keeps_refl|].
  destruct se as [i|]; [|injection 1 as <- _ _ _; apply keeps_refl].
  destruct (onat_eqb _ _); [injection 1 as <- _ _ _; apply keeps_refl|].
  destruct (items s i); [|injection 1 as <- _ _ _; apply keeps_same; reflexivity].
  destruct (dead s i).
  - destruct (reclaim _ _ s i c ora) as [[s2 got] o2] eqn:RC. apply reclaim_keeps in RC.
    destruct got; [injection 1 as <- _ _ _; exact RC|].
    intro E. apply IH in E. eauto 4 using keeps_trans.
  - intro E. apply IH in E. eapply keeps_trans; [|exact E]. destruct (_ && _); apply keeps_same; reflexivity.
Qed.
Lemma evict_loop_keeps n : forall l s c ora s' g o', evict_loop lru_class maxcls n l s c ora = (s', g, o') -> keeps s s'.
Proof using H1.
  induction n as [|n IH]; intros [|i l] s c ora s' g o'; cbn [evict_loop]; try (injection 1 as <- _ _; apply keeps_refl).
  destruct (items s i) as [it|]; [|injection 1 as <- _ _; apply keeps_same; reflexivity].
  destruct (Nat.eqb _ _).
  - destruct (isvalid s it).
    + destruct (popb ora) as [b r]. pose proof (evict_keeps s i) as K.
      destruct b; [injection 1 as <- _ _; exact K|]. intro E. apply IH in E. eauto 4 using keeps_trans.
    + destruct (reclaim _ _ s i c ora) as [[s2 got] o2] eqn:RC. apply reclaim_keeps in RC.
      destruct got; [injection 1 as <- _ _; exact RC|]. intro E. apply IH in E. eauto 4 using keeps_trans.
  - intro E. apply IH in E. eapply keeps_trans; [apply unlink_q_keeps|exact E].
Qed.
Lemma repair_loop_keeps n : forall l s ora s' g o', repair_loop lru_class maxcls n l s ora = (s', g, o') -> keeps s s'.
Proof using H1.
  induction n as [|n IH]; intros [|i l] s ora s' g o'; cbn [repair_loop]; try (injection 1 as <- _ _; apply keeps_refl).
  destruct (items s i) as [it|]; [|injection 1 as <- _ _; apply keeps_same; reflexivity].
  destruct (_ && _).
  - destruct (popb ora) as [b r]. pose proof (repair_keeps s i) as K.
    destruct b; [injection 1 as <- _ _; exact K|]. intro E. apply IH in E. eauto 4 using keeps_trans.
  - apply IH.
Qed.
Lemma mem_reclaim_keeps s c ora s' g o' : mem_reclaim lru_class maxcls s c ora = (s', g, o') -> keeps s s'.
Proof using H1.
  unfold mem_reclaim. destruct (curmk s c); [|injection 1 as <- _ _; apply keeps_refl].
  destruct (lowmk s c) eqn:L; [|injection 1 as <- _ _; apply keeps_same; reflexivity].
  destruct (step1_loop _ _ 10 s c _ None ora) as [[[[s1 g1] p] t] o1] eqn:E1. apply step1_keeps in E1.
  destruct g1.
  { injection 1 as <- _ _. eapply keeps_trans; [exact E1|apply invalidate_keeps]. }
  destruct (step2_loop _ _ _ s1 c o1) as [[s2 g2] o2] eqn:E2. apply step2_keeps in E2.
  match goal with |- context [invalidate_if_dead _ _ ?x _] => set (s3 := x) end.
  assert (A : keeps s s3).
  { eapply keeps_trans; [exact E1|]. eapply keeps_trans; [exact E2|]. subst s3. destruct (curmk s2 c); apply keeps_same; reflexivity. }
  destruct g2; injection 1 as <- _ _; [eapply keeps_trans; [exact A|apply invalidate_keeps]|exact A].
Qed.
Variable evict_on : bool.
Lemma mem_alloc_keeps s c o s' g : mem_alloc lru_class maxcls evict_on s c o = (s', g) -> keeps s s'.
Proof using H1.
  unfold mem_alloc. match goal with |- context [sticky_loop _ _ 10 ?x] => set (s0 := x) end.
  assert (A : keeps s s0) by (subst s0; destruct (_ && _); [apply regain_keeps|apply keeps_refl]). clearbody s0.
  destruct (sticky_loop _ _ 10 s0 c _) as [[s1 g1] o1] eqn:E1. apply sticky_keeps in E1.
  assert (A1 : keeps s s1) by (eauto 4 using keeps_trans).
  destruct g1; [injection 1 as <- _; eapply keeps_trans; [exact A1|apply invalidate_keeps]|].
  destruct (mem_reclaim _ _ s1 c o1) as [[s2 g2] o2] eqn:E2. apply mem_reclaim_keeps in E2.
  assert (A2 : keeps s s2) by (eauto 4 using keeps_trans).
  destruct g2; [injection 1 as <- _; exact A2|]. destruct (popb o2) as [b o3].
  destruct b; [injection 1 as <- _; exact A2|]. destruct (negb evict_on); [injection 1 as <- _; exact A2|].
  destruct (evict_loop _ _ 200 _ s2 c o3) as [[s4 g4] o4] eqn:E4. apply evict_loop_keeps in E4.
  assert (A4 : keeps s s4) by (eauto 4 using keeps_trans).
  destruct g4; [injection 1 as <- _; exact A4|]. destruct (Nat.eqb c 0); [injection 1 as <- _; exact A4|].
  destruct (repair_loop _ _ 50 _ s4 o4) as [[s5 g5] o5] eqn:E5. apply repair_loop_keeps in E5.
  injection 1 as <- _. eauto 4 using keeps_trans.
Qed.
Lemma alloc_keeps s coll key fl ex d cas o s' a : alloc lru_class maxcls evict_on s coll key fl ex d cas o = (s', a) -> keeps s s'.
Proof using H1.
  unfold alloc. destruct (o_fail o); [injection 1 as <- _; apply keeps_refl|].
  destruct (mem_alloc _ _ _ s _ o) as [s1 g] eqn:E. apply mem_alloc_keeps in E. destruct g; [|injection 1 as <- _; exact E].
  injection 1 as <- _. destruct E as [A B]. split; [cbn; lia|]. intros i it. cbn. unfold fset. destruct (Nat.eqb i (next_id s1)) eqn:Q.
  - apply Nat.eqb_eq in Q. subst i. left. exact A.
  - apply B.
Qed.

(* the other operations also change time, cas and expiry *)
Hypothesis H2 : forall it, (forall t, pr (set_time it t) = pr it) /\ (forall t, pr (set_cas it t) = pr it) /\
  (forall t, pr (set_exp it t) = pr it).

Lemma pr_att it c t : pr (set_time (set_linked (set_cas it c) true) t) = pr it.
Proof using H1 H2.
  destruct (H2 (set_linked (set_cas it c) true)) as (A & _). rewrite A.
  destruct (H1 (set_cas it c)) as (B & _). rewrite B. apply H2.
Qed.
Lemma attach_keeps s i c : keeps s (attach lru_class maxcls s i c).
Proof using H1 H2.
  unfold attach. destruct (items s i) as [it|] eqn:E; [|apply keeps_same; reflexivity].
  destruct (tfind _ _); [apply keeps_same; reflexivity|]. eapply keeps_trans; [|apply link_q_keeps].
  apply (keeps_upd s _ i it); try reflexivity; [exact E|apply pr_att].
Qed.
Lemma link_keeps s i s' c : link lru_class maxcls s i = (s', c) -> keeps s s'.
Proof using H1 H2.
  unfold link. destruct (items s i) as [it|] eqn:E; [|injection 1 as <- _; apply keeps_same; reflexivity].
  destruct (ilinked it); [injection 1 as <- _; apply keeps_same; reflexivity|].
  match goal with |- context [negb ?b] => destruct b end; cbn [negb]; injection 1 as <- _.
  - eapply keeps_trans; [|apply attach_keeps]. apply keeps_same; reflexivity.
  - apply (keeps_upd s _ i it); try reflexivity; [exact E|apply H2].
Qed.
Lemma replace_keeps s o n : keeps s (replace lru_class maxcls s o n).
Proof using H1 H2.
  unfold replace. destruct (items s o) as [oi|]; [|apply keeps_same; reflexivity]. destruct (items s n) as [ni|]; [|apply keeps_same; reflexivity].
  destruct (_ || _); [apply keeps_same; reflexivity|]. eapply keeps_trans; [|apply attach_keeps].
  eapply keeps_trans; [apply (unlink_q_keeps s o)|]. set (s1 := unlink_q s o).
  set (s2 := w_table (w_casid s1 _) _).
  assert (A : keeps s1 (match items s2 o with None => oops s2 | Some o1 => set_item s2 o (set_linked o1 false) end)).
  { destruct (items s2 o) as [o1|] eqn:E; [|apply keeps_same; reflexivity].
    apply (keeps_upd s1 _ o o1); try reflexivity; [exact E|apply H1]. }
  destruct (Nat.eqb _ _); [eapply keeps_trans; [exact A|apply free_keeps]|exact A].
Qed.
Lemma update_keeps s i f : keeps s (update lru_class maxcls s i f).
Proof using H1 H2.
  unfold update. destruct (items s i) as [it|]; [|apply keeps_same; reflexivity]. destruct (negb (ilinked it)); [apply keeps_refl|].
  destruct (_ || _); [|apply keeps_refl]. eapply keeps_trans; [apply (unlink_q_keeps s i)|]. set (s1 := unlink_q s i).
  destruct (items s1 i) eqn:E; [|apply keeps_same; reflexivity]. eapply keeps_trans; [|apply link_q_keeps].
  eapply keeps_set; [exact E|apply H2].
Qed.
Lemma do_get_keeps s k u s' o : do_get lru_class maxcls s k u = (s', o) -> keeps s s'.
Proof using H1 H2.
  unfold do_get. destruct (tfind k (table s)); [|injection 1 as <- _; apply keeps_refl].
  destruct (items s n) as [it|] eqn:E; [|injection 1 as <- _; apply keeps_same; reflexivity].
  destruct (isvalid s it); injection 1 as <- _; [|apply unlink_keeps].
  assert (A : keeps s (set_item s n (set_ref it (S (iref it))))) by (eapply keeps_set; [exact E|apply H1]).
  destruct u; [eapply keeps_trans; [exact A|apply update_keeps]|exact A].
Qed.
Lemma release_keeps s i : keeps s (release lru_class maxcls s i).
Proof using H1 H2.
  unfold release. destruct (items s i) as [it|] eqn:E; [|apply keeps_same; reflexivity].
  set (it1 := set_ref it _). set (s1 := set_item s i it1).
  assert (A : keeps s s1) by (eapply keeps_set; [exact E|apply H1]).
  destruct (Nat.eqb _ _); [|exact A]. destruct (negb _); [eapply keeps_trans; [exact A|apply free_keeps]|].
  destruct (negb _); [|exact A].
  destruct (isvalid _ _); [|eapply keeps_trans; [exact A|apply unlink_keeps]].
  eapply keeps_trans; [exact A|]. eapply keeps_trans; [|apply link_q_keeps].
  apply (keeps_set s1 i it1); [unfold s1, set_item; cbn; unfold fset; rewrite Nat.eqb_refl; reflexivity|apply H2].
Qed.
Lemma flush_list_keeps l : forall s b c ol al p, keeps s (flush_list lru_class maxcls l s b c ol al p).
Proof using H1.
  induction l as [|i l IH]; intros s b c ol al p; cbn [flush_list]; [apply keeps_refl|].
  destruct (items s i) as [it|]; [|apply keeps_same; reflexivity].
  destruct (itime it <? ol); [destruct b; apply keeps_same; reflexivity|].
  eapply keeps_trans; [|apply IH]. destruct (_ || _); [apply unlink_keeps|apply keeps_refl].
Qed.
Lemma flush_classes_keeps s ol al p : keeps s (flush_classes lru_class maxcls s ol al p).
Proof using H1.
  unfold flush_classes. generalize (seq 0 (S maxcls)). intro l. revert s. induction l as [|c l IH]; intro s; [apply keeps_refl|].
  cbn [fold_left]. eapply keeps_trans; [|apply IH]. unfold flush_class. eapply keeps_trans; apply flush_list_keeps.
Qed.

Ltac kk := match goal with
  | |- keeps ?s ?s => apply keeps_refl
  | H : keeps ?s ?t |- keeps ?s ?t => exact H
  | |- keeps ?s (release _ _ ?t ?i) => apply (keeps_trans s t); [|apply release_keeps]
  | |- keeps ?s (replace _ _ ?t ?i ?j) => apply (keeps_trans s t); [|apply replace_keeps]
  | |- keeps ?s (update _ _ ?t ?i ?f) => apply (keeps_trans s t); [|apply update_keeps]
  | |- keeps ?s (KvModel.unlink _ _ ?t ?i) => apply (keeps_trans s t); [|apply unlink_keeps]
  | |- keeps ?s (oops ?t) => apply (keeps_trans s t); [|apply keeps_same; reflexivity]
  | |- keeps ?s (w_lost ?t _) => apply (keeps_trans s t); [|apply keeps_same; reflexivity]
  | |- keeps ?s (w_held ?t _) => apply (keeps_trans s t); [|apply keeps_same; reflexivity]
  | H : keeps ?t ?u |- keeps ?s ?u => apply (keeps_trans s t); [|exact H]
  end.

Lemma add_keeps s i k s' x : store_add lru_class maxcls s i k = (s', x) -> keeps s s'.
Proof using H1 H2.
  unfold store_add. destruct (do_get _ _ s k false) as [s1 o] eqn:G. apply do_get_keeps in G. destruct o.
  - destruct (items s1 n) as [it|]; [destruct (icoll it)|]; injection 1 as <- _; repeat kk.
  - destruct (link _ _ s1 i) as [s2 c] eqn:L. apply link_keeps in L. injection 1 as <- _. repeat kk.
Qed.

Theorem step_keeps s o s' x : step lru_class maxcls evict_on s o = (s', x) -> keeps s s'.
Proof using H1 H2.
  unfold step. set (s0 := w_evicted s []). assert (A0 : keeps s s0) by (apply keeps_same; reflexivity). clearbody s0.
  intro E. apply (keeps_trans s s0); [exact A0|]. clear A0. revert E. destruct o.
  - injection 1 as <- _. apply keeps_same; reflexivity.
  - destruct (alloc _ _ _ s0 _ _ _ _ _ _ _) as [s1 a] eqn:E. apply alloc_keeps in E. destruct a; injection 1 as <- _; repeat kk.
  - unfold store. destruct (nth_error (held s0) h) as [[i b]|]; [|injection 1 as <- _; apply keeps_refl].
    destruct b; [|injection 1 as <- _; apply keeps_refl].
    match goal with |- context [items ?t i] => set (s1 := t) end.
    assert (A : keeps s0 s1) by (apply keeps_same; reflexivity). clearbody s1.
    destruct (items s1 i) as [it|]; [|injection 1 as <- _; repeat kk]. intro E. apply (keeps_trans s0 s1); [exact A|]. revert E. clear A.
    destruct kind.
    + unfold store_set. destruct (do_get _ _ s1 _ false) as [s2 o] eqn:G. apply do_get_keeps in G. destruct o.
      * destruct (items s2 n) as [ot|]; [destruct (icoll ot)|]; injection 1 as <- _; repeat kk.
      * destruct (link _ _ s2 i) as [s3 c] eqn:L. apply link_keeps in L. injection 1 as <- _. repeat kk.
    + apply add_keeps.
    + unfold store_replace. destruct (do_get _ _ s1 _ false) as [s2 o] eqn:G. apply do_get_keeps in G. destruct o.
      * destruct (items s2 n) as [ot|]; [destruct (icoll ot)|]; injection 1 as <- _; repeat kk.
      * injection 1 as <- _. repeat kk.
    + unfold store_cas. destruct (do_get _ _ s1 _ false) as [s2 o] eqn:G. apply do_get_keeps in G. destruct o.
      * destruct (items s2 n) as [ot|]; [destruct (icoll ot); [|destruct (N.eqb _ _)]|]; injection 1 as <- _; repeat kk.
      * injection 1 as <- _. repeat kk.
    + unfold store_attach. destruct (do_get _ _ s1 _ false) as [s2 o] eqn:G. apply do_get_keeps in G. destruct o.
      * destruct (items s2 n) as [ot|]; [|injection 1 as <- _; repeat kk].
        destruct (items s2 i) as [nt|]; [|injection 1 as <- _; repeat kk].
        destruct (icoll ot); [injection 1 as <- _; repeat kk|]. destruct (_ && _); [injection 1 as <- _; repeat kk|].
        destruct (alloc _ _ _ s2 _ _ _ _ _ _ _) as [s3 a] eqn:AL. apply alloc_keeps in AL. destruct a; injection 1 as <- _; repeat kk.
      * injection 1 as <- _. repeat kk.
    + unfold store_attach. destruct (do_get _ _ s1 _ false) as [s2 o] eqn:G. apply do_get_keeps in G. destruct o.
      * destruct (items s2 n) as [ot|]; [|injection 1 as <- _; repeat kk].
        destruct (items s2 i) as [nt|]; [|injection 1 as <- _; repeat kk].
        destruct (icoll ot); [injection 1 as <- _; repeat kk|]. destruct (_ && _); [injection 1 as <- _; repeat kk|].
        destruct (alloc _ _ _ s2 _ _ _ _ _ _ _) as [s3 a] eqn:AL. apply alloc_keeps in AL. destruct a; injection 1 as <- _; repeat kk.
      * injection 1 as <- _. repeat kk.
  - unfold get. destruct (do_get _ _ s0 k true) as [s1 o] eqn:G. apply do_get_keeps in G. destruct o.
    + destruct (items s1 n) as [it|]; [destruct (icoll it)|]; injection 1 as <- _; repeat kk.
    + injection 1 as <- _. repeat kk.
  - destruct (nth_error (held s0) h) as [[i b]|]; injection 1 as <- _; repeat kk.
  - unfold arithmetic. destruct (do_get _ _ s0 k false) as [s1 o] eqn:G. apply do_get_keeps in G. destruct o.
    + destruct (items s1 n) as [it|] eqn:Hi; [|injection 1 as <- _; repeat kk].
      destruct (icoll it); [injection 1 as <- _; repeat kk|].
      unfold add_delta. rewrite Hi. destruct (safe_strtoull _); [|injection 1 as <- _; repeat kk].
      destruct (alloc _ _ _ s1 _ _ _ _ _ _ _) as [s3 a] eqn:AL. apply alloc_keeps in AL. destruct a; injection 1 as <- _; repeat kk.
    + destruct create; [|injection 1 as <- _; repeat kk].
      destruct (alloc _ _ _ s1 _ _ _ _ _ _ _) as [s3 a] eqn:AL. apply alloc_keeps in AL. destruct a; [|injection 1 as <- _; repeat kk].
      destruct (store_add _ _ s3 n k) as [s4 r] eqn:SA. apply add_keeps in SA. injection 1 as <- _; repeat kk.
  - unfold delete. destruct (do_get _ _ s0 k false) as [s1 o] eqn:G. apply do_get_keeps in G.
    destruct o; [destruct (_ || _)|]; injection 1 as <- _; repeat kk.
  - unfold set_expire. destruct (do_get _ _ s0 k false) as [s1 o] eqn:G. apply do_get_keeps in G.
    destruct o as [i|]; [|injection 1 as <- _; repeat kk]. destruct (items s1 i) as [it|] eqn:Hi; [|injection 1 as <- _; repeat kk].
    destruct (_ || _); [injection 1 as <- _; repeat kk|].
    assert (A : keeps s1 (set_item s1 i (set_exp it e))) by (apply (keeps_set s1 i it); [exact Hi|apply H2]).
    destruct (iexp it =? e); [injection 1 as <- _; repeat kk|]. destruct (_ && _); injection 1 as <- _; repeat kk.
  - unfold get_expire. destruct (do_get _ _ s0 k false) as [s1 o] eqn:G. apply do_get_keeps in G.
    destruct o as [i|]; [destruct (items s1 i) as [it|]|]; injection 1 as <- _; repeat kk.
  - unfold flush_all. injection 1 as <- _. match goal with |- context [w_oldest s0 ?t] => set (s1 := w_oldest s0 t) end.
    assert (A : keeps s0 s1) by (apply keeps_same; reflexivity).
    destruct (_ =? 0); [destruct (_ =? 0)|destruct (_ =? 0)]; try exact A; eapply keeps_trans; try exact A; apply flush_classes_keeps.
  - unfold flush_prefix. destruct (negb _); [injection 1 as <- _; apply keeps_refl|]. injection 1 as <- _.
    match goal with |- context [w_pold s0 ?t] => set (s1 := w_pold s0 t) end.
    assert (A : keeps s0 s1) by (apply keeps_same; reflexivity).
    destruct (_ =? 0); [destruct (_ =? 0)|destruct (_ =? 0)]; try exact A; eapply keeps_trans; try exact A; apply flush_classes_keeps.
  - unfold coll_create. destruct (do_get _ _ s0 k false) as [s1 o] eqn:G. apply do_get_keeps in G.
    destruct o as [i|]; [injection 1 as <- _; repeat kk|].
    destruct (alloc _ _ _ s1 _ _ _ _ _ _ _) as [s3 a] eqn:AL. apply alloc_keeps in AL. destruct a; [|injection 1 as <- _; repeat kk].
    destruct (link _ _ s3 n) as [s4 c] eqn:L. apply link_keeps in L. injection 1 as <- _; repeat kk.
Qed.
End K.

(* --- the order of eviction --- *)
Section L.
Variable lru_class : bool -> bytes -> bytes -> nat.
Variable maxcls : nat.
Notation unlink := (unlink lru_class maxcls).
Notation unlink_q := (unlink_q lru_class maxcls).
Notation Core := (Core lru_class maxcls).
Notation Good := (Good lru_class maxcls).

Definition times (it : item) := itime it.
Lemma times1 : forall it, (forall b, times (set_linked it b) = times it) /\ (forall b, times (set_inlru it b) = times it) /\
  (forall n, times (set_ref it n) = times it).
Proof. intro; repeat split. Qed.

(* evicting functions: the walked items are exactly a part at the tail end *)
Definition walked (c : nat) (s s' : state) : Prop :=
  exists done, rev (lru s false c) = done ++ rev (lru s' false c) /\
    (forall k j, In (k, j) (evicted s') -> In (k, j) (evicted s) \/ In j done) /\
    forall d, d <> c -> lru s' false d = lru s false d.

Lemma filter_ne_hd (i : nat) l : NoDup (l ++ [i]) -> filter (fun j => negb (Nat.eqb j i)) (l ++ [i]) = l.
Proof.
  intro N. rewrite filter_app. cbn. rewrite Nat.eqb_refl. cbn. rewrite app_nil_r.
  apply NoDup_remove_2 in N. rewrite app_nil_r in N. induction l as [|x l IH]; [reflexivity|].
  cbn. destruct (Nat.eqb x i) eqn:Q; [apply Nat.eqb_eq in Q; subst; exfalso; apply N; left; reflexivity|].
  cbn. f_equal. apply IH. intro; apply N; right; assumption.
Qed.

Lemma walked_one s s1 c i l it : Core s -> rev (lru s false c) = i :: l -> items s i = Some it -> cls lru_class maxcls it = c ->
  is_sticky it = false ->
  (forall b d, lru s1 b d = filter (fun j => negb (Nat.eqb j i)) (lru s b d)) ->
  (forall k j, In (k, j) (evicted s1) -> In (k, j) (evicted s) \/ j = i) ->
  rev (lru s1 false c) = l /\ (forall d, d <> c -> lru s1 false d = lru s false d).
Proof.
  intros C L Hi Hc Hs F _. assert (L' : lru s false c = rev l ++ [i]).
  { rewrite <- (rev_involutive (lru s false c)), L. reflexivity. }
  split.
  - rewrite F, L', filter_ne_hd, rev_involutive; [reflexivity|]. rewrite <- L'. apply (c_lnd _ _ _ C).
  - intros d N. rewrite F. assert (NI : ~ In i (lru s false d)).
    { intro Q. apply (c_lru _ _ _ C) in Q as (x & X1 & X2 & X3 & X4). congruence. }
    clear - NI. induction (lru s false d) as [|x r IH]; [reflexivity|]. cbn.
    destruct (Nat.eqb x i) eqn:Q; [apply Nat.eqb_eq in Q; subst; exfalso; apply NI; left; reflexivity|].
    cbn. f_equal. apply IH. intro; apply NI; right; assumption.
Qed.

Lemma unlink_q_ev s i : evicted (unlink_q s i) = evicted s.
Proof. apply unlink_q_env. Qed.

(* one visited item: evicted, invalidated or pulled out *)
Lemma visit s c i l : Core s -> rev (lru s false c) = i :: l ->
  exists it, items s i = Some it /\ ilinked it = true /\ cls lru_class maxcls it = c /\ is_sticky it = false /\
  (iref it = 0%nat -> isvalid s it = true -> let s1 := evict lru_class maxcls s i in
     Core s1 /\ rev (lru s1 false c) = l /\ (forall d, d <> c -> lru s1 false d = lru s false d) /\ evicted s1 = (ikey it, i) :: evicted s) /\
  (let s1 := unlink s i in
     Core s1 /\ rev (lru s1 false c) = l /\ (forall d, d <> c -> lru s1 false d = lru s false d) /\ evicted s1 = evicted s) /\
  (let s1 := unlink_q s i in
     Core s1 /\ rev (lru s1 false c) = l /\ (forall d, d <> c -> lru s1 false d = lru s false d) /\ evicted s1 = evicted s).
Proof.
  intros C L. assert (Hin : In i (lru s false c)) by (apply in_rev; rewrite L; left; reflexivity).
  destruct (in_lru_item _ _ s false c i C Hin) as [it (Hi & Hl & Hq & Hs & Hc)].
  exists it. repeat (split; [assumption|]). split; [|split].
  - intros Hr V s1. destruct (evict_dn lru_class maxcls s i it C Hi Hl V Hr Hs) as (A & B & D & E).
    split; [exact A|]. destruct (walked_one s s1 c i l it C L Hi Hc Hs D) as [W1 W2]; [|auto].
    intros k j. subst s1. rewrite E. intros [Z|Z]; [injection Z as _ <-; auto|auto].
  - intros s1. destruct (unlink_spec lru_class maxcls s i it C Hi Hl) as (A & _ & _ & _ & D & _ & E & _).
    split; [exact A|]. destruct (walked_one s s1 c i l it C L Hi Hc Hs D) as [W1 W2]; [|auto].
    intros k j. subst s1. rewrite E. auto.
  - intros s1. destruct (unlink_q_spec lru_class maxcls s i it C Hi) as (A & _ & D).
    split; [exact A|]. destruct (walked_one s s1 c i l it C L Hi Hc Hs D) as [W1 W2].
    + intros k j. subst s1. rewrite unlink_q_ev. auto.
    + subst s1. rewrite unlink_q_ev. auto.
Qed.

Lemma walked_refl c s : walked c s s.
Proof. exists []. repeat split; auto. Qed.
Lemma walked_cons c s s1 s' i l : rev (lru s false c) = i :: l -> rev (lru s1 false c) = l ->
  (forall d, d <> c -> lru s1 false d = lru s false d) ->
  (forall k j, In (k, j) (evicted s1) -> In (k, j) (evicted s) \/ j = i) -> walked c s1 s' -> walked c s s'.
Proof.
  intros A B D E (dn & W1 & W2 & W3). exists (i :: dn). split; [rewrite A, <- B, W1; reflexivity|]. split.
  - intros k j H. destruct (W2 k j H) as [Z|Z]; [|right; right; exact Z]. destruct (E k j Z) as [Y|Y]; [auto|right; left; auto].
  - intros d N. rewrite (W3 d N). apply D. exact N.
Qed.

Lemma regain_walked n : forall s, Core s -> walked 0 s (regain lru_class maxcls n (rev (lru s false 0%nat)) s).
Proof.
  induction n as [|n IH]; intros s C; [apply walked_refl|].
  destruct (rev (lru s false 0%nat)) as [|i l] eqn:L; cbn [regain]; [apply walked_refl|].
  destruct (visit s 0 i l C L) as (it & Hi & _ & _ & _ & V1 & V2 & V3). rewrite Hi.
  destruct (Nat.eqb (iref it) 0) eqn:R; [apply Nat.eqb_eq in R; destruct (isvalid s it) eqn:V|].
  - destruct (V1 R eq_refl) as (A & B & D & E). rewrite <- B. eapply walked_cons; [exact L|exact B|exact D| |apply IH; exact A].
    intros k j. rewrite E. intros [Z|Z]; [injection Z as _ <-; auto|auto].
  - destruct V2 as (A & B & D & E). rewrite <- B. eapply walked_cons; [exact L|exact B|exact D| |apply IH; exact A].
    intros k j. rewrite E. auto.
  - destruct V3 as (A & B & D & E). rewrite <- B. eapply walked_cons; [exact L|exact B|exact D| |apply IH; exact A].
    intros k j. rewrite E. auto.
Qed.

Lemma evict_loop_walked n : forall s c ora s' g o', Core s ->
  evict_loop lru_class maxcls n (rev (lru s false c)) s c ora = (s', g, o') -> walked c s s'.
Proof.
  induction n as [|n IH]; intros s c ora s' g o' C; cbn [evict_loop]; [injection 1 as <- _ _; apply walked_refl|].
  destruct (rev (lru s false c)) as [|i l] eqn:L; [injection 1 as <- _ _; apply walked_refl|].
  destruct (visit s c i l C L) as (it & Hi & _ & _ & _ & V1 & V2 & V3). rewrite Hi.
  destruct (Nat.eqb (iref it) 0) eqn:R; [apply Nat.eqb_eq in R; destruct (isvalid s it) eqn:V|].
  - destruct (V1 R eq_refl) as (A & B & D & E). destruct (popb ora) as [b r].
    assert (K : forall k j, In (k, j) (evicted (evict lru_class maxcls s i)) -> In (k, j) (evicted s) \/ j = i)
      by (intros k j; rewrite E; intros [Z|Z]; [injection Z as _ <-; auto|auto]).
    destruct b; [injection 1 as <- _ _; eapply walked_cons; [exact L|exact B|exact D|exact K|apply walked_refl]|].
    rewrite <- B. intro Q. eapply walked_cons; [exact L|exact B|exact D|exact K|]. eapply IH; [exact A|exact Q].
  - destruct V2 as (A & B & D & E).
    assert (K : forall k j, In (k, j) (evicted (unlink s i)) -> In (k, j) (evicted s) \/ j = i) by (intros k j; rewrite E; auto).
    unfold reclaim. destruct (Nat.eqb c 0) eqn:Z; [destruct (popb ora) as [b r]; destruct b|].
    + injection 1 as <- _ _. eapply walked_cons; [exact L|exact B|exact D|exact K|apply walked_refl].
    + rewrite <- B. intro Q. eapply walked_cons; [exact L|exact B|exact D|exact K|]. eapply IH; [exact A|exact Q].
    + injection 1 as <- _ _. eapply walked_cons; [exact L|exact B|exact D|exact K|apply walked_refl].
  - destruct V3 as (A & B & D & E). rewrite <- B. intro Q. eapply walked_cons; [exact L|exact B|exact D| |].
    + intros k j. rewrite E. auto.
    + eapply IH; [exact A|exact Q].
Qed.

(* the functions that only remove dead items *)
Definition quiet (s s' : state) : Prop :=
  evicted s' = evicted s /\ forall b c i, In i (lru s' b c) -> In i (lru s b c).
Lemma quiet_refl s : quiet s s.
Proof. split; auto. Qed.
Lemma quiet_trans s s1 s2 : quiet s s1 -> quiet s1 s2 -> quiet s s2.
Proof. intros [A B] [D E]. split; [congruence|auto]. Qed.
Lemma quiet_same s s' : evicted s' = evicted s -> lru s' = lru s -> quiet s s'.
Proof. intros A B. split; [exact A|]. rewrite B. auto. Qed.

Lemma unlink_q_quiet s i : quiet s (unlink_q s i).
Proof.
  split; [apply unlink_q_ev|]. unfold KvModel.unlink_q. destruct (items s i) as [it|]; [|auto].
  destruct (negb (inlru it)); [auto|]. destruct (negb (existsb _ _)); [auto|].
  intros b c j. unfold put_lru. cbn [w_lru lru]. destruct (_ && _) eqn:Q.
  - intro H. apply filter_In in H as [H _]. apply andb_true_iff in Q as [Q1 Q2].
    apply Bool.eqb_prop in Q1. apply Nat.eqb_eq in Q2. subst. exact H.
  - destruct (is_sticky it); [destruct (onat_eqb _ _)|]; auto.
Qed.
Lemma free_quiet s i : quiet s (free s i).
Proof. unfold free. destruct (items s i); [destruct (_ || _)|]; apply quiet_same; reflexivity. Qed.
Lemma unlink_quiet s i : quiet s (unlink s i).
Proof.
  unfold KvModel.unlink. destruct (items s i) as [it|]; [|apply quiet_same; reflexivity].
  destruct (negb (ilinked it)); [apply quiet_refl|].
  assert (A : quiet s (detach (unlink_q s i) i)).
  { eapply quiet_trans; [apply (unlink_q_quiet s i)|]. unfold detach.
    destruct (items (unlink_q s i) i); [|apply quiet_same; reflexivity]. unfold drop_prefix.
    destruct (pfx _); [destruct (pfx_exists _ _)|]; apply quiet_same; reflexivity. }
  destruct (Nat.eqb _ _); [eapply quiet_trans; [exact A|apply free_quiet]|exact A].
Qed.
Lemma invalidate_quiet s o : quiet s (invalidate_if_dead lru_class maxcls s o).
Proof.
  destruct o as [i|]; cbn; [|apply quiet_refl].
  destruct (items s i); [destruct (dead s i); [apply unlink_quiet|apply quiet_refl]|apply quiet_same; reflexivity].
Qed.
Lemma reclaim_quiet s i c ora s' g o' : reclaim lru_class maxcls s i c ora = (s', g, o') -> quiet s s'.
Proof. unfold reclaim. destruct (Nat.eqb c 0); [destruct (popb ora)|]; injection 1 as <- _ _; apply unlink_quiet. Qed.
Lemma sticky_quiet n : forall s c ora s' g o', sticky_loop lru_class maxcls n s c ora = (s', g, o') -> quiet s s'.
Proof.
  induction n as [|n IH]; intros s c ora s' g o'; cbn [sticky_loop]; [injection 1 as <- _ _; apply quiet_refl|].
  destruct (smk s c); [|injection 1 as <- _ _; apply quiet_refl].
  destruct (items s n0); [|injection 1 as <- _ _; apply quiet_same; reflexivity].
  match goal with |- context [dead ?x _] => set (s1 := x) end.
  assert (A : quiet s s1) by (apply quiet_same; reflexivity). clearbody s1.
  destruct (dead s1 n0).
  - destruct (reclaim _ _ s1 n0 c ora) as [[s2 got] o2] eqn:RC. apply reclaim_quiet in RC.
    destruct got; [injection 1 as <- _ _; eauto 4 using quiet_trans|]. intro E. apply IH in E. eauto 4 using quiet_trans.
  - intro E. apply IH in E. eauto 4 using quiet_trans.
Qed.
Lemma step2_quiet n : forall s c ora s' g o', step2_loop lru_class maxcls n s c ora = (s', g, o') -> quiet s s'.
Proof.
  induction n as [|n IH]; intros s c ora s' g o'; cbn [step2_loop]; [injection 1 as <- _ _; apply quiet_refl|].
  destruct (curmk s c); [|injection 1 as <- _ _; apply quiet_refl].
  destruct (items s n0); [|injection 1 as <- _ _; apply quiet_same; reflexivity].
  match goal with |- context [dead ?x _] => set (s1 := x) end.
  assert (A : quiet s s1) by (apply quiet_same; reflexivity). clearbody s1.
  destruct (dead s1 n0).
  - destruct (reclaim _ _ s1 n0 c ora) as [[s2 got] o2] eqn:RC. apply reclaim_quiet in RC.
    destruct got; [injection 1 as <- _ _; eauto 4 using quiet_trans|]. intro E. apply IH in E. eauto 4 using quiet_trans.
  - intro E. apply IH in E. eauto 4 using quiet_trans.
Qed.
Lemma step1_quiet n : forall s c se pv ora s' g p t o',
  step1_loop lru_class maxcls n s c se pv ora = (s', g, p, t, o') -> quiet s s'.
Proof.
  induction n as [|n IH]; intros s c se pv ora s' g p t o'; cbn [step1_loop]; [injection 1 as <- _ _ _; apply quiet_refl|].
  destruct se as [i|]; [|injection 1 as <- _ _ _; apply quiet_refl].
  destruct (onat_eqb _ _); [injection 1 as <- _ _ _; apply quiet_refl|].
  destruct (items s i); [|injection 1 as <- _ _ _; apply quiet_same; reflexivity].
  destruct (dead s i).
  - destruct (reclaim _ _ s i c ora) as [[s2 got] o2] eqn:RC. apply reclaim_quiet in RC.
    destruct got; [injection 1 as <- _ _ _; exact RC|]. intro E. apply IH in E. eauto 4 using quiet_trans.
  - intro E. apply IH in E. eapply quiet_trans; [|exact E]. destruct (_ && _); apply quiet_same; reflexivity.
Qed.
Lemma mem_reclaim_quiet s c ora s' g o' : mem_reclaim lru_class maxcls s c ora = (s', g, o') -> quiet s s'.
Proof.
  unfold mem_reclaim. destruct (curmk s c); [|injection 1 as <- _ _; apply quiet_refl].
  destruct (lowmk s c) eqn:L; [|injection 1 as <- _ _; apply quiet_same; reflexivity].
  destruct (step1_loop _ _ 10 s c _ None ora) as [[[[s1 g1] p] t] o1] eqn:E1. apply step1_quiet in E1.
  destruct g1; [injection 1 as <- _ _; eapply quiet_trans; [exact E1|apply invalidate_quiet]|].
  destruct (step2_loop _ _ _ s1 c o1) as [[s2 g2] o2] eqn:E2. apply step2_quiet in E2.
  match goal with |- context [invalidate_if_dead _ _ ?x _] => set (s3 := x) end.
  assert (A : quiet s s3).
  { eapply quiet_trans; [exact E1|]. eapply quiet_trans; [exact E2|]. subst s3. destruct (curmk s2 c); apply quiet_same; reflexivity. }
  destruct g2; injection 1 as <- _ _; [eapply quiet_trans; [exact A|apply invalidate_quiet]|exact A].
Qed.

(* lists shrink, and what was evicted was no younger than what stays in the list *)
Definition oldest_first (s s' : state) : Prop :=
  (forall c i, In i (lru s' false c) -> In i (lru s false c)) /\
  forall k j, In (k, j) (evicted s') -> In (k, j) (evicted s) \/
    exists c, In j (lru s false c) /\ forall i, In i (lru s' false c) -> i <> j /\ time_of s j <= time_of s i.

Lemma of_quiet s s' : quiet s s' -> oldest_first s s'.
Proof. intros [A B]. split; [auto|]. rewrite A. auto. Qed.

Lemma sorted_split (f : nat -> Z) l : forall a b, StronglySorted (fun i j => f j <= f i) l -> rev l = a ++ rev b ->
  forall x y, In x a -> In y b -> f x <= f y.
Proof.
  intros a b H E x y Hx Hy. assert (L : l = b ++ rev a).
  { rewrite <- (rev_involutive l), E, rev_app_distr, rev_involutive. reflexivity. }
  subst l. clear E. induction b as [|z b IH]; [contradiction|]. cbn in H. inversion H; subst. destruct Hy as [->|Hy].
  - rewrite Forall_forall in H3. apply H3. apply in_or_app. right. apply -> in_rev. exact Hx.
  - apply IH; assumption.
Qed.

Lemma of_walked c s s' : Core s -> walked c s s' -> oldest_first s s'.
Proof.
  intros C (dn & W1 & W2 & W3).
  assert (L : lru s false c = lru s' false c ++ rev dn).
  { rewrite <- (rev_involutive (lru s false c)), W1, rev_app_distr, rev_involutive. reflexivity. }
  split.
  - intros d i H. destruct (Nat.eq_dec d c) as [->|N]; [|rewrite <- (W3 d N); exact H]. rewrite L. apply in_or_app. auto.
  - intros k j H. destruct (W2 k j H) as [Z|Z]; [auto|]. right. exists c. split.
    + rewrite L. apply in_or_app. right. apply -> in_rev. exact Z.
    + intros i Hi. split.
      * intros ->. pose proof (c_lnd _ _ _ C false c) as N. rewrite L in N. revert N. apply in_split in Hi as (u & v & ->).
        rewrite <- app_assoc. cbn. intro N. apply NoDup_remove_2 in N. apply N. apply in_or_app. right. apply in_or_app. right.
        apply -> in_rev. exact Z.
      * eapply (sorted_split (time_of s) _ dn); [apply (c_srt _ _ _ C)|exact W1|exact Z|exact Hi].
Qed.

Lemma of_trans s s1 s2 : (forall i, items s1 i <> None -> time_of s1 i = time_of s i) -> Core s1 ->
  (forall c i, In i (lru s1 false c) -> In i (lru s false c)) ->
  oldest_first s s1 -> oldest_first s1 s2 -> oldest_first s s2.
Proof.
  intros T C L [A B] [D E]. split; [auto|]. intros k j H. destruct (E k j H) as [Z|(c & Z1 & Z2)].
  - destruct (B k j Z) as [Y|(c & Y1 & Y2)]; [auto|]. right. exists c. split; [exact Y1|]. intros i Hi. apply Y2. auto.
  - right. exists c. split; [auto|]. intros i Hi. destruct (Z2 i Hi) as [Q1 Q2]. split; [exact Q1|].
    assert (X : forall x, In x (lru s1 false c) -> items s1 x <> None).
    { intros x Hx. apply (c_lru _ _ _ C) in Hx as (it & X & _). congruence. }
    rewrite <- !T; auto.
Qed.

Lemma keeps_time s s' : Core s -> Dn s s' -> keeps Z times s s' -> forall i, items s' i <> None -> time_of s' i = time_of s i.
Proof.
  intros C D [K1 K2] i H. unfold time_of. destruct (items s' i) as [it'|] eqn:E; [|contradiction].
  destruct (K2 i it' E) as [Z|(it & X1 & X2)]; [exfalso; eapply (d_bwd _ _ D); [exact E|apply (c_next _ _ _ C); exact Z]|].
  rewrite X1. exact X2.
Qed.

Variable evict_on : bool.

Theorem mem_alloc_oldest s c o s' g : Core s -> repaired s = false -> mem_alloc lru_class maxcls evict_on s c o = (s', g) ->
  repaired s' = false -> oldest_first s s'.
Proof.
  intros C RF. unfold mem_alloc. match goal with |- context [sticky_loop _ _ 10 ?x] => set (s0 := x) end.
  assert (A0 : Good s s0 /\ keeps Z times s s0 /\ oldest_first s s0).
  { subst s0. destruct (_ && _); [|split; [apply Good_refl; exact C|split; [apply keeps_refl|apply of_quiet, quiet_refl]]].
    split; [|split].
    - apply (regain_good _ _ _ _ _ 0); [exact C|apply NoDup_rev, (c_lnd _ _ _ C)|intros i Hi; apply in_rev; exact Hi].
    - apply regain_keeps. apply times1.
    - apply (of_walked 0); [exact C|]. apply regain_walked. exact C. }
  clearbody s0. destruct A0 as (G0 & K0 & O0).
  destruct (sticky_loop _ _ 10 s0 c _) as [[s1 g1] o1] eqn:E1.
  pose proof (sticky_loop_good _ _ _ _ _ _ _ _ _ (proj1 G0) E1) as G1. pose proof (sticky_keeps _ _ _ _ times1 _ _ _ _ _ _ _ E1) as K1.
  apply sticky_quiet in E1.
  assert (GG1 : Good s s1) by (eapply Good_trans; eassumption). assert (KK1 : keeps Z times s s1) by (eauto using keeps_trans).
  assert (O1 : oldest_first s s1).
  { apply (of_trans s s0); [apply keeps_time; [exact C|apply G0|exact K0]|apply G0|apply O0|exact O0|apply of_quiet; exact E1]. }
  destruct g1.
  { injection 1 as <- _. intros _. apply (of_trans s s1); [apply keeps_time; [exact C|apply GG1|exact KK1]|apply GG1|apply O1|exact O1|].
    apply of_quiet, invalidate_quiet. }
  destruct (mem_reclaim _ _ s1 c o1) as [[s2 g2] o2] eqn:E2.
  pose proof (mem_reclaim_good _ _ _ _ _ _ _ _ (proj1 GG1) E2) as G2. pose proof (mem_reclaim_keeps _ _ _ _ times1 _ _ _ _ _ _ E2) as K2.
  apply mem_reclaim_quiet in E2.
  assert (GG2 : Good s s2) by (eapply Good_trans; eassumption). assert (KK2 : keeps Z times s s2) by (eauto using keeps_trans).
  assert (O2 : oldest_first s s2).
  { apply (of_trans s s1); [apply keeps_time; [exact C|apply GG1|exact KK1]|apply GG1|apply O1|exact O1|apply of_quiet; exact E2]. }
  destruct g2; [injection 1 as <- _; intros _; exact O2|]. destruct (popb o2) as [b o3].
  destruct b; [injection 1 as <- _; intros _; exact O2|]. destruct (negb evict_on); [injection 1 as <- _; intros _; exact O2|].
  destruct (evict_loop _ _ 200 _ s2 c o3) as [[s4 g4] o4] eqn:E4.
  assert (ND2 : NoDup (rev (lru s2 false c))) by (apply NoDup_rev, (c_lnd _ _ _ (proj1 GG2))).
  pose proof (evict_loop_good _ _ _ _ _ _ c _ _ _ _ (proj1 GG2) ND2 ltac:(intros i Hi; apply in_rev; exact Hi) E4) as G4.
  apply evict_loop_walked in E4; [|apply GG2].
  assert (O4 : oldest_first s s4).
  { apply (of_trans s s2); [apply keeps_time; [exact C|apply GG2|exact KK2]|apply GG2|apply O2|exact O2|apply (of_walked c); [apply GG2|exact E4]]. }
  destruct g4; [injection 1 as <- _; intros _; exact O4|]. destruct (Nat.eqb c 0); [injection 1 as <- _; intros _; exact O4|].
  destruct (repair_loop _ _ 50 _ s4 o4) as [[s5 g5] o5] eqn:E5. injection 1 as <- _. intro RF5.
  assert (C4 : Core s4) by apply G4.
  assert (s5 = s4); [|subst; exact O4].
  assert (HL : forall i, In i (rev (lru s4 false c)) -> items s4 i <> None).
  { intros i Hi. apply in_rev in Hi. apply (c_lru _ _ _ C4) in Hi as (it & X & _). congruence. }
  revert HL E5 RF5. generalize (rev (lru s4 false c)) as l. generalize 50%nat as n. clear. intros n l.
  revert l o4. induction n as [|n IH]; intros [|i l] o4 HL; cbn [repair_loop]; try (injection 1 as <- _ _; reflexivity).
  pose proof (HL i (or_introl eq_refl)) as NN.
  destruct (items s4 i) as [it|] eqn:Hi; [|contradiction].
  destruct (_ && _).
  - assert (K : repaired (KvModel.repair lru_class maxcls s4 i) = true).
    { unfold KvModel.repair. rewrite Hi, unlink_repaired. reflexivity. }
    destruct (popb o4) as [b r]. destruct b; [injection 1 as <- _ _; congruence|].
    intros E RF. exfalso. apply repair_loop_flag in E; [congruence|exact K].
  - apply IH. intros; apply HL; right; assumption.
Qed.
End L.
