(* With eviction switched off nothing is evicted and the tail-repair code is not reached. *)
From Verif Require Import Base UtilModel KvModel KvProofs KvStep2 KvKeep.
Open Scope Z_scope.
Set Default Proof Using "Type".

Definition still (s s' : state) : Prop := repaired s' = repaired s /\ evicted s' = evicted s.
Lemma still_refl s : still s s.
Proof. split; reflexivity. Qed.
Lemma still_trans s s1 s2 : still s s1 -> still s1 s2 -> still s s2.
Proof. intros [A B] [D E]. split; congruence. Qed.

Section S.
Variable lru_class : bool -> bytes -> bytes -> nat.
Variable maxcls : nat.
Notation unlink := (unlink lru_class maxcls).
Notation unlink_q := (unlink_q lru_class maxcls).
Notation link_q := (link_q lru_class maxcls).

Ltac same := solve [split; reflexivity].

Lemma unlink_still s i : still s (unlink s i).
Proof. split; [apply unlink_repaired|apply unlink_quiet]. Qed.
Lemma link_q_still s i : still s (link_q s i).
Proof.
  split; [apply link_q_rep|]. unfold KvModel.link_q. destruct (items s i) as [it|]; [|reflexivity]. destruct (inlru it); [reflexivity|].
  destruct (negb (is_sticky it) && (0 <? iexp it)); [destruct (lowmk s _)|]; reflexivity.
Qed.
Lemma unlink_q_still s i : still s (unlink_q s i).
Proof. split; [apply unlink_q_rep|apply unlink_q_quiet]. Qed.
Lemma free_still s i : still s (free s i).
Proof. split; [apply free_repaired|apply free_quiet]. Qed.
Lemma attach_still s i c : still s (attach lru_class maxcls s i c).
Proof.
  unfold attach. destruct (items s i) as [it|]; [|same]. destruct (tfind _ _); [same|].
  eapply still_trans; [|apply link_q_still]. same.
Qed.
Lemma link_still s i s' c : link lru_class maxcls s i = (s', c) -> still s s'.
Proof.
  unfold link. destruct (items s i) as [it|]; [|injection 1 as <- _; same]. destruct (ilinked it); [injection 1 as <- _; same|].
  match goal with |- context [negb ?b] => destruct b end; cbn [negb]; injection 1 as <- _; [|same].
  eapply still_trans; [|apply attach_still]. same.
Qed.
Lemma replace_still s o n : still s (replace lru_class maxcls s o n).
Proof.
  unfold replace. destruct (items s o) as [oi|]; [|same]. destruct (items s n) as [ni|]; [|same].
  destruct (_ || _); [same|]. eapply still_trans; [|apply attach_still].
  eapply still_trans; [apply (unlink_q_still s o)|]. set (s1 := unlink_q s o). set (s2 := w_table (w_casid s1 _) _).
  assert (A : still s1 (match items s2 o with None => oops s2 | Some o1 => set_item s2 o (set_linked o1 false) end))
    by (destruct (items s2 o); same).
  destruct (Nat.eqb _ _); [eapply still_trans; [exact A|apply free_still]|exact A].
Qed.
Lemma update_still s i f : still s (update lru_class maxcls s i f).
Proof.
  unfold update. destruct (items s i) as [it|]; [|same]. destruct (negb (ilinked it)); [apply still_refl|].
  destruct (_ || _); [|apply still_refl]. eapply still_trans; [apply (unlink_q_still s i)|]. set (s1 := unlink_q s i).
  destruct (items s1 i) eqn:E; [|same]. eapply still_trans; [|apply link_q_still]. same.
Qed.
Lemma do_get_still s k u s' o : do_get lru_class maxcls s k u = (s', o) -> still s s'.
Proof.
  unfold do_get. destruct (tfind k (table s)); [|injection 1 as <- _; apply still_refl].
  destruct (items s n) as [it|] eqn:E; [|injection 1 as <- _; same].
  destruct (isvalid s it); injection 1 as <- _; [|apply unlink_still].
  destruct u; [|same]. eapply still_trans; [|apply update_still]. same.
Qed.
Lemma release_still s i : still s (release lru_class maxcls s i).
Proof.
  unfold release. destruct (items s i) as [it|] eqn:E; [|same].
  set (it1 := set_ref it _). set (s1 := set_item s i it1). assert (A : still s s1) by same.
  destruct (Nat.eqb _ _); [|exact A]. destruct (negb _); [eapply still_trans; [exact A|apply free_still]|].
  destruct (negb _); [|exact A].
  destruct (isvalid _ _); [|eapply still_trans; [exact A|apply unlink_still]].
  eapply still_trans; [exact A|]. eapply still_trans; [|apply link_q_still]. same.
Qed.
Lemma flush_list_still l : forall s b c ol al p, still s (flush_list lru_class maxcls l s b c ol al p).
Proof.
  induction l as [|i l IH]; intros s b c ol al p; cbn [flush_list]; [apply still_refl|].
  destruct (items s i) as [it|]; [|same]. destruct (itime it <? ol); [destruct b; same|].
  eapply still_trans; [|apply IH]. destruct (_ || _); [apply unlink_still|apply still_refl].
Qed.
Lemma flush_classes_still s ol al p : still s (flush_classes lru_class maxcls s ol al p).
Proof.
  unfold flush_classes. generalize (seq 0 (S maxcls)). intro l. revert s. induction l as [|c l IH]; intro s; [apply still_refl|].
  cbn [fold_left]. eapply still_trans; [|apply IH]. unfold flush_class. eapply still_trans; apply flush_list_still.
Qed.

(* only dead items are removed *)
Lemma invalidate_still s o : still s (invalidate_if_dead lru_class maxcls s o).
Proof.
  destruct o as [i|]; cbn; [|apply still_refl]. destruct (items s i); [|same]. destruct (dead s i); [apply unlink_still|apply still_refl].
Qed.
Lemma reclaim_still s i c ora s' g o' : reclaim lru_class maxcls s i c ora = (s', g, o') -> still s s'.
Proof. unfold reclaim. destruct (Nat.eqb c 0); [destruct (popb ora)|]; injection 1 as <- _ _; apply unlink_still. Qed.
Lemma sticky_still n : forall s c ora s' g o', sticky_loop lru_class maxcls n s c ora = (s', g, o') -> still s s'.
Proof.
  induction n as [|n IH]; intros s c ora s' g o'; cbn [sticky_loop]; [injection 1 as <- _ _; apply still_refl|].
  destruct (smk s c); [|injection 1 as <- _ _; apply still_refl]. destruct (items s n0); [|injection 1 as <- _ _; same].
  match goal with |- context [dead ?x _] => set (s1 := x) end. assert (A : still s s1) by same. clearbody s1.
  destruct (dead s1 n0).
  - destruct (reclaim _ _ s1 n0 c ora) as [[s2 got] o2] eqn:RC. apply reclaim_still in RC.
    destruct got; [injection 1 as <- _ _; eauto 4 using still_trans|]. intro E. apply IH in E. eauto 4 using still_trans.
  - intro E. apply IH in E. eauto 4 using still_trans.
Qed.
Lemma step2_still n : forall s c ora s' g o', step2_loop lru_class maxcls n s c ora = (s', g, o') -> still s s'.
Proof.
  induction n as [|n IH]; intros s c ora s' g o'; cbn [step2_loop]; [injection 1 as <- _ _; apply still_refl|].
  destruct (curmk s c); [|injection 1 as <- _ _; apply still_refl]. destruct (items s n0); [|injection 1 as <- _ _; same].
  match goal with |- context [dead ?x _] => set (s1 := x) end. assert (A : still s s1) by same. clearbody s1.
  destruct (dead s1 n0).
  - destruct (reclaim _ _ s1 n0 c ora) as [[s2 got] o2] eqn:RC. apply reclaim_still in RC.
    destruct got; [injection 1 as <- _ _; eauto 4 using still_trans|]. intro E. apply IH in E. eauto 4 using still_trans.
  - intro E. apply IH in E. eauto 4 using still_trans.
Qed.
Lemma step1_still n : forall s c se pv ora s' g p t o',
  step1_loop lru_class maxcls n s c se pv ora = (s', g, p, t, o') -> still s s'.
Proof.
  induction n as [|n IH]; intros s c se pv ora s' g p t o'; cbn [step1_loop]; [injection 1 as <- _ _ _; apply still_refl|].
  destruct se as [i|]; [|injection 1 as <- _ _ _; apply still_refl].
  destruct (onat_eqb _ _); [injection 1 as <- _ _ _; apply still_refl|].
  destruct (items s i); [|injection 1 as <- _ _ _; same].
  destruct (dead s i).
  - destruct (reclaim _ _ s i c ora) as [[s2 got] o2] eqn:RC. apply reclaim_still in RC.
    destruct got; [injection 1 as <- _ _ _; exact RC|]. intro E. apply IH in E. eauto 4 using still_trans.
  - intro E. apply IH in E. eapply still_trans; [|exact E]. destruct (_ && _); same.
Qed.
Lemma mem_reclaim_still s c ora s' g o' : mem_reclaim lru_class maxcls s c ora = (s', g, o') -> still s s'.
Proof.
  unfold mem_reclaim. destruct (curmk s c); [|injection 1 as <- _ _; apply still_refl].
  destruct (lowmk s c) eqn:L; [|injection 1 as <- _ _; same].
  destruct (step1_loop _ _ 10 s c _ None ora) as [[[[s1 g1] p] t] o1] eqn:E1. apply step1_still in E1.
  destruct g1; [injection 1 as <- _ _; eapply still_trans; [exact E1|apply invalidate_still]|].
  destruct (step2_loop _ _ _ s1 c o1) as [[s2 g2] o2] eqn:E2. apply step2_still in E2.
  match goal with |- context [invalidate_if_dead _ _ ?x _] => set (s3 := x) end.
  assert (A : still s s3).
  { eapply still_trans; [exact E1|]. eapply still_trans; [exact E2|]. subst s3. destruct (curmk s2 c); same. }
  destruct g2; injection 1 as <- _ _; [eapply still_trans; [exact A|apply invalidate_still]|exact A].
Qed.
Lemma alloc_still s coll key fl ex d cas o s' a : alloc lru_class maxcls false s coll key fl ex d cas o = (s', a) -> still s s'.
Proof.
  unfold alloc. destruct (o_fail o); [injection 1 as <- _; apply still_refl|].
  destruct (mem_alloc _ _ false s _ o) as [s1 g] eqn:E.
  assert (A : still s s1).
  { revert E. unfold mem_alloc. cbn [andb negb].
    destruct (sticky_loop _ _ 10 s _ _) as [[s2 g2] o2] eqn:E2. apply sticky_still in E2.
    destruct g2; [injection 1 as <- _; eapply still_trans; [exact E2|apply invalidate_still]|].
    destruct (mem_reclaim _ _ s2 _ o2) as [[s3 g3] o3] eqn:E3. apply mem_reclaim_still in E3.
    assert (still s s3) by (eauto using still_trans).
    destruct g3; [injection 1 as <- _; assumption|]. destruct (popb o3) as [b r]. destruct b; injection 1 as <- _; assumption. }
  destruct g; injection 1 as <- _; [|exact A]. eapply still_trans; [exact A|]. same.
Qed.

Ltac kk := match goal with
  | |- still ?s ?s => apply still_refl
  | H : still ?s ?t |- still ?s ?t => exact H
  | |- still ?s (release _ _ ?t ?i) => apply (still_trans s t); [|apply release_still]
  | |- still ?s (replace _ _ ?t ?i ?j) => apply (still_trans s t); [|apply replace_still]
  | |- still ?s (update _ _ ?t ?i ?f) => apply (still_trans s t); [|apply update_still]
  | |- still ?s (KvModel.unlink _ _ ?t ?i) => apply (still_trans s t); [|apply unlink_still]
  | |- still ?s (oops ?t) => apply (still_trans s t); [|split; reflexivity]
  | |- still ?s (w_lost ?t _) => apply (still_trans s t); [|split; reflexivity]
  | |- still ?s (w_held ?t _) => apply (still_trans s t); [|split; reflexivity]
  | |- still ?s (set_item ?t _ _) => apply (still_trans s t); [|split; reflexivity]
  | H : still ?t ?u |- still ?s ?u => apply (still_trans s t); [|exact H]
  end.

Lemma add_still s i k s' x : store_add lru_class maxcls s i k = (s', x) -> still s s'.
Proof.
  unfold store_add. destruct (do_get _ _ s k false) as [s1 o] eqn:G. apply do_get_still in G. destruct o.
  - destruct (items s1 n) as [it|]; [destruct (icoll it)|]; injection 1 as <- _; repeat kk.
  - destruct (link _ _ s1 i) as [s2 c] eqn:L. apply link_still in L. injection 1 as <- _. repeat kk.
Qed.

Theorem step_still s o s' x : step lru_class maxcls false s o = (s', x) -> repaired s' = repaired s /\ evicted s' = [].
Proof.
  unfold step. set (s0 := w_evicted s []). intro E0. cut (still s0 s'); [intros [A B]; auto|].
  clearbody s0. revert E0. destruct o.
  - injection 1 as <- _. same.
  - destruct (alloc _ _ _ s0 _ _ _ _ _ _ _) as [s1 a] eqn:E. apply alloc_still in E. destruct a; injection 1 as <- _; repeat kk.
  - unfold store. destruct (nth_error (held s0) h) as [[i b]|]; [|injection 1 as <- _; apply still_refl].
    destruct b; [|injection 1 as <- _; apply still_refl].
    match goal with |- context [items ?t i] => set (s1 := t) end.
    assert (A : still s0 s1) by same. clearbody s1.
    destruct (items s1 i) as [it|]; [|injection 1 as <- _; repeat kk]. intro E. apply (still_trans s0 s1); [exact A|]. revert E. clear A.
    destruct kind.
    + unfold store_set. destruct (do_get _ _ s1 _ false) as [s2 o] eqn:G. apply do_get_still in G. destruct o.
      * destruct (items s2 n) as [ot|]; [destruct (icoll ot)|]; injection 1 as <- _; repeat kk.
      * destruct (link _ _ s2 i) as [s3 c] eqn:L. apply link_still in L. injection 1 as <- _. repeat kk.
    + apply add_still.
    + unfold store_replace. destruct (do_get _ _ s1 _ false) as [s2 o] eqn:G. apply do_get_still in G. destruct o.
      * destruct (items s2 n) as [ot|]; [destruct (icoll ot)|]; injection 1 as <- _; repeat kk.
      * injection 1 as <- _. repeat kk.
    + unfold store_cas. destruct (do_get _ _ s1 _ false) as [s2 o] eqn:G. apply do_get_still in G. destruct o.
      * destruct (items s2 n) as [ot|]; [destruct (icoll ot); [|destruct (N.eqb _ _)]|]; injection 1 as <- _; repeat kk.
      * injection 1 as <- _. repeat kk.
    + unfold store_attach. destruct (do_get _ _ s1 _ false) as [s2 o] eqn:G. apply do_get_still in G. destruct o.
      * destruct (items s2 n) as [ot|]; [|injection 1 as <- _; repeat kk].
        destruct (items s2 i) as [nt|]; [|injection 1 as <- _; repeat kk].
        destruct (icoll ot); [injection 1 as <- _; repeat kk|]. destruct (_ && _); [injection 1 as <- _; repeat kk|].
        destruct (alloc _ _ _ s2 _ _ _ _ _ _ _) as [s3 a] eqn:AL. apply alloc_still in AL. destruct a; injection 1 as <- _; repeat kk.
      * injection 1 as <- _. repeat kk.
    + unfold store_attach. destruct (do_get _ _ s1 _ false) as [s2 o] eqn:G. apply do_get_still in G. destruct o.
      * destruct (items s2 n) as [ot|]; [|injection 1 as <- _; repeat kk].
        destruct (items s2 i) as [nt|]; [|injection 1 as <- _; repeat kk].
        destruct (icoll ot); [injection 1 as <- _; repeat kk|]. destruct (_ && _); [injection 1 as <- _; repeat kk|].
        destruct (alloc _ _ _ s2 _ _ _ _ _ _ _) as [s3 a] eqn:AL. apply alloc_still in AL. destruct a; injection 1 as <- _; repeat kk.
      * injection 1 as <- _. repeat kk.
  - unfold get. destruct (do_get _ _ s0 k true) as [s1 o] eqn:G. apply do_get_still in G. destruct o.
    + destruct (items s1 n) as [it|]; [destruct (icoll it)|]; injection 1 as <- _; repeat kk.
    + injection 1 as <- _. repeat kk.
  - destruct (nth_error (held s0) h) as [[i b]|]; injection 1 as <- _; repeat kk.
  - unfold arithmetic. destruct (do_get _ _ s0 k false) as [s1 o] eqn:G. apply do_get_still in G. destruct o.
    + destruct (items s1 n) as [it|] eqn:Hi; [|injection 1 as <- _; repeat kk].
      destruct (icoll it); [injection 1 as <- _; repeat kk|].
      unfold add_delta. rewrite Hi. destruct (safe_strtoull _); [|injection 1 as <- _; repeat kk].
      destruct (alloc _ _ _ s1 _ _ _ _ _ _ _) as [s3 a] eqn:AL. apply alloc_still in AL. destruct a; injection 1 as <- _; repeat kk.
    + destruct create; [|injection 1 as <- _; repeat kk].
      destruct (alloc _ _ _ s1 _ _ _ _ _ _ _) as [s3 a] eqn:AL. apply alloc_still in AL. destruct a; [|injection 1 as <- _; repeat kk].
      destruct (store_add _ _ s3 n k) as [s4 r] eqn:SA. apply add_still in SA. injection 1 as <- _; repeat kk.
  - unfold delete. destruct (do_get _ _ s0 k false) as [s1 o] eqn:G. apply do_get_still in G.
    destruct o; [destruct (_ || _)|]; injection 1 as <- _; repeat kk.
  - unfold set_expire. destruct (do_get _ _ s0 k false) as [s1 o] eqn:G. apply do_get_still in G.
    destruct o as [i|]; [|injection 1 as <- _; repeat kk]. destruct (items s1 i) as [it|] eqn:Hi; [|injection 1 as <- _; repeat kk].
    destruct (_ || _); [injection 1 as <- _; repeat kk|].
    destruct (iexp it =? e); [injection 1 as <- _; repeat kk|]. destruct (_ && _); injection 1 as <- _; repeat kk.
  - unfold get_expire. destruct (do_get _ _ s0 k false) as [s1 o] eqn:G. apply do_get_still in G.
    destruct o as [i|]; [destruct (items s1 i) as [it|]|]; injection 1 as <- _; repeat kk.
  - unfold flush_all. injection 1 as <- _. match goal with |- context [w_oldest s0 ?t] => set (s1 := w_oldest s0 t) end.
    assert (A : still s0 s1) by same.
    destruct (_ =? 0); [destruct (_ =? 0)|destruct (_ =? 0)]; try exact A; eapply still_trans; try exact A; apply flush_classes_still.
  - unfold flush_prefix. destruct (negb _); [injection 1 as <- _; apply still_refl|]. injection 1 as <- _.
    match goal with |- context [w_pold s0 ?t] => set (s1 := w_pold s0 t) end.
    assert (A : still s0 s1) by same.
    destruct (_ =? 0); [destruct (_ =? 0)|destruct (_ =? 0)]; try exact A; eapply still_trans; try exact A; apply flush_classes_still.
  - unfold coll_create. destruct (do_get _ _ s0 k false) as [s1 o] eqn:G. apply do_get_still in G.
    destruct o as [i|]; [injection 1 as <- _; repeat kk|].
    destruct (alloc _ _ _ s1 _ _ _ _ _ _ _) as [s3 a] eqn:AL. apply alloc_still in AL. destruct a; [|injection 1 as <- _; repeat kk].
    destruct (link _ _ s3 n) as [s4 c] eqn:L. apply link_still in L. injection 1 as <- _; repeat kk.
Qed.
End S.
