(* flush_all and flush_prefix of the key-value engine model. *)
From Coq Require Import Sorted.
From Verif Require Import Base UtilModel UtilSpec UtilProofs KvModel KvSpec KvProofs KvRefine.
Open Scope Z_scope.
Set Default Proof Using "Type".

(* the prefix of a key when the length is not cut to 8 bits *)
Definition fpfx (k : bytes) : option bytes :=
  match k with
  | [] => None
  | _ :: r => match index_of 58 r 1 with Some i => Some (firstn i k) | None => None end
  end.

Lemma fpfx_short k : short k -> pfx k = fpfx k.
Proof.
  unfold short, pfx, fpfx. destruct k as [|c r]; [reflexivity|]. cbn [tl].
  destruct (index_of 58 r 1); [|reflexivity]. intro H. rewrite Nat.mod_small by exact H. reflexivity.
Qed.

Lemma fpfx_has k p : fpfx k = p <-> has_prefix k p.
Proof.
  unfold fpfx, has_prefix. destruct k as [|c r].
  - destruct p as [q|]; split; try discriminate; auto.
    intros (c & q' & r & -> & H & _). discriminate.
  - destruct (index_of 58 r 1) as [i|] eqn:E.
    + apply index_of_split in E as (a & b & -> & Na & ->).
      assert (F : firstn (1 + length a) (c :: a ++ 58%N :: b) = c :: a).
      { cbn. f_equal. rewrite firstn_app, Nat.sub_diag, firstn_all. cbn. apply app_nil_r. }
      rewrite F. destruct p as [q|]; split.
      * injection 1 as <-. exists c, a, b. auto.
      * intros (c' & q' & r' & -> & E & Nq). injection E as <- E. f_equal. f_equal.
        clear - E Na Nq. revert q' E Nq. induction a as [|x a IH]; intros [|y q'] E Nq; cbn in E; try reflexivity.
        -- injection E as <- _. exfalso. apply Nq. left. reflexivity.
        -- injection E as -> _. exfalso. apply Na. left. reflexivity.
        -- injection E as <- E. f_equal. apply IH; [intro; apply Na; right; assumption|exact E|intro; apply Nq; right; assumption].
      * discriminate.
      * intro G. exfalso. apply (G c _ eq_refl). apply in_or_app. right. left. reflexivity.
    + apply index_of_none in E. destruct p as [q|]; split; try discriminate.
      * intros (c' & q' & r' & -> & G & _). injection G as <- ->. exfalso. apply E. apply in_or_app. right. left. reflexivity.
      * intros _ c' r' G. injection G as <- <-. exact E.
      * auto.
Qed.

Lemma nth_in_tl (c : N) l n x : nth_error (c :: l) n = Some x -> (1 <= n)%nat -> In x l.
Proof. intros H L. destruct n; [lia|]. cbn in H. eapply nth_error_In. exact H. Qed.

(* for short keys and a prefix that some short key has, inclusion is equality *)
Lemma isincluded_eq k p : short k -> (p = None \/ exists k', short k' /\ pfx k' = p) ->
  (isincluded (pfx k) p = true <-> pfx k = p).
Proof.
  intros Sk Hp.
  assert (NE : forall k q, short k -> pfx k = Some q -> exists c q', q = c :: q' /\ ~ In 58%N q').
  { intros k0 q S0 H. apply pfx_has in H; [|exact S0]. destruct H as (c & q' & r & A & _ & B). eauto. }
  unfold isincluded. destruct p as [q|].
  - destruct Hp as [Hp|(k' & Sk' & Hp)]; [discriminate|]. destruct (NE _ _ Sk' Hp) as (c & q' & -> & Nq).
    destruct (pfx k) as [a|] eqn:P.
    + destruct (NE _ _ Sk P) as (c2 & a' & -> & Na). split.
      * intro H. apply orb_prop in H as [H|H]; [apply beqb_eq in H; congruence|].
        apply andb_prop in H as [H _]. apply andb_prop in H as [_ H].
        destruct (nth_error (c2 :: a') (length (c :: q'))) as [x|] eqn:E; [|discriminate].
        apply N.eqb_eq in H. subst x. exfalso. apply Na. eapply nth_in_tl; [exact E|cbn; lia].
      * injection 1 as -> ->. rewrite beqb_refl. reflexivity.
    + split; [|discriminate]. cbn. discriminate.
  - destruct (pfx k) as [a|] eqn:P; [|tauto]. destruct (NE _ _ Sk P) as (c2 & a' & -> & Na).
    split; discriminate.
Qed.

Section F.
Variable lru_class : bool -> bytes -> bytes -> nat.
Variable maxcls : nat.
Notation cls := (cls lru_class maxcls).
Notation unlink := (unlink lru_class maxcls).
Notation Core := (Core lru_class maxcls).

Section One.
Variable P : item -> bool.

Record Fl (s s' : state) : Prop := {
  f_env : env_same s s';
  f_ev : evicted s' = evicted s;
  f_fwd : forall j it, items s j = Some it -> items s' j = Some it \/
            (ilinked it = true /\ P it = true /\
             (iref it = 0%nat /\ items s' j = None \/
              iref it <> 0%nat /\ items s' j = Some (set_linked (set_inlru it false) false)));
  f_bwd : forall j it', items s' j = Some it' -> items s j <> None;
  f_pold : forall j it', items s' j = Some it' -> ilinked it' = true ->
             pold s' (pfx (ikey it')) = pold s (pfx (ikey it'));
  f_pold' : forall q, pold s' q = pold s q \/ pold s' q = 0;
  f_lru : forall b c j, In j (lru s' b c) -> In j (lru s b c) }.

Lemma fl_linked s s' j it : Fl s s' -> items s' j = Some it -> ilinked it = true -> items s j = Some it.
Proof.
  intros F H L. destruct (items s j) as [x|] eqn:E; [|exfalso; eapply (f_bwd _ _ F); eassumption].
  destruct (f_fwd _ _ F _ _ E) as [A|(_ & _ & [[_ A]|[_ A]])]; [congruence|congruence|].
  rewrite H in A. injection A as ->. discriminate.
Qed.

Lemma Fl_refl s : Fl s s.
Proof. split; auto; [apply env_refl|congruence]. Qed.

Lemma Fl_trans s s1 s2 : Fl s s1 -> Fl s1 s2 -> Fl s s2.
Proof.
  intros A B. split.
  - eapply env_trans; [apply A|apply B].
  - rewrite (f_ev _ _ B). apply A.
  - intros j it H. destruct (f_fwd _ _ A _ _ H) as [H1|(L & Pt & [[Z N]|[Z N]])].
    + apply (f_fwd _ _ B). exact H1.
    + right. repeat split; auto. left. split; [exact Z|].
      destruct (items s2 j) eqn:E; [|reflexivity]. exfalso. eapply (f_bwd _ _ B); eassumption.
    + right. repeat split; auto. right. split; [exact Z|].
      destruct (f_fwd _ _ B _ _ N) as [H2|(L2 & _)]; [exact H2|discriminate].
  - intros j it H. destruct (items s1 j) as [x|] eqn:E; [|exfalso; eapply (f_bwd _ _ B); eassumption].
    eapply (f_bwd _ _ A). exact E.
  - intros j it H L. rewrite (f_pold _ _ B _ _ H L). eapply (f_pold _ _ A); [|exact L].
    eapply fl_linked; eassumption.
  - intro q. destruct (f_pold' _ _ B q) as [->| ->]; [apply A|auto].
  - intros b c j H. apply (f_lru _ _ A), (f_lru _ _ B). exact H.
Qed.

Lemma Fl_marks s s' : items s' = items s -> env_same s s' -> evicted s' = evicted s -> pold s' = pold s ->
  lru s' = lru s -> Fl s s'.
Proof.
  intros A B D E G. split; auto.
  - intros j it H. left. congruence.
  - intros j it H. congruence.
  - intros. rewrite E. reflexivity.
  - intro q. rewrite E. auto.
  - intros b c j. rewrite G. auto.
Qed.

Lemma Fl_unlink s i it : Core s -> items s i = Some it -> ilinked it = true -> P it = true ->
  Core (unlink s i) /\ Fl s (unlink s i).
Proof.
  intros C Hi Hl HP. destruct (unlink_spec lru_class maxcls s i it C Hi Hl) as (C1 & U & Uo & UT & UL & UE & UV & UP).
  split; [exact C1|]. split; auto.
  - intros j x H. destruct (Nat.eq_dec j i) as [->|N].
    + right. assert (x = it) by congruence. subst x. repeat split; auto.
      destruct (Nat.eqb_spec (iref it) 0); auto.
    + left. rewrite Uo by exact N. exact H.
  - intros j x H. destruct (Nat.eq_dec j i) as [->|N]; [congruence|]. rewrite Uo in H by exact N. congruence.
  - apply (pold_linked lru_class maxcls); assumption.
  - intro q. destruct (UP q) as [?|[? _]]; auto.
  - intros b c j H. rewrite UL in H. apply filter_ne_in in H. apply H.
Qed.
End One.

Definition fp (all : bool) (p : option bytes) (it : item) : bool := all || isincluded (pfx (ikey it)) p.

Lemma hd_rev_In (l : list nat) x : hd_error (rev l) = Some x -> In x l.
Proof. intro H. apply in_rev. destruct (rev l); [discriminate|]. injection H as ->. left. reflexivity. Qed.

Lemma flush_list_spec b c ol all p : forall l s, Core s -> NoDup l ->
  (forall j, In j l -> In j (lru s b c)) ->
  (forall j it, In j (lru s b c) -> ~ In j l -> items s j = Some it -> fp all p it = false) ->
  StronglySorted (fun i j => time_of s j <= time_of s i) l ->
  let s' := flush_list lru_class maxcls l s b c ol all p in
  Core s' /\ Fl (fp all p) s s' /\
  (forall j it, In j (lru s' b c) -> items s' j = Some it -> fp all p it = true -> itime it < ol).
Proof.
  induction l as [|i l IH]; intros s C ND In1 In2 Srt; cbn [flush_list]; cbv zeta.
  { split; [exact C|]. split; [apply Fl_refl|]. intros j it H1 H2 H3. rewrite (In2 j it) in H3; auto; discriminate. }
  destruct (in_lru_item lru_class maxcls s b c i C (In1 i (or_introl eq_refl))) as (it & Hi & Hl & Hq & Hs & Hc).
  rewrite Hi. inversion ND as [|? ? NI ND']; subst. inversion Srt as [|? ? Srt' Hhd]; subst.
  destruct (itime it <? ol) eqn:T.
  - (* the rest is older *)
    set (tl := hd_error (rev (lru s (is_sticky it) (cls it)))).
    assert (K : forall s', Core s' -> items s' = items s -> lru s' = lru s ->
       forall j x, In j (lru s' (is_sticky it) (cls it)) -> items s' j = Some x -> fp all p x = true -> itime x < ol).
    { intros s' C' EI EL j x H1 H2 H3. rewrite EL in H1. rewrite EI in H2.
      destruct (in_dec Nat.eq_dec j (i :: l)) as [[<-|Hj]|Hj].
      - assert (x = it) by congruence. subst x. lia.
      - rewrite Forall_forall in Hhd. specialize (Hhd j Hj). unfold time_of in Hhd. rewrite H2, Hi in Hhd. lia.
      - rewrite (In2 j x) in H3; auto; discriminate. }
    destruct (is_sticky it) eqn:St.
    + set (s' := w_smk s _). assert (C' : Core s').
      { apply (core_marks lru_class maxcls s); try reflexivity; try assumption; [apply C|].
        intros c' j. cbn. destruct (Nat.eq_dec c' (cls it)) as [->|N].
        - rewrite fset_same. apply hd_rev_In.
        - rewrite fset_other by exact N. apply C. }
      split; [exact C'|]. split; [apply Fl_marks; try reflexivity; repeat split|]. apply K; auto.
    + set (s' := w_curmk _ _). assert (C' : Core s').
      { apply (core_marks lru_class maxcls s); try reflexivity; try assumption; [|apply C].
        intros c'. cbn. destruct (Nat.eq_dec c' (cls it)) as [->|N].
        - rewrite !fset_same. subst tl. destruct (hd_error _) eqn:E; cbn; [|exact I].
          apply aoa_refl, hd_rev_In. exact E.
        - rewrite !fset_other by exact N. apply C. }
      split; [exact C'|]. split; [apply Fl_marks; try reflexivity; repeat split|]. apply K; auto.
  - change (all || isincluded (pfx (ikey it)) p) with (fp all p it).
    destruct (fp all p it) eqn:HP.
    + destruct (Fl_unlink (fp all p) s i it C Hi Hl HP) as [C1 F1].
      destruct (unlink_spec lru_class maxcls s i it C Hi Hl) as (_ & _ & Uo & _ & UL & _).
      assert (Ne : forall j, In j l -> j <> i) by (intros j H ->; contradiction).
      destruct (IH (unlink s i) C1 ND') as (C2 & F2 & K2).
      * intros j H. rewrite UL. apply filter_ne_in. split; [apply In1; right; exact H|auto].
      * intros j x H1 H2 H3. rewrite UL in H1. apply filter_ne_in in H1 as [H1 N]. rewrite Uo in H3 by exact N.
        apply (In2 j x); auto. intros [?|?]; congruence.
      * eapply SSorted_ext; [exact Srt'|]. intros x y Hx Hy. unfold time_of. rewrite !Uo by auto. auto.
      * split; [exact C2|]. split; [eapply Fl_trans; eassumption|exact K2].
    + destruct (IH s C ND') as (C2 & F2 & K2); auto.
      * intros j H. apply In1. right. exact H.
      * intros j x H1 H2 H3. destruct (Nat.eq_dec j i) as [->|N]; [congruence|]. apply (In2 j x); auto.
        intros [?|?]; congruence.
Qed.

Definition cleared (s : state) all p ol b c : Prop :=
  forall j it, In j (lru s b c) -> items s j = Some it -> fp all p it = true -> itime it < ol.

Lemma cleared_Fl s s' all p ol b c : Core s' -> Fl (fp all p) s s' -> cleared s all p ol b c -> cleared s' all p ol b c.
Proof.
  intros C F H j it H1 H2 H3. eapply H; [apply (f_lru _ _ _ F); exact H1| |exact H3].
  eapply fl_linked; [exact F|exact H2|]. apply (in_lru_item lru_class maxcls) in H1 as (x & A & B & _); [|exact C].
  congruence.
Qed.

Lemma flush_class_spec s c ol all p : Core s ->
  let s' := flush_class lru_class maxcls s c ol all p in
  Core s' /\ Fl (fp all p) s s' /\ forall b, cleared s' all p ol b c.
Proof.
  intro C. unfold flush_class. cbv zeta.
  assert (K : forall s b, Core s -> let s' := flush_list lru_class maxcls (lru s b c) s b c ol all p in
     Core s' /\ Fl (fp all p) s s' /\ cleared s' all p ol b c).
  { intros s0 b C0. apply flush_list_spec; auto; [apply C0| |apply C0]. intros; contradiction. }
  destruct (K s false C) as (C1 & F1 & K1). set (s1 := flush_list _ _ _ s false c ol all p) in *.
  destruct (K s1 true C1) as (C2 & F2 & K2). set (s2 := flush_list _ _ _ s1 true c ol all p) in *.
  split; [exact C2|]. split; [eapply Fl_trans; eassumption|].
  intros [|]; [exact K2|]. eapply cleared_Fl; eassumption.
Qed.

Lemma flush_fold_spec ol all p cs : forall s, Core s ->
  let s' := fold_left (fun s c => flush_class lru_class maxcls s c ol all p) cs s in
  Core s' /\ Fl (fp all p) s s' /\ forall b c, In c cs -> cleared s' all p ol b c.
Proof.
  induction cs as [|c cs IH]; intros s C; cbn [fold_left]; cbv zeta.
  { split; [exact C|]. split; [apply Fl_refl|]. intros b c []. }
  destruct (flush_class_spec s c ol all p C) as (C1 & F1 & K1). set (s1 := flush_class _ _ s c ol all p) in *.
  destruct (IH s1 C1) as (C2 & F2 & K2). set (s2 := fold_left _ cs s1) in *.
  split; [exact C2|]. split; [eapply Fl_trans; eassumption|].
  intros b c' [<-|H]; [|auto]. eapply cleared_Fl; [exact C2|exact F2|apply K1].
Qed.

Lemma flush_classes_spec s ol all p : Core s ->
  let s' := flush_classes lru_class maxcls s ol all p in
  Core s' /\ Fl (fp all p) s s' /\
  (forall j it, items s' j = Some it -> inlru it = true -> fp all p it = true -> itime it < ol).
Proof.
  intro C. unfold flush_classes. destruct (flush_fold_spec ol all p (seq 0 (S maxcls)) s C) as (C1 & F1 & K1).
  cbv zeta. set (s1 := fold_left _ _ s) in *. split; [exact C1|]. split; [exact F1|].
  intros j it H1 H2 H3. eapply (K1 (is_sticky it) (cls it)); [| |exact H1|exact H3].
  - apply in_seq. unfold KvModel.cls, KvModel.cls_of. lia.
  - apply (c_lru _ _ _ C1). exists it. auto.
Qed.
End F.
