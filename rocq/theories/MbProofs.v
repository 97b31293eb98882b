From Coq Require Import List NArith ZArith Bool Arith Lia Permutation.
From Verif Require Import Base MbModel MbSpec.
Local Open Scope list_scope.
Local Open Scope nat_scope.

Fixpoint lasto (l : list nat) : option nat := match l with [] => None | [x] => Some x | _ :: r => lasto r end.
Lemma lasto_app l t : lasto (l ++ [t]) = Some t.
Proof. induction l as [|x l IH]; [reflexivity|]. cbn. destruct (l ++ [t]) eqn:E; [destruct l; discriminate|exact IH]. Qed.
Lemma lasto_join l r : r <> [] -> lasto (l ++ r) = lasto r.
Proof. intro H. destruct (exists_last H) as (q & t & ->). rewrite app_assoc, !lasto_app. reflexivity. Qed.
Lemma lasto_none l : lasto l = None -> l = [].
Proof. intro H. destruct l as [|x l] using rev_ind; [reflexivity|]. rewrite lasto_app in H. discriminate. Qed.
Lemma lasto_some l t : lasto l = Some t -> exists q, l = q ++ [t].
Proof. intro H. destruct l as [|x l] using rev_ind; [discriminate|]. rewrite lasto_app in H. injection H as ->. eauto. Qed.

Lemma follows_frame h h' a l : follows h a l -> (forall x, In x l -> h' x = h x) -> follows h' a l.
Proof. induction 1 as [|x r H IH]; intro F; constructor. rewrite (F x (or_introl eq_refl)). apply IH. intros y Y. apply F. right. exact Y. Qed.
Lemma set_same h t v : set_next h t v t = v. Proof. unfold set_next. now rewrite Nat.eqb_refl. Qed.
Lemma set_other h t v x : x <> t -> set_next h t v x = h x. Proof. unfold set_next. intro H. destruct (Nat.eqb_spec x t); congruence. Qed.
Lemma follows_set h t v a l : follows h a l -> ~ In t l -> follows (set_next h t v) a l.
Proof. intros H N. apply (follows_frame h); [exact H|]. intros x X. apply set_other. intros ->. auto. Qed.
Lemma follows_cut h t b l1 : forall a rest l2, follows h a (l1 ++ t :: rest) -> ~ In t l1 -> follows (set_next h t b) b l2 -> follows (set_next h t b) a (l1 ++ t :: l2).
Proof.
  induction l1 as [|x l1 IH]; intros a rest l2 H N B; cbn [app] in *; inversion H; subst; constructor.
  - rewrite set_same. exact B.
  - rewrite set_other by (intros ->; apply N; left; reflexivity). eapply IH; [eassumption|intro Q; apply N; right; exact Q|exact B].
Qed.
Lemma follows_rest h l1 t rest : forall a, follows h a (l1 ++ t :: rest) -> follows h (h t) rest.
Proof. induction l1 as [|x l1 IH]; intros a H; cbn [app] in H; inversion H; subst; [assumption|]. eapply IH; eassumption. Qed.
Lemma follows_head h a l : follows h a l -> a = match l with [] => None | x :: _ => Some x end.
Proof. now destruct 1. Qed.
Lemma walk_to h l1 : forall a t rest, follows h (Some a) (l1 ++ t :: rest) -> walk h a (List.length l1) = Some t.
Proof.
  induction l1 as [|x l1 IH]; intros a t rest H; cbn [app List.length walk] in *; inversion H; subst; [reflexivity|].
  match goal with Q : follows h (h ?y) _ |- _ => destruct (h y) as [b|] eqn:E; [eapply IH; exact Q|inversion Q; destruct l1; discriminate] end.
Qed.

Notation all g := (List.concat (map blocks_of g)).
Definition owns (h : heap) (L : lst) (g : option (list nat)) : Prop :=
  match g with Some b => l_owned L = true /\ follows h (l_head L) b /\ l_tail L = lasto b /\ l_cnt L = List.length b | None => l_owned L = false end.
Definition R (k : Z) (s : state) (st : astate) : Prop :=
  let '(fl, given) := st in
  follows (hp s) (p_head (pl s)) fl /\ p_tail (pl s) = lasto fl /\ (p_free (pl s) + k = Z.of_nat (List.length fl))%Z /\ p_used (pl s) = Z.of_nat (List.length (all given)) /\
  Forall2 (owns (hp s)) (slots s) given /\ Permutation (fl ++ all given) (seq 0 (brk s)).

Lemma owns_frame h h' L g : owns h L g -> (forall x, In x (blocks_of g) -> h' x = h x) -> owns h' L g.
Proof. destruct g as [b|]; [|auto]. intros (A & B & C) F. split; [exact A|]. split; [|exact C]. eapply follows_frame; [exact B|exact F]. Qed.
Lemma owns_all h h' Ls gs : Forall2 (owns h) Ls gs -> (forall x, In x (all gs) -> h' x = h x) -> Forall2 (owns h') Ls gs.
Proof.
  induction 1 as [|L g Ls gs H _ IH]; intro F; constructor.
  - eapply owns_frame; [exact H|]. intros x X. apply F. cbn. apply in_or_app. auto.
  - apply IH. intros x X. apply F. cbn. apply in_or_app. auto.
Qed.
Lemma all_app a b : all (a ++ b) = all a ++ all b. Proof. rewrite map_app, concat_app. reflexivity. Qed.
Lemma slot_split {A} (gs : list A) i g : nth_error gs i = Some g -> gs = firstn i gs ++ g :: skipn (S i) gs /\ List.length (firstn i gs) = i.
Proof. revert i. induction gs as [|y gs IH]; intros [|i] E; cbn in *; try discriminate; [injection E as ->; auto|]. destruct (IH _ E) as [Q1 Q2]. split; [now rewrite <- Q1|now rewrite Q2]. Qed.
Lemma upd_put {A} (l : list A) i x y : nth_error l i = Some y -> upd l i x = put l i x.
Proof. revert i. induction l as [|z l IH]; intros [|i] E; cbn in *; try discriminate; [reflexivity|]. unfold put in *. cbn. rewrite (IH _ E). reflexivity. Qed.
Lemma slot_of h Ls gs i g : Forall2 (owns h) Ls gs -> nth_error gs i = Some g -> exists L, nth_error Ls i = Some L /\ owns h L g.
Proof. intro H. revert i. induction H as [|L g' Ls gs H _ IH]; intros [|i] E; cbn in *; try discriminate; [injection E as <-; eauto|auto]. Qed.
Lemma slot_put h Ls gs i L g : Forall2 (owns h) Ls gs -> i < List.length gs -> owns h L g -> Forall2 (owns h) (put Ls i L) (put gs i g).
Proof.
  intro H. revert i. induction H as [|L' g' Ls gs H0 H IH]; intros i B O; cbn in B; [lia|]. destruct i as [|i]; unfold put in *; cbn; constructor; auto. apply IH; [lia|exact O].
Qed.
Lemma all_put gs i g g' : nth_error gs i = Some g -> Permutation (all (put gs i g') ++ blocks_of g) (all gs ++ blocks_of g').
Proof.
  intro E. destruct (slot_split _ _ _ E) as [SP _]. rewrite SP at 2. unfold put. rewrite !all_app. cbn [map List.concat]. set (x := all (firstn i gs)). set (y := all (skipn (S i) gs)).
  rewrite <- !app_assoc. apply Permutation_app_head. rewrite (Permutation_app_comm (y) (blocks_of g)), (Permutation_app_comm y (blocks_of g')).
  rewrite !app_assoc. apply Permutation_app_tail, Permutation_app_comm.
Qed.
Lemma frame_put h h' Ls gs i L g : Forall2 (owns h) Ls gs -> nth_error gs i <> None -> (forall x, In x (all (firstn i gs) ++ all (skipn (S i) gs)) -> h' x = h x) -> owns h' L g -> Forall2 (owns h') (put Ls i L) (put gs i g).
Proof.
  intro H. revert i. induction H as [|L' g' Ls gs H0 H IH]; intros i B F O; [destruct i; cbn in B; congruence|]. destruct i as [|i].
  - unfold put. cbn. constructor; [exact O|]. eapply owns_all; [exact H|]. intros x X. apply F. cbn. exact X.
  - unfold put in *. cbn. constructor.
    + eapply owns_frame; [exact H0|]. intros x X. apply F. cbn. apply in_or_app. left. apply in_or_app. auto.
    + apply IH; [exact B| |exact O]. intros x X. apply F. cbn [firstn map List.concat]. rewrite <- app_assoc. apply in_or_app. right. exact X.
Qed.
Lemma perm_nodup l n : Permutation l (seq 0 n) -> NoDup l /\ forall x, In x l -> x < n.
Proof.
  intro P. split; [eapply Permutation_NoDup; [apply Permutation_sym; exact P|apply seq_NoDup]|]. intros x X. apply (Permutation_in _ P) in X. apply in_seq in X. lia.
Qed.
Lemma nodup_app (l1 l2 : list nat) : NoDup (l1 ++ l2) -> NoDup l1 /\ NoDup l2 /\ forall x, In x l1 -> ~ In x l2.
Proof.
  induction l1 as [|x l1 IH]; cbn; intro H; [repeat split; [constructor|exact H|contradiction]|]. inversion H; subst. destruct (IH ltac:(assumption)) as (A & B & C).
  split; [constructor; [intro Q; apply H2, in_or_app; auto|exact A]|]. split; [exact B|]. intros y [<-|Y]; [intro Q; apply H2, in_or_app; auto|apply C, Y].
Qed.

(* ---- grow ---- *)
Lemma grow_one_R k s fl given : R k s (fl, given) -> R (k + 1) (grow_one s) (fl ++ [brk s], given) /\ brk (grow_one s) = S (brk s) /\ p_body (pl (grow_one s)) = p_body (pl s) /\ slots (grow_one s) = slots s /\ p_free (pl (grow_one s)) = p_free (pl s).
Proof.
  intros (F & T & N & U & O & P). split; [|repeat split]. destruct (perm_nodup _ _ P) as [ND LT].
  assert (NB : ~ In (brk s) (fl ++ all given)) by (intro Q; apply LT in Q; lia).
  unfold R, grow_one. cbn [hp pl p_head p_tail p_free p_used slots brk]. rewrite T.
  assert (PP : Permutation ((fl ++ [brk s]) ++ all given) (seq 0 (S (brk s)))).
  { rewrite seq_S. cbn [Nat.add]. rewrite <- app_assoc. rewrite (Permutation_app_comm [brk s]). rewrite app_assoc. apply Permutation_app_tail, P. }
  split; [|split; [symmetry; apply lasto_app|split; [rewrite app_length; cbn; lia|split; [exact U|split; [|exact PP]]]]].
  - destruct (lasto fl) as [t|] eqn:E.
    + destruct (lasto_some _ _ E) as (q & ->). rewrite <- app_assoc. apply (follows_cut _ t (Some (brk s)) q _ [] [brk s]).
      * apply follows_set; [exact F|]. intro Q. apply NB, in_or_app. auto.
      * intro Q. apply nodup_app in ND. destruct ND as (ND & _ & _). apply nodup_app in ND. destruct ND as (_ & _ & ND). apply (ND t Q). left. reflexivity.
      * constructor. rewrite set_other; [rewrite set_same; constructor|]. intros X. apply NB. rewrite X. apply in_or_app. left. apply in_or_app. right. left. reflexivity.
    + apply lasto_none in E. subst fl. cbn [app]. constructor. rewrite set_same. constructor.
  - eapply owns_all; [exact O|]. intros x X. assert (NX : x <> brk s) by (intros ->; apply NB, in_or_app; auto). destruct (lasto fl) as [t|] eqn:E; [|apply set_other, NX].
    rewrite set_other; [apply set_other, NX|]. intros ->. destruct (lasto_some _ _ E) as (q & ->). apply nodup_app in ND. destruct ND as (_ & _ & ND). apply (ND t); [apply in_or_app; right; left; reflexivity|exact X].
Qed.
Lemma grow_loop_R n : forall av k s fl given s' c, R k s (fl, given) -> grow_loop s n av = (s', c) ->
  exists more, List.length more = c /\ c = Nat.min n av /\ R (k + Z.of_nat c) s' (fl ++ more, given) /\ p_body (pl s') = p_body (pl s) /\ slots s' = slots s /\ p_free (pl s') = p_free (pl s).
Proof.
  induction n as [|n IH]; intros [|av] k s fl given s' c H E; cbn [grow_loop] in E; try (injection E as <- <-; exists []; rewrite app_nil_r; replace (k + Z.of_nat 0)%Z with k by lia; cbn; auto 10).
  destruct (grow_loop (grow_one s) n av) as [s1 c1] eqn:E1. injection E as <- <-. destruct (grow_one_R k s fl given H) as (H1 & _ & B1 & S1 & F1).
  destruct (IH av _ _ _ _ _ _ H1 E1) as (more & L & C & H2 & B2 & S2 & F2). exists (brk s :: more). split; [cbn; lia|]. split; [cbn; lia|]. split; [|rewrite B2, S2, F2; auto].
  rewrite <- app_assoc in H2. cbn [app] in H2. replace (k + Z.of_nat (S c1))%Z with (k + 1 + Z.of_nat c1)%Z by lia. exact H2.
Qed.
Lemma grow_R n av s fl given s' c : R 0 s (fl, given) -> do_mblck_pool_grow s n av = (s', c) ->
  exists more, List.length more = c /\ c = Nat.min n av /\ R 0 s' (fl ++ more, given) /\ p_body (pl s') = p_body (pl s) /\ slots s' = slots s.
Proof.
  intros H E. unfold do_mblck_pool_grow in E. destruct (grow_loop s n av) as [s1 c1] eqn:E1. injection E as <- <-.
  destruct (grow_loop_R _ _ _ _ _ _ _ _ H E1) as (more & L & C & (A1 & A2 & A3 & A4 & A5 & A6) & B & S & F). exists more. repeat split; auto. cbn [pl p_free]. lia.
Qed.
Lemma init_R len : R 0 (do_mblck_pool_init len) ([], []).
Proof. repeat split; constructor. Qed.
