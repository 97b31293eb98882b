(* A built ring gives each key its owner. *)
From Coq Require Import String Ascii.
From Verif Require Import Base UtilModel KtModel KtSpec KtProofs.
From Coq Require Import List Permutation Sorted.
Local Open Scope nat_scope.
Local Open Scope list_scope.

Lemma back_ok f l h mid : hpoint f (nth mid l (0, 0)%nat) = h ->
  let i := back f l h mid in
  i <= mid /\ hpoint f (nth i l (0, 0)%nat) = h /\ (i = 0 \/ hpoint f (nth (i - 1) l (0, 0)%nat) <> h).
Proof.
  induction mid as [|k IH]; intros H; cbn [back]; [auto|].
  destruct (N.eqb_spec (hpoint f (nth k l (0, 0)%nat)) h) as [Q|Q].
  - destruct (IH Q) as (A & B & C). auto.
  - split; [lia|]. split; auto. right. now replace (S k - 1) with k by lia.
Qed.
Lemma cont_le_total f p q : cont_le f p q = false -> cont_le f q p = true.
Proof.
  unfold cont_le. destruct (N.ltb_spec (hpoint f p) (hpoint f q)); [discriminate|]. cbn [orb].
  destruct (N.eqb_spec (hpoint f p) (hpoint f q)) as [E|E]; cbn [andb].
  - intros H1. apply N.leb_gt in H1. rewrite E, N.eqb_refl, N.ltb_irrefl. cbn. apply N.leb_le. lia.
  - intros _. apply orb_true_iff. left. apply N.ltb_lt. lia.
Qed.
Lemma cont_le_iff f p q : cont_le f p q = true <->
  (hpoint f p < hpoint f q)%N \/ hpoint f p = hpoint f q /\ (n_idx (f (fst p)) <= n_idx (f (fst q)))%N.
Proof. unfold cont_le. rewrite orb_true_iff, andb_true_iff, N.ltb_lt, N.eqb_eq, N.leb_le. tauto. Qed.
Lemma cont_le_trans f p q r : cont_le f p q = true -> cont_le f q r = true -> cont_le f p r = true.
Proof. rewrite !cont_le_iff. lia. Qed.

Lemma cont_find_ok f l h : StronglySorted (fun p q => cont_le f p q = true) l -> l <> [] ->
  exists i, cont_find f l h = Some i /\ i < length l /\
    ((h <= hpoint f (nth i l (0, 0)%nat))%N /\ (forall j, j < i -> (hpoint f (nth j l (0, 0)%nat) < h)%N) \/
     i = 0 /\ forall j, j < length l -> (hpoint f (nth j l (0, 0)%nat) < h)%N).
Proof.
  intros S NE. unfold cont_find.
  assert (M : forall i j, i <= j -> j < length l -> (hpoint f (nth i l (0, 0)%nat) <= hpoint f (nth j l (0, 0)%nat))%N).
  { intros i j L B. destruct (Nat.eq_dec i j) as [->|NQ]; [lia|]. pose proof (ss_nth _ l (0, 0)%nat S i j ltac:(lia) B) as Q. cbn beta in Q.
    apply cont_le_iff in Q. lia. }
  assert (LN : 0 < length l) by (destruct l; [congruence|cbn; lia]).
  set (cmp := fun mid => (h ?= hpoint f (nth (Z.to_nat mid) l (0, 0)%nat))%N).
  pose proof (bsearch_ok cmp (length l)) as B.
  assert (H1 : forall i j, (0 <= i <= j)%Z -> (j < Z.of_nat (length l))%Z -> cmp i = Lt -> cmp j = Lt).
  { unfold cmp. intros i j I J. rewrite !N.compare_lt_iff. specialize (M (Z.to_nat i) (Z.to_nat j)). lia. }
  assert (H2 : forall i j, (0 <= i <= j)%Z -> (j < Z.of_nat (length l))%Z -> cmp j = Gt -> cmp i = Gt).
  { unfold cmp. intros i j I J. rewrite !N.compare_gt_iff. specialize (M (Z.to_nat i) (Z.to_nat j)). lia. }
  specialize (B H1 H2). destruct (bsearch (length l) cmp) as [[m|m]|]; [| |tauto].
  - destruct B as [B C]. unfold cmp in C. apply N.compare_eq_iff in C. symmetry in C. destruct (back_ok f l h (Z.to_nat m) C) as (K1 & K2 & K3).
    set (i := back f l h (Z.to_nat m)) in *. exists i. split; auto. split; [lia|]. left. split; [lia|]. intros j J.
    destruct K3 as [K3|K3]; [lia|]. pose proof (M j (i - 1) ltac:(lia) ltac:(lia)). pose proof (M (i - 1) i ltac:(lia) ltac:(lia)). lia.
  - destruct B as (B & G & T). unfold cmp in G, T. cbv beta in G, T. destruct (Z.ltb_spec m (Z.of_nat (length l))) as [Q|Q].
    + exists (Z.to_nat m). split; auto. split; [lia|]. left. split.
      * specialize (T m (conj (Z.le_refl m) Q)). apply N.compare_lt_iff in T. apply N.lt_le_incl. exact T.
      * intros j J. specialize (G (Z.of_nat j) ltac:(lia)). rewrite Nat2Z.id in G. now apply N.compare_gt_iff in G.
    + exists 0. split; auto. split; auto. right. split; auto. intros j J. specialize (G (Z.of_nat j) ltac:(lia)). rewrite Nat2Z.id in G. now apply N.compare_gt_iff in G.
Qed.

Section Ring.
Variable md5 : bytes -> bytes.
Hypothesis D : digest_ok md5.

Definition nm (f : nat -> node) (i : nat) : bytes := n_name (f i).
(* nodes with distinct names in order, and the points that belong to the names *)
Definition core (f : nat -> node) (a : list nat) : Prop :=
  StronglySorted (fun x y => strcmp (nm f x) (nm f y) = Lt) a /\ (forall x, In x a -> n_hs (f x) = gen_node md5 (nm f x)).
Definition full (f : nat -> node) (r : ring) (self : bytes) : Prop :=
  core f (r_arr r) /\
  (forall k, k < length (r_arr r) -> n_idx (f (nth k (r_arr r) 0)) = N.of_nat k) /\
  StronglySorted (fun p q => cont_le f p q = true) (r_cont r) /\
  Permutation (pointers (r_arr r)) (r_cont r) /\
  (forall k, k < length (r_arr r) -> (Z.of_nat k = r_self r <-> nm f (nth k (r_arr r) 0) = self)).

Lemma pointers_in a x j : In (x, j) (pointers a) <-> In x a /\ j < 160.
Proof.
  unfold pointers. rewrite in_flat_map. split.
  - intros (y & Y & H). apply in_map_iff in H. destruct H as (k & [= -> ->] & K). apply in_seq in K. split; auto; lia.
  - intros (X & J). exists x. split; auto. apply in_map_iff. exists j. split; auto. apply in_seq. lia.
Qed.
Lemma core_order f a i j : core f a -> i < length a -> j < length a -> (i <= j <-> before (nm f (nth i a 0)) (nm f (nth j a 0))).
Proof.
  intros [S _] I J. rewrite <- strcmp_before. split.
  - intros L. destruct (Nat.eq_dec i j) as [->|NQ]; [now rewrite strcmp_refl|]. rewrite (ss_nth _ a 0 S i j); [discriminate|lia|auto].
  - intros B. destruct (Nat.le_gt_cases i j) as [L|L]; auto. exfalso. apply B. rewrite strcmp_sym. now rewrite (ss_nth _ a 0 S j i).
Qed.

Theorem ring_owner f r self key : full f r self -> r_arr r <> [] ->
  exists i p k, cont_find f (r_cont r) (hash_ketama md5 key) = Some i /\ nth_error (r_cont r) i = Some p /\ k < length (r_arr r) /\
    fst p = nth k (r_arr r) 0 /\ n_idx (f (fst p)) = N.of_nat k /\ owner md5 (map (nm f) (r_arr r)) key (nm f (fst p)).
Proof.
  intros (C & X & S & P & _) NE. set (a := r_arr r) in *. set (l := r_cont r) in *.
  assert (NL : l <> []).
  { destruct a as [|x a']; [congruence|]. intros E. rewrite E in P. apply Permutation_sym, Permutation_nil in P. discriminate P. }
  destruct (cont_find_ok f l (hash_ketama md5 key) S NL) as (i & F & I & H).
  destruct (nth_error l i) as [[x j]|] eqn:N; [|apply nth_error_None in N; lia].
  assert (Nn : nth i l (0, 0)%nat = (x, j)) by (now apply nth_error_nth).
  assert (Px : In (x, j) (pointers a)) by (eapply Permutation_in; [symmetry; exact P|now apply nth_error_In in N]).
  apply pointers_in in Px. destruct Px as [Xa J]. destruct (In_nth a x 0 Xa) as (k & K & Kx).
  exists i, (x, j), k. cbn [fst]. do 4 (split; auto). split; [rewrite <- Kx; now apply X|].
  assert (HS : n_hs (f x) = gen_node md5 (nm f x)) by (now apply (proj2 C)).
  destruct (position_hash md5 D key) as [HK HB]. rewrite HK in H.
  assert (PT : point_of md5 (nm f x) (hpoint f (x, j))).
  { apply (proj1 (gen_node_in md5 D _ _)). unfold hpoint. cbn [fst snd]. rewrite HS. apply nth_In. now rewrite gen_node_len. }
  split; [apply in_map_iff; eauto|]. exists (hpoint f (x, j)). split; auto. intros m q M Q.
  apply in_map_iff in M. destruct M as (y & <- & Y). apply (proj2 (gen_node_in md5 D _ _)) in Q. rewrite <- (proj2 C y Y) in Q.
  destruct (In_nth _ q 0%N Q) as (j' & J' & E). rewrite (proj2 C y Y), gen_node_len in J'.
  assert (Py : In (y, j') l) by (eapply Permutation_in; [exact P|]; now apply pointers_in).
  destruct (In_nth l (y, j') (0, 0)%nat Py) as (t & T & Et).
  assert (Eq : hpoint f (y, j') = q) by exact E. rewrite Nn in H. clear E.
  assert (QB : (q < 2 ^ 32)%N) by (apply (point_lt md5 D (nm f y)); apply (proj1 (gen_node_in md5 D _ _)); now rewrite <- (proj2 C y Y)).
  assert (PB : (hpoint f (x, j) < 2 ^ 32)%N) by (now apply (point_lt md5 D (nm f x))).
  rewrite !ahead_val by assumption. rewrite <- Eq in *.
  assert (O : i < t -> (hpoint f (x, j) < hpoint f (y, j'))%N \/ hpoint f (x, j) = hpoint f (y, j') /\ before (nm f x) (nm f y)).
  { intros L. pose proof (ss_nth _ l (0, 0)%nat S i t L T) as Z. cbn beta in Z. rewrite Nn, Et in Z. apply cont_le_iff in Z. cbn [fst] in Z.
    destruct Z as [Z|[Z1 Z2]]; auto. right. split; auto. destruct (In_nth a y 0 Y) as (k' & K' & Ky). rewrite <- Kx, <- Ky in *.
    rewrite !X in Z2 by assumption. apply core_order; auto. lia. }
  assert (O' : i = t -> (x, j) = (y, j')) by (intros ->; congruence).
  assert (R : before (nm f y) (nm f y)) by (rewrite <- strcmp_before; now rewrite strcmp_refl).
  revert HB PB QB. change (2 ^ 32)%N with 4294967296%N. intros HB PB QB. destruct H as [[H1 H2]|[H1 H2]].
  - destruct (N.leb_spec (position md5 key) (hpoint f (x, j))); [|lia].
    destruct (N.leb_spec (position md5 key) (hpoint f (y, j'))); [|left; lia].
    destruct (Nat.lt_trichotomy i t) as [L|[L|L]].
    + destruct (O L) as [Z|[Z1 Z2]]; [left; lia|right; split; auto; lia].
    + specialize (O' L). injection O' as -> ->. right. auto.
    + specialize (H2 t L). rewrite Et in H2. lia.
  - pose proof (H2 t T) as H3. rewrite Et in H3. pose proof (H2 i I) as H4. rewrite Nn in H4.
    destruct (N.leb_spec (position md5 key) (hpoint f (x, j))); [lia|].
    destruct (N.leb_spec (position md5 key) (hpoint f (y, j'))); [lia|].
    destruct (Nat.lt_trichotomy i t) as [L|[L|L]]; [| |lia].
    + destruct (O L) as [Z|[Z1 Z2]]; [left; lia|right; split; auto; lia].
    + specialize (O' L). injection O' as -> ->. right. auto.
Qed.
End Ring.
