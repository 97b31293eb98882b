(* Sorting, searching, order of names, hash points. *)
From Coq Require Import String Ascii.
From Verif Require Import Base UtilModel KtModel KtSpec.
From Coq Require Import List Permutation Sorted.
Local Open Scope nat_scope.
Local Open Scope list_scope.

Section SortF.
Context {A : Type}.
Variable le : A -> A -> bool.
Hypothesis total : forall a b, le a b = false -> le b a = true.
Hypothesis trans : forall a b c, le a b = true -> le b c = true -> le a c = true.
Lemma ins_perm a l : Permutation (a :: l) (ins le a l).
Proof.
  induction l as [|b r IH]; cbn; [reflexivity|]. destruct (le a b); [reflexivity|].
  rewrite perm_swap. now constructor.
Qed.
Lemma isort_perm l : Permutation l (isort le l).
Proof.
  induction l as [|a r IH]; cbn; [constructor|]. rewrite <- ins_perm. now constructor.
Qed.
Lemma ins_sorted a l : StronglySorted (fun x y => le x y = true) l -> StronglySorted (fun x y => le x y = true) (ins le a l).
Proof.
  induction 1 as [|b r S IH F]; cbn; [repeat constructor|]. destruct (le a b) eqn:Q.
  - constructor; [now constructor|]. constructor; auto. eapply Forall_impl; [|exact F]. intros c H. cbn in H. now apply (trans a b c).
  - constructor; auto. apply Forall_forall. intros c H. apply (Permutation_in c (Permutation_sym (ins_perm a r))) in H.
    destruct H as [<-|H]; [now apply total|]. rewrite Forall_forall in F. now apply F.
Qed.
Lemma isort_sorted l : StronglySorted (fun x y => le x y = true) (isort le l).
Proof. induction l as [|a r IH]; cbn; [constructor|now apply ins_sorted]. Qed.
End SortF.

Lemma ss_nth {A} (R : A -> A -> Prop) l d : StronglySorted R l -> forall i j, i < j -> j < length l -> R (nth i l d) (nth j l d).
Proof.
  induction 1 as [|a r S IH F]; intros i j L B; cbn in B; [lia|]. destruct j; [lia|]. cbn [nth]. destruct i.
  - rewrite Forall_forall in F. apply F. apply nth_In. lia.
  - apply IH; lia.
Qed.

(* ---------- names ---------- *)
Lemma strcmp_eq a : forall b, strcmp a b = Eq <-> a = b.
Proof.
  induction a as [|x a IH]; intros [|y b]; cbn; try (split; congruence). destruct (N.compare_spec x y) as [->|H|H].
  - rewrite IH. split; congruence.
  - split; [discriminate|]. intros [= -> ->]. lia.
  - split; [discriminate|]. intros [= -> ->]. lia.
Qed.
Lemma strcmp_refl a : strcmp a a = Eq. Proof. now apply strcmp_eq. Qed.
Lemma strcmp_sym a : forall b, strcmp b a = CompOpp (strcmp a b).
Proof.
  induction a as [|x a IH]; intros [|y b]; cbn; auto. rewrite (N.compare_antisym x y). destruct (x ?= y)%N; cbn; auto.
Qed.
Lemma strcmp_lt_trans a : forall b c, strcmp a b = Lt -> strcmp b c = Lt -> strcmp a c = Lt.
Proof.
  induction a as [|x a IH]; intros [|y b] [|z c]; cbn; try congruence; auto.
  destruct (N.compare_spec x y) as [->|H|H]; try congruence.
  - destruct (y ?= z)%N; try congruence. apply IH.
  - intros _. destruct (N.compare_spec y z) as [->|H2|H2]; try congruence; intros Q.
    + now rewrite (proj2 (N.compare_lt_iff x z) H).
    + now rewrite (proj2 (N.compare_lt_iff x z)) by lia.
Qed.
Lemma strcmp_before a : forall b, strcmp a b <> Gt <-> before a b.
Proof.
  induction a as [|x a IH]; intros [|y b]; cbn.
  - split; [constructor|discriminate].
  - split; [constructor|discriminate].
  - split; [congruence|]. intros H; inversion H.
  - destruct (N.compare_spec x y) as [->|H|H].
    + rewrite IH. split; [now constructor|]. intros Q. inversion Q; subst; auto. lia.
    + split; [now constructor|discriminate].
    + split; [congruence|]. intros Q. inversion Q; subst; lia.
Qed.
Lemma before_trans a b c : before a b -> before b c -> before a c.
Proof.
  rewrite <- !strcmp_before. intros H1 H2. destruct (strcmp a b) eqn:Q1; try congruence.
  - apply strcmp_eq in Q1. now subst.
  - destruct (strcmp b c) eqn:Q2; try congruence.
    + apply strcmp_eq in Q2. subst. now rewrite Q1.
    + now rewrite (strcmp_lt_trans a b c).
Qed.
Lemma before_antisym a b : before a b -> before b a -> a = b.
Proof.
  rewrite <- !strcmp_before. intros H1 H2. rewrite strcmp_sym in H2. apply strcmp_eq. destruct (strcmp a b); cbn in H2; congruence.
Qed.
Lemma before_total a b : before a b \/ before b a.
Proof. rewrite <- !strcmp_before. rewrite (strcmp_sym a b). destruct (strcmp a b); cbn; [left|left|right]; discriminate. Qed.

(* ---------- binary search ---------- *)
(* cmp i compares what is searched with element i *)
Lemma search_ok cmp n : (forall i j, (0 <= i <= j)%Z -> (j < n)%Z -> cmp i = Lt -> cmp j = Lt) ->
  (forall i j, (0 <= i <= j)%Z -> (j < n)%Z -> cmp j = Gt -> cmp i = Gt) ->
  forall fuel l r, (0 <= l)%Z -> (r < n)%Z -> (l <= r + 1)%Z -> (Z.to_nat (r - l + 1) < fuel)%nat ->
  (forall i, (0 <= i < l)%Z -> cmp i = Gt) -> (forall i, (r < i < n)%Z -> cmp i = Lt) ->
  match search fuel cmp l r with
  | Some (inl m) => (0 <= m < n)%Z /\ cmp m = Eq
  | Some (inr m) => (0 <= m <= n)%Z /\ (forall i, (0 <= i < m)%Z -> cmp i = Gt) /\ (forall i, (m <= i < n)%Z -> cmp i = Lt)
  | None => False
  end.
Proof.
  intros ML MG. induction fuel as [|f IH]; intros l r L R LR F G B; [lia|]. cbn [search].
  destruct (Z.leb_spec l r) as [Q|Q].
  - assert (M : (l <= (l + r) / 2 <= r)%Z).
    { split; [apply Z.div_le_lower_bound; lia|apply Z.div_le_upper_bound; lia]. }
    set (mid := ((l + r) / 2)%Z) in *. cbv zeta. destruct (cmp mid) eqn:C.
    + split; auto; lia.
    + apply IH; try lia; auto. intros i I. destruct (Z_lt_le_dec r i); [apply B; lia|]. apply (ML mid i); auto; lia.
    + apply IH; try lia; auto. intros i I. destruct (Z_lt_le_dec i l); [apply G; lia|]. apply (MG i mid); auto; lia.
  - split; [lia|]. split; [exact G|]. intros i I. apply B. lia.
Qed.
Lemma bsearch_ok cmp n : (forall i j, (0 <= i <= j)%Z -> (j < Z.of_nat n)%Z -> cmp i = Lt -> cmp j = Lt) ->
  (forall i j, (0 <= i <= j)%Z -> (j < Z.of_nat n)%Z -> cmp j = Gt -> cmp i = Gt) ->
  match bsearch n cmp with
  | Some (inl m) => (0 <= m < Z.of_nat n)%Z /\ cmp m = Eq
  | Some (inr m) => (0 <= m <= Z.of_nat n)%Z /\ (forall i, (0 <= i < m)%Z -> cmp i = Gt) /\ (forall i, (m <= i < Z.of_nat n)%Z -> cmp i = Lt)
  | None => False
  end.
Proof. intros ML MG. unfold bsearch. apply search_ok; auto; try lia. Qed.

(* ---------- hash points ---------- *)
Section Points.
Variable md5 : bytes -> bytes.
Hypothesis D : digest_ok md5.

Lemma lor_add a b n : (b < 2 ^ n)%N -> N.lor (N.shiftl a n) b = (a * 2 ^ n + b)%N.
Proof.
  intros H. rewrite N.shiftl_mul_pow2.
  assert (L : N.land (a * 2 ^ n) b = 0%N).
  { apply N.bits_inj. intros i. rewrite N.land_spec, N.bits_0. destruct (N.lt_ge_cases i n) as [L|L].
    + now rewrite N.mul_pow2_bits_low by lia.
    + destruct (N.eq_dec b 0) as [->|NZ]; [now rewrite N.bits_0, andb_false_r|]. rewrite (N.bits_above_log2 b), andb_false_r; auto.
      assert (N.log2 b < n)%N by (apply N.log2_lt_pow2; lia). lia. }
  rewrite (N.add_nocarry_lxor _ _ L). symmetry. now apply N.lxor_lor.
Qed.
Lemma shift_lor a b n : N.lor (N.shiftl a (8 + n)) (N.shiftl b n) = N.shiftl (N.lor (N.shiftl a 8) b) n.
Proof. rewrite N.shiftl_lor, N.shiftl_shiftl. reflexivity. Qed.
Lemma word_num a b c d : (a < 256)%N -> (b < 256)%N -> (c < 256)%N -> (d < 256)%N ->
  N.lor (N.lor (N.lor (N.shiftl d 24) (N.shiftl c 16)) (N.shiftl b 8)) a = (a + 256 * b + 65536 * c + 16777216 * d)%N.
Proof.
  intros A B C E. change 24%N with (8 + 16)%N. rewrite shift_lor. rewrite (lor_add d c 8) by exact C.
  change 16%N with (8 + 8)%N. rewrite shift_lor. rewrite (lor_add _ b 8) by exact B. rewrite (lor_add _ a 8) by exact A.
  change (2 ^ 8)%N with 256%N. lia.
Qed.
Lemma word_quarter s i : i < 4 -> word (md5 s) i = quarter (md5 s) i /\ (quarter (md5 s) i < 2 ^ 32)%N.
Proof.
  intros I. destruct (D s) as [L F]. unfold word, quarter. cbv zeta.
  destruct (md5 s) as [|a0 [|a1 [|a2 [|a3 [|a4 [|a5 [|a6 [|a7 [|a8 [|a9 [|a10 [|a11 [|a12 [|a13 [|a14 [|a15 [|? ?]]]]]]]]]]]]]]]]];
    try discriminate L.
  repeat match goal with H : Forall _ (_ :: _) |- _ => inversion H; clear H; subst end.
  change (2 ^ 32)%N with 4294967296%N.
  destruct i as [|[|[|[|?]]]]; try lia; cbn [nth Nat.add Nat.mul skipn firstn le32]; rewrite !N.mod_small by assumption;
    (split; [apply word_num; assumption|lia]).
Qed.
Lemma gen_points_in nm p : In p (gen_points md5 nm) <-> point_of md5 nm p.
Proof.
  unfold gen_points, point_of. rewrite in_flat_map. split.
  - intros (h & H & P). apply in_map_iff in P. destruct P as (i & <- & I). apply in_seq in H, I. exists h, i.
    repeat split; try lia. apply word_quarter. lia.
  - intros (h & i & H & I & ->). exists h. split; [apply in_seq; lia|]. apply in_map_iff. exists i.
    split; [apply word_quarter; lia|apply in_seq; lia].
Qed.
Lemma gen_points_len nm : length (gen_points md5 nm) = 160.
Proof. unfold gen_points. rewrite flat_map_concat_map. cbn [seq map concat]. rewrite !app_length. reflexivity. Qed.
Lemma gen_node_in nm p : In p (gen_node md5 nm) <-> point_of md5 nm p.
Proof.
  rewrite <- gen_points_in. unfold gen_node. split; apply Permutation_in; [symmetry|]; apply isort_perm.
Qed.
Lemma gen_node_len nm : length (gen_node md5 nm) = 160.
Proof. unfold gen_node. rewrite <- (Permutation_length (isort_perm _ _)). apply gen_points_len. Qed.
Lemma point_lt nm p : point_of md5 nm p -> (p < 2 ^ 32)%N.
Proof. intros (h & i & _ & I & ->). now apply word_quarter. Qed.
Lemma position_hash key : hash_ketama md5 key = position md5 key /\ (position md5 key < 2 ^ 32)%N.
Proof. unfold hash_ketama, position. apply word_quarter. lia. Qed.
Lemma ahead_val h p : (h < 2 ^ 32)%N -> (p < 2 ^ 32)%N -> ahead h p = if (h <=? p)%N then (p - h)%N else (p + 2 ^ 32 - h)%N.
Proof.
  unfold ahead. change (2 ^ 32)%N with 4294967296%N. intros H P. destruct (N.leb_spec h p).
  - replace (p + 4294967296 - h)%N with (p - h + 1 * 4294967296)%N by lia. rewrite N.mod_add by lia. apply N.mod_small. lia.
  - apply N.mod_small. lia.
Qed.

(* ---------- owners ---------- *)
Lemma owner_unique l key n m : owner md5 l key n -> owner md5 l key m -> n = m.
Proof.
  intros (I1 & p & P & H1) (I2 & q & Q & H2). specialize (H1 m q I2 Q). specialize (H2 n p I1 P).
  destruct H1 as [H1|[H1 B1]], H2 as [H2|[H2 B2]]; try lia. now apply before_antisym.
Qed.
End Points.
