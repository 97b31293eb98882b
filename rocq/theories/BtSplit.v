(* Splitting nodes *)
From Verif Require Import Base UtilModel BtModel BtSpec BtOrder BtLevel BtFind.
Local Open Scope nat_scope.

Definition capped (L : level) : Prop := forall k, used L k <= ITEM_COUNT.

Lemma used_app1 (A B : level) n : used (A ++ n :: B) (length A) = length n.
Proof. unfold used. rewrite nd_app1. reflexivity. Qed.

(* a level with two nodes separated by empty ones *)
Definition empties (Z : level) : Prop := Forall (fun n => n = []) Z.

Lemma empties_concat Z : empties Z -> concat Z = [].
Proof. intros H. induction H as [|n Z E H IH]; [reflexivity|]. cbn. subst. exact IH. Qed.

Lemma set_two (A Z B : level) n m n' m' :
  set_nd (set_nd (A ++ n :: Z ++ m :: B) (length A + S (length Z)) m') (length A) n' = A ++ n' :: Z ++ m' :: B.
Proof.
  replace (A ++ n :: Z ++ m :: B) with ((A ++ n :: Z) ++ m :: B) by (rewrite <- app_assoc; reflexivity).
  replace (length A + S (length Z)) with (length (A ++ n :: Z)) by (rewrite app_length; reflexivity).
  rewrite set_nd_app. rewrite <- app_assoc. cbn [app]. rewrite set_nd_app. reflexivity.
Qed.

Lemma set_two' (A Z B : level) n m n' m' :
  set_nd (set_nd (A ++ n :: Z ++ m :: B) (length A) n') (length A + S (length Z)) m' = A ++ n' :: Z ++ m' :: B.
Proof.
  rewrite set_nd_app.
  replace (A ++ n' :: Z ++ m :: B) with ((A ++ n' :: Z) ++ m :: B) by (rewrite <- app_assoc; reflexivity).
  replace (length A + S (length Z)) with (length (A ++ n' :: Z)) by (rewrite app_length; reflexivity).
  rewrite set_nd_app. rewrite <- app_assoc. reflexivity.
Qed.

Lemma nd_second (A Z B : level) n m : nd (A ++ n :: Z ++ m :: B) (length A + S (length Z)) = m.
Proof.
  replace (A ++ n :: Z ++ m :: B) with ((A ++ n :: Z) ++ m :: B) by (rewrite <- app_assoc; reflexivity).
  replace (length A + S (length Z)) with (length (A ++ n :: Z)) by (rewrite app_length; reflexivity).
  apply nd_app1.
Qed.

Lemma item_move_next (A Z B : level) n m c :
  item_move (A ++ n :: Z ++ m :: B) (length A) (length A + S (length Z)) Next c =
  A ++ firstn (length n - c) n :: Z ++ (skipn (length n - c) n ++ m) :: B.
Proof. unfold item_move, used. rewrite nd_second, nd_app1. apply set_two. Qed.

Lemma item_move_prev (A Z B : level) n m c :
  item_move (A ++ m :: Z ++ n :: B) (length A + S (length Z)) (length A) Prev c =
  A ++ (m ++ firstn c n) :: Z ++ skipn c n :: B.
Proof. unfold item_move, used. rewrite nd_second, nd_app1. apply set_two'. Qed.

Lemma two_at (L : level) k j : k < j -> j < length L -> exists A n Z m B,
  L = A ++ n :: Z ++ m :: B /\ length A = k /\ length A + S (length Z) = j /\ nd L k = n /\ nd L j = m.
Proof.
  intros KJ J. destruct (level_at L k) as (A & n & R & E & LA & N); [lia|].
  destruct (level_at R (j - S k)) as (Z & m & B & E2 & LZ & M).
  { subst L. rewrite app_length in J. cbn in J. lia. }
  subst R. exists A, n, Z, m, B. split; [exact E|]. split; [exact LA|]. split; [lia|]. split; [exact N|].
  subst L. replace j with (length A + S (length Z)) by lia. apply nd_second.
Qed.

Lemma mid_empty (A Z B : level) n m :
  (forall x, length A < x -> x < length A + S (length Z) -> used (A ++ n :: Z ++ m :: B) x = 0) -> empties Z.
Proof.
  intros H. apply Forall_forall. intros z Hz. apply In_nth_error in Hz. destruct Hz as [i Hi].
  assert (IL : i < length Z) by (apply (proj1 (nth_error_Some Z i)); intros X; pose proof (eq_trans (eq_sym Hi) X) as Q; discriminate Q).
  specialize (H (length A + S i) ltac:(lia) ltac:(lia)). unfold used, nd in H.
  rewrite app_nth2 in H by lia. replace (length A + S i - length A) with (S i) in H by lia. cbn [nth] in H.
  rewrite app_nth1 in H by assumption. rewrite (nth_error_nth _ _ _ Hi) in H. destruct z; [reflexivity|discriminate].
Qed.

(* moving the last (Next) or first (Prev) c slots of node k to the nearest node j *)
Lemma item_move_spec L k j dr c :
  k < length L -> j < length L -> c <= used L k ->
  match dr with Next => k < j | Prev => j < k end ->
  (forall x, (k < x < j \/ j < x < k) -> used L x = 0) ->
  let L' := item_move L k j dr c in
  let w := sum_wt (match dr with Next => skipn (used L k - c) (nd L k) | Prev => firstn c (nd L k) end) in
  concat L' = concat L /\ length L' = length L /\ sums L' = mv k j w (sums L) /\ w <= nth k (sums L) 0 /\
  used L' k = used L k - c /\ used L' j = used L j + c /\ (forall x, x <> k -> x <> j -> nd L' x = nd L x) /\
  (forall i, match dr with
             | Next => (i <= used L k - c -> flat L' k i = flat L k i) /\ (used L k - c <= i -> flat L' j (i - (used L k - c)) = flat L k i)
             | Prev => (i <= c -> flat L' j (i + used L j) = flat L k i) /\ (c <= i -> flat L' k (i - c) = flat L k i)
             end).
Proof.
  intros HK HJ HC HD HZ. destruct dr; cbv zeta.
  - destruct (two_at L k j HD HJ) as (A & n & Z & m & B & E & LA & LJ & N & M).
    assert (EZ : empties Z).
    { apply (mid_empty A Z B n m). intros x X1 X2. rewrite <- E. apply HZ. left. lia. }
    unfold used. rewrite N, M. unfold used in HC. rewrite N in HC. subst k j L.
    rewrite item_move_next. pose proof (empties_concat Z EZ) as CZ.
    set (x := length n - c) in *.
    split; [|split; [|split; [|split; [|split; [|split; [|split]]]]]].
    + rewrite !concat_app. cbn [concat]. rewrite !concat_app, CZ. cbn [concat app].
      rewrite <- (firstn_skipn x n) at 3. rewrite <- !app_assoc. reflexivity.
    + rewrite !app_length. cbn [length]. rewrite !app_length. reflexivity.
    + unfold mv, sums. rewrite !map_app. cbn [map]. rewrite !map_app. cbn [map].
      rewrite <- (map_length sum_wt A) at 2. rewrite upd_nth_app.
      replace (map sum_wt A ++ sum_wt n - sum_wt (skipn x n) :: map sum_wt Z ++ sum_wt m :: map sum_wt B)
        with ((map sum_wt A ++ sum_wt n - sum_wt (skipn x n) :: map sum_wt Z) ++ sum_wt m :: map sum_wt B)
        by (rewrite <- app_assoc; reflexivity).
      replace (length A + S (length Z)) with (length (map sum_wt A ++ sum_wt n - sum_wt (skipn x n) :: map sum_wt Z))
        by (rewrite app_length; cbn; rewrite !map_length; lia).
      rewrite upd_nth_app. rewrite <- app_assoc. cbn [app]. rewrite sum_wt_app.
      assert (SN : sum_wt n = sum_wt (firstn x n) + sum_wt (skipn x n)) by (rewrite <- sum_wt_app, firstn_skipn; reflexivity).
      f_equal. f_equal; [lia|]. f_equal. f_equal. lia.
    + rewrite sums_nth, nd_app1. rewrite <- (firstn_skipn x n) at 2. rewrite sum_wt_app. lia.
    + rewrite nd_app1, firstn_length. lia.
    + rewrite nd_second, app_length, skipn_length. lia.
    + intros y Y1 Y2. pose proof (set_two A Z B n m (firstn x n) (skipn x n ++ m)) as ST. etransitivity; [symmetry; exact (f_equal (fun l => nd l y) ST)|]. cbv beta.
      rewrite nd_set_other by congruence. rewrite nd_set_other by congruence. reflexivity.
    + intros i. split; intros HI.
      * rewrite !flat_app. reflexivity.
      * rewrite flat_app. set (n1 := firstn x n).
        replace (A ++ n1 :: Z ++ (skipn x n ++ m) :: B) with ((A ++ n1 :: Z) ++ (skipn x n ++ m) :: B) by (rewrite <- app_assoc; reflexivity).
        replace (length A + S (length Z)) with (length (A ++ n1 :: Z)) by (rewrite app_length; reflexivity).
        rewrite flat_app, concat_app. cbn [concat]. rewrite CZ, app_nil_r, app_length. unfold n1. rewrite firstn_length. lia.
  - destruct (two_at L j k HD HK) as (A & m & Z & n & B & E & LA & LJ & M & N).
    assert (EZ : empties Z).
    { apply (mid_empty A Z B m n). intros x X1 X2. rewrite <- E. apply HZ. right. lia. }
    unfold used. rewrite N, M. unfold used in HC. rewrite N in HC. subst k j L.
    rewrite item_move_prev. pose proof (empties_concat Z EZ) as CZ.
    split; [|split; [|split; [|split; [|split; [|split; [|split]]]]]].
    + rewrite !concat_app. cbn [concat]. rewrite !concat_app, CZ. cbn [concat app].
      rewrite <- (firstn_skipn c n) at 3. rewrite <- !app_assoc. reflexivity.
    + rewrite !app_length. cbn [length]. rewrite !app_length. reflexivity.
    + unfold mv, sums. rewrite !map_app. cbn [map]. rewrite !map_app. cbn [map].
      rewrite sum_wt_app.
      assert (SN : sum_wt n = sum_wt (firstn c n) + sum_wt (skipn c n)) by (rewrite <- sum_wt_app, firstn_skipn; reflexivity).
      replace (map sum_wt A ++ sum_wt m :: map sum_wt Z ++ sum_wt n :: map sum_wt B)
        with ((map sum_wt A ++ sum_wt m :: map sum_wt Z) ++ sum_wt n :: map sum_wt B)
        by (rewrite <- app_assoc; reflexivity).
      replace (length A + S (length Z)) with (length (map sum_wt A ++ sum_wt m :: map sum_wt Z))
        by (rewrite app_length; cbn; rewrite !map_length; lia).
      rewrite upd_nth_app. rewrite <- app_assoc. cbn [app]. rewrite <- (map_length sum_wt A) at 1. rewrite upd_nth_app.
      f_equal. f_equal. f_equal. f_equal. lia.
    + rewrite sums_nth, nd_second. rewrite <- (firstn_skipn c n) at 2. rewrite sum_wt_app. lia.
    + rewrite nd_second, skipn_length. lia.
    + rewrite nd_app1, app_length, firstn_length. lia.
    + intros y Y1 Y2. pose proof (set_two' A Z B m n (m ++ firstn c n) (skipn c n)) as ST. etransitivity; [symmetry; exact (f_equal (fun l => nd l y) ST)|]. cbv beta.
      rewrite nd_set_other by congruence. rewrite nd_set_other by congruence. reflexivity.
    + intros i.
      assert (FK : forall i, flat (A ++ m :: Z ++ n :: B) (length A + S (length Z)) i = length (concat A) + length m + i).
      { intros i0. replace (A ++ m :: Z ++ n :: B) with ((A ++ m :: Z) ++ n :: B) by (rewrite <- app_assoc; reflexivity).
        replace (length A + S (length Z)) with (length (A ++ m :: Z)) by (rewrite app_length; reflexivity).
        rewrite flat_app, concat_app. cbn [concat]. rewrite CZ, app_nil_r, app_length. lia. }
      split; intros HI.
      * rewrite flat_app, FK. lia.
      * rewrite FK. set (m1 := m ++ firstn c n).
        replace (A ++ m1 :: Z ++ skipn c n :: B) with ((A ++ m1 :: Z) ++ skipn c n :: B) by (rewrite <- app_assoc; reflexivity).
        replace (length A + S (length Z)) with (length (A ++ m1 :: Z)) by (rewrite app_length; reflexivity).
        rewrite flat_app, concat_app. cbn [concat]. rewrite CZ, app_nil_r, app_length. unfold m1. rewrite app_length, firstn_length. lia.
Qed.

(* ---------- sbalance ---------- *)

(* what splitting keeps and establishes for the level L, the levels above, and position (k, i) *)
Definition split_post (L : level) (Us : list level) (k i : nat) (L' : level) (Us' : list level) (k' i' : nat) (p' : path) : Prop :=
  concat L' = concat L /\ lk (sums L') Us' /\ nonempty L' /\ Forall nonempty Us' /\ capped L' /\ Forall capped Us' /\
  pvalid Us' p' k' /\ used L' k' < ITEM_COUNT /\ i' <= used L' k' /\ k' < length L' /\
  flat L' k' i' = flat L k i /\ (i < used L k -> i' < used L' k').

Lemma shapes_nonempty Us : forall Us', shapes Us = shapes Us' -> Forall nonempty Us -> Forall nonempty Us'.
Proof.
  induction Us as [|U r IH]; intros [|U' r'] H F; cbn in H; try discriminate; [constructor|].
  injection H as H1 H2. inversion F; subst. constructor; [eapply nonempty_shape; eauto|]. apply IH; assumption.
Qed.
Lemma shapes_capped Us : forall Us', shapes Us = shapes Us' -> Forall capped Us -> Forall capped Us'.
Proof.
  induction Us as [|U r IH]; intros [|U' r'] H F; cbn in H; try discriminate; [constructor|].
  injection H as H1 H2. inversion F; subst. constructor.
  - intros k. rewrite <- (shape_used _ _ H1). auto.
  - apply IH; assumption.
Qed.

Lemma choose_adj L k dr j : k < length L -> choose L (next_of L k) (prev_of k) = Some (dr, j) ->
  j < length L /\ match dr with Next => j = S k | Prev => k = S j end /\
  (forall x, next_of L k = Some x -> used L j <= used L x) /\ (forall x, prev_of k = Some x -> used L j <= used L x).
Proof.
  intros K. unfold choose, next_of, prev_of.
  destruct (Nat.ltb_spec (S k) (length L)) as [H|H]; destruct k as [|k']; try discriminate.
  - intros EQ. injection EQ as <- <-. repeat split; auto; try congruence. intros x EX. injection EX as <-. lia.
  - destruct (Nat.ltb_spec (used L (S (S k'))) (used L k')); intros EQ; injection EQ as <- <-; repeat split; auto; try lia;
      intros x EX; injection EX as <-; lia.
  - intros EQ. injection EQ as <- <-. repeat split; auto; try lia; try congruence. intros x EX. injection EX as <-. lia.
Qed.

Lemma sbalance_spec L Us k i p dr j :
  choose L (next_of L k) (prev_of k) = Some (dr, j) -> used L k = ITEM_COUNT -> used L j < 16 -> i <= ITEM_COUNT ->
  (forall x, x < length L -> x <> j -> 0 < used L x) -> capped L -> Forall capped Us ->
  lk (sums L) Us -> Forall nonempty Us -> pvalid Us p k ->
  exists L' Us' k' i' p', sbalance L Us k i p = Some (L', Us', k', i', p') /\ split_post L Us k i L' Us' k' i' p' /\ length L' = length L /\ length Us' = length Us.
Proof.
  intros HCH UK UJ HI HNE HCP HCU HLK HNU HP. unfold sbalance. rewrite HCH.
  assert (KL : k < length L).
  { destruct (Nat.ltb_spec k (length L)); [assumption|]. unfold used, nd in UK. rewrite nth_overflow in UK by assumption. discriminate. }
  destruct (choose_adj L k dr j KL HCH) as (JL & ADJ & _ & _).
  set (far := match dr with Next => next_of L j | Prev => prev_of j end).
  set (c0 := if Nat.ltb 0 (used L j) then Nat.div (used L k - used L j) 2
             else match far with None => Nat.div (used L k) 10 | Some _ => Nat.div (used L k) 2 end).
  assert (C0 : 1 <= c0 <= 16 /\ used L j + c0 <= 31).
  { unfold c0. rewrite UK. unfold ITEM_COUNT in *. destruct (Nat.ltb_spec 0 (used L j)) as [H|H].
    - pose proof (Nat.div_mod (32 - used L j) 2 ltac:(lia)). pose proof (Nat.mod_upper_bound (32 - used L j) 2 ltac:(lia)). lia.
    - destruct far; cbn; lia. }
  rewrite (proj2 (Nat.eqb_neq c0 0)) by lia.
  set (c := c0) in *. clearbody c. clear c0 far.
  set (moved := match dr with Next => skipn (used L k - c) (nd L k) | Prev => firstn c (nd L k) end).
  set (L' := item_move L k j dr c).
  pose proof (item_move_spec L k j dr c KL JL) as IM. cbv zeta in IM. fold L' moved in IM.
  destruct IM as (I1 & I2 & I3 & I4 & I5 & I6 & I7 & I8).
  { unfold ITEM_COUNT in *. lia. }
  { destruct dr; lia. }
  { intros x X. destruct dr; lia. }
  destruct (move_split_spec Us (sums L) p k j dr (sum_wt moved) HLK HP I4 HNU) as (Us' & M1 & M2 & M3).
  { rewrite sums_length. exact JL. }
  { exact ADJ. }
  rewrite M1. assert (I3' : sums L' = mv k j (sum_wt moved) (sums L)) by exact I3. rewrite <- I3' in M2. clear I3.
  assert (LU' : length Us' = length Us) by (rewrite <- (map_length shape Us'), <- (map_length shape Us); exact (f_equal (@length _) M3)).
  assert (NU' : Forall nonempty Us') by (eapply shapes_nonempty; [symmetry; exact M3|assumption]).
  assert (CU' : Forall capped Us') by (eapply shapes_capped; [symmetry; exact M3|assumption]).
  assert (P' : pvalid Us' p k) by (eapply pvalid_shapes; [symmetry; exact M3|exact HP]).
  assert (NL' : nonempty L').
  { intros x X. destruct (Nat.eq_dec x k) as [->|NK]; [rewrite I5, UK; unfold ITEM_COUNT; lia|].
    destruct (Nat.eq_dec x j) as [->|NJ]; [rewrite I6; lia|]. unfold used. rewrite I7 by assumption. apply HNE; [lia|assumption]. }
  assert (CL' : capped L').
  { intros x. destruct (Nat.eq_dec x k) as [->|NK]; [rewrite I5, UK; lia|].
    destruct (Nat.eq_dec x j) as [->|NJ]; [rewrite I6; unfold ITEM_COUNT; lia|]. unfold used. rewrite I7 by assumption. apply HCP. }
  assert (POST : forall k' i' p', pvalid Us' p' k' -> (k' = k \/ k' = j) -> flat L' k' i' = flat L k i ->
            i' <= used L' k' -> (i < used L k -> i' < used L' k') -> split_post L Us k i L' Us' k' i' p').
  { intros k' i' p' Q1 Q2 Q3 Q4 Q5. unfold split_post. repeat match goal with |- _ /\ _ => split end; auto.
    - destruct Q2 as [->| ->]; [rewrite I5, UK; unfold ITEM_COUNT; lia|rewrite I6; unfold ITEM_COUNT; lia].
    - rewrite I2. destruct Q2 as [->| ->]; assumption. }
  unfold ITEM_COUNT in UK.
  specialize (I8 i). destruct dr.
  - rewrite I5. destruct (Nat.leb_spec (used L k - c) i) as [G|G].
    + destruct (incr_path_spec Us' (sums L') p k M2 P') as (q & Q1 & Q2).
      { rewrite sums_length, I2. lia. }
      { exact NU'. }
      rewrite Q1. exists L', Us', j, (i - (used L k - c)), q. split; [reflexivity|]. split; [|split; [exact I2|exact LU']].
      apply POST; auto; [rewrite ADJ; exact Q2|apply I8; exact G| |]; rewrite I6; unfold ITEM_COUNT in *; lia.
    + exists L', Us', k, i, p. split; [reflexivity|]. split; [|split; [exact I2|exact LU']].
      apply POST; auto; [apply I8; lia| |]; rewrite I5; lia.
  - rewrite I6. destruct (Nat.ltb_spec i c) as [G|G].
    + assert (P2 : pvalid Us' p (S j)) by (rewrite <- ADJ; exact P').
      destruct (decr_path_spec Us' (sums L') p j M2 P2 NU') as (q & Q1 & Q2).
      rewrite Q1. exists L', Us', j, (i + (used L j + c - c)), q. split; [reflexivity|]. split; [|split; [exact I2|exact LU']].
      replace (i + (used L j + c - c)) with (i + used L j) by lia.
      apply POST; auto; [apply I8; lia| |]; rewrite I6; lia.
    + exists L', Us', k, (i - c), p. split; [reflexivity|]. split; [|split; [exact I2|exact LU']].
      apply POST; auto; [apply I8; lia| |]; rewrite I5; unfold ITEM_COUNT in *; lia.
Qed.

(* ---------- link_split ---------- *)

Lemma ins_nth_app {A} (a : list A) x b : ins_nth (length a) x (a ++ b) = a ++ x :: b.
Proof. unfold ins_nth. rewrite firstn_app, firstn_all, skipn_app, skipn_all, Nat.sub_diag. cbn [firstn skipn app]. rewrite app_nil_r. reflexivity. Qed.

Lemma ins_nth_split {A} (l : list A) i x : i <= length l -> exists a b, l = a ++ b /\ length a = i /\ ins_nth i x l = a ++ x :: b.
Proof.
  intros H. exists (firstn i l), (skipn i l). split; [symmetry; apply firstn_skipn|].
  split; [rewrite firstn_length; lia|reflexivity].
Qed.

Lemma ins_nth_length {A} (l : list A) i x : i <= length l -> length (ins_nth i x l) = S (length l).
Proof. intros H. destruct (ins_nth_split l i x H) as (a & b & -> & _ & ->). rewrite !app_length. cbn. lia. Qed.

(* inserting a Cnt 0 slot at flat position x of U *)
Lemma ins_cnt0 U a b : b <= used U a -> a < length U ->
  let U' := set_nd U a (ins_nth b (Cnt 0) (nd U a)) in
  concat U' = ins_nth (flat U a b) (Cnt 0) (concat U) /\ sums U' = sums U /\ length U' = length U /\
  used U' a = S (used U a) /\ (forall x, x <> a -> nd U' x = nd U x) /\
  (forall c, flat U' a c = flat U a c) .
Proof.
  intros H AL U'. unfold U'. clear U'. destruct (level_at U a AL) as (A & n & B & E & LA & N).
  unfold used in *. rewrite N in *. subst U a. rewrite set_nd_app.
  destruct (ins_nth_split n b (Cnt 0) H) as (n1 & n2 & EN & L1 & EI).
  split; [|split; [|split; [|split; [|split]]]].
  - rewrite flat_app, !concat_app. cbn [concat]. rewrite EI, EN.
    replace (concat A ++ (n1 ++ n2) ++ concat B) with ((concat A ++ n1) ++ n2 ++ concat B) by (rewrite <- !app_assoc; reflexivity).
    replace (length (concat A) + b) with (length (concat A ++ n1)) by (rewrite app_length; lia).
    rewrite ins_nth_app. rewrite <- !app_assoc. reflexivity.
  - unfold sums. rewrite !map_app. cbn [map]. f_equal. f_equal. rewrite EI, EN, !sum_wt_app. reflexivity.
  - rewrite !app_length. reflexivity.
  - rewrite nd_app1. apply ins_nth_length. exact H.
  - intros x X. rewrite <- (set_nd_app A B n (ins_nth b (Cnt 0) n)). apply nd_set_other. congruence.
  - intros c. rewrite !flat_app. reflexivity.
Qed.

Lemma ins_nil_level (L : level) x : x <= length L ->
  concat (ins_nth x [] L) = concat L /\ sums (ins_nth x [] L) = ins_nth x 0 (sums L).
Proof.
  intros H. destruct (ins_nth_split (A := list slot) L x [] H) as (a & b & E & LA & EI). rewrite EI. subst L. split.
  - rewrite !concat_app. reflexivity.
  - rewrite !sums_app. cbn [sums map]. change (sum_wt []) with 0. replace x with (length (sums a)) by (rewrite sums_length; exact LA). rewrite ins_nth_app. reflexivity.
Qed.

Lemma nd_ins_before (L : level) x (n : list slot) y : x <= length L -> y < x -> nd (ins_nth x n L) y = nd L y.
Proof.
  intros H Y. destruct (ins_nth_split (A := list slot) L x n H) as (a & b & E & LA & EI). rewrite EI, E. unfold nd.
  rewrite !app_nth1 by lia. reflexivity.
Qed.
Lemma nd_ins_at (L : level) x (n : list slot) : x <= length L -> nd (ins_nth x n L) x = n.
Proof. intros H. destruct (ins_nth_split (A := list slot) L x n H) as (a & b & E & LA & EI). rewrite EI, <- LA. apply nd_app1. Qed.
Lemma nd_ins_after (L : level) x (n : list slot) y : x <= length L -> x <= y -> nd (ins_nth x n L) (S y) = nd L y.
Proof.
  intros H Y. destruct (ins_nth_split (A := list slot) L x n H) as (a & b & E & LA & EI). rewrite EI, E. unfold nd.
  rewrite !app_nth2 by lia. replace (S y - length a) with (S (y - length a)) by lia. reflexivity.
Qed.

Lemma flat_ins_nil (L : level) x y i : x <= length L -> flat (ins_nth x [] L) (if Nat.ltb y x then y else S y) i = flat L y i.
Proof.
  intros H. destruct (ins_nth_split (A := list slot) L x [] H) as (a & b & E & LA & EI). rewrite EI, E. unfold flat. f_equal.
  destruct (Nat.ltb_spec y x) as [G|G].
  - rewrite !firstn_app. replace (y - length a) with 0 by lia. reflexivity.
  - rewrite !firstn_app, (firstn_all2 a (n := S y)), (firstn_all2 a (n := y)) by lia. replace (S y - length a) with (S (y - length a)) by lia.
    cbn [firstn]. rewrite !concat_app. reflexivity.
Qed.

Lemma link_split_spec L Us k i p :
  used L k = ITEM_COUNT -> i <= ITEM_COUNT -> nonempty L -> capped L -> Forall capped Us ->
  lk (sums L) Us -> Forall nonempty Us -> pvalid Us p k ->
  (match Us, p with U :: _, (pk, _) :: _ => used U pk < ITEM_COUNT | _, _ => False end) ->
  exists L' Us' k' i' p', link_split L Us k i p = Some (L', Us', k', i', p') /\ split_post L Us k i L' Us' k' i' p' /\ length Us' = length Us.
Proof.
  intros UK HI HNE HCP HCU HLK HNU HP HROOM. unfold link_split. change (Nat.div ITEM_COUNT 2) with 16.
  set (dr := match prev_of k, next_of L k with None, None => if Nat.ltb i 16 then Prev else Next | None, Some _ => Prev | Some _, _ => Next end).
  assert (KL : k < length L).
  { destruct (Nat.ltb_spec k (length L)); [assumption|]. unfold used, nd in UK. rewrite nth_overflow in UK by assumption. discriminate. }
  destruct Us as [|U r]; [destruct p as [|[? ?] ?]; contradiction|]. destruct p as [|[pk pi] q]; [contradiction|].
  cbn [lk] in HLK. destruct HLK as (HW & HC & HLK). destruct HP as (V & F & HP).
  inversion HCU as [|U0 r0 CU CR]; subst U0 r0. inversion HNU as [|U0 r0 NU NR]; subst U0 r0.
  rewrite (proj2 (Nat.leb_le _ _)) by lia. pose proof (used_lt _ _ _ V) as PL.
  assert (LW : length (concat U) = length L) by (rewrite <- (map_length wt), HW, sums_length; reflexivity).
  (* both directions: node inserted at x, slot at pi' *)
  assert (GEN : forall x pi' k2, x <= length L -> flat U pk pi' = x -> pi' <= used U pk ->
     k2 = (if Nat.ltb k x then k else S k) ->
     let LL := ins_nth x [] L in let UU := set_nd U pk (ins_nth pi' (Cnt 0) (nd U pk)) in
     used LL k2 = ITEM_COUNT /\ used LL x = 0 /\ (forall y, y < length LL -> y <> x -> 0 < used LL y) /\ capped LL /\
     Forall capped (UU :: r) /\ lk (sums LL) (UU :: r) /\ Forall nonempty (UU :: r) /\ concat LL = concat L /\ flat LL k2 i = flat L k i).
  { intros x pi' k2 X1 X2 X3 K2 LL UU.
    destruct (ins_cnt0 U pk pi' X3 PL) as (J1 & J2 & J3 & J4 & J5 & J6). fold UU in J1, J2, J3, J4, J5, J6.
    destruct (ins_nil_level L x X1) as (N1 & N2). fold LL in N1, N2.
    assert (LL1 : length LL = S (length L)) by (apply ins_nth_length; exact X1).
    assert (UB : forall y, y < x -> used LL y = used L y) by (intros y Y; unfold used, LL; rewrite nd_ins_before by assumption; reflexivity).
    assert (UA : forall y, x <= y -> used LL (S y) = used L y) by (intros y Y; unfold used, LL; rewrite nd_ins_after by assumption; reflexivity).
    assert (UX : used LL x = 0) by (unfold used, LL; rewrite nd_ins_at by assumption; reflexivity).
    split; [|split; [exact UX|split; [|split; [|split; [|split; [|split; [|split]]]]]]].
    - subst k2. destruct (Nat.ltb_spec k x); [rewrite UB by assumption|rewrite UA by assumption]; exact UK.
    - intros y Y1 Y2. destruct (Nat.ltb_spec y x); [rewrite UB by assumption; apply HNE; lia|].
      destruct y as [|y]; [lia|]. rewrite UA by lia. apply HNE. lia.
    - intros y. destruct (Nat.lt_trichotomy y x) as [G|[->|G]]; [rewrite UB by assumption; apply HCP|rewrite UX; lia|].
      destruct y as [|y]; [lia|]. rewrite UA by lia. apply HCP.
    - constructor; [|assumption]. intros y. destruct (Nat.eq_dec y pk) as [->|NE]; [rewrite J4; lia|].
      unfold used. rewrite J5 by assumption. apply CU.
    - cbn [lk]. split; [|split].
      + rewrite J1, X2, N2, <- HW. destruct (ins_nth_split (concat U) x (Cnt 0)) as (a & b & EU & LA & EI); [lia|].
        rewrite EI, EU, !map_app. cbn [map wt]. rewrite <- LA at 1. rewrite <- (map_length wt a). rewrite ins_nth_app. reflexivity.
      + rewrite J1. destruct (ins_nth_split (concat U) (flat U pk pi') (Cnt 0)) as (a & b & EU & LA & EI); [lia|].
        rewrite EI. rewrite EU in HC. apply Forall_app in HC. apply Forall_app. split; [tauto|]. constructor; [exact Logic.I|tauto].
      + rewrite J2. exact HLK.
    - constructor; [|assumption]. intros y Y. destruct (Nat.eq_dec y pk) as [->|NE]; [rewrite J4; lia|].
      unfold used. rewrite J5 by assumption. apply NU. lia.
    - exact N1.
    - subst k2. apply flat_ins_nil. exact X1. }
  assert (FIN : forall x pi' pi2 k2, x <= length L -> flat U pk pi' = x -> pi' <= used U pk ->
     k2 = (if Nat.ltb k x then k else S k) ->
     (pi2 < S (used U pk)) -> flat U pk pi2 = k2 -> 
     (forall LL, used LL x = 0 -> length LL = S (length L) -> (forall y, y < length LL -> y <> x -> 0 < used LL y) ->
         exists dd, choose LL (next_of LL k2) (prev_of k2) = Some (dd, x)) ->
     exists L' Us' k' i' p', sbalance (ins_nth x [] L) (set_nd U pk (ins_nth pi' (Cnt 0) (nd U pk)) :: r) k2 i ((pk, pi2) :: q) = Some (L', Us', k', i', p') /\
       split_post L (U :: r) k i L' Us' k' i' p' /\ length Us' = length (U :: r)).
  { intros x pi' pi2 k2 X1 X2 X3 K2 X4 X5 X6.
    destruct (GEN x pi' k2 X1 X2 X3 K2) as (G1 & G2 & G3 & G4 & G5 & G6 & G7 & G8 & G9).
    set (LL := ins_nth x [] L) in *. set (UU := set_nd U pk (ins_nth pi' (Cnt 0) (nd U pk))) in *.
    destruct (X6 LL G2) as (dd & CH); [apply ins_nth_length; exact X1|exact G3|].
    destruct (ins_cnt0 U pk pi' X3 PL) as (J1 & J2 & J3 & J4 & J5 & J6). fold UU in J1, J2, J3, J4, J5, J6.
    destruct (sbalance_spec LL (UU :: r) k2 i ((pk, pi2) :: q) dd x CH G1) as (L' & Us' & k' & i' & p' & S1 & S2 & S3 & S4); auto.
    - rewrite G2. lia.
    - cbn [pvalid]. split; [rewrite J4; exact X4|]. split; [rewrite J6; exact X5|exact HP].
    - exists L', Us', k', i', p'. split; [exact S1|]. split; [|exact S4]. unfold split_post in *.
      destruct S2 as (T1 & T2 & T3 & T4 & T5 & T6 & T7 & T8 & T9 & T10 & T11 & T12).
      rewrite T1, G8. rewrite T11, G9. rewrite UK. rewrite G1 in T12. repeat match goal with |- _ /\ _ => split end; auto. }
  destruct dr eqn:ED.
  - (* Next *)
    apply (FIN (S k) (S pi) pi k).
    + lia.
    + rewrite <- F. unfold flat. lia.
    + lia.
    + rewrite (proj2 (Nat.ltb_lt _ _)) by lia. reflexivity.
    + lia.
    + exact F.
    + intros LL Z LN NE. unfold choose, next_of, prev_of. rewrite (proj2 (Nat.ltb_lt _ _)) by lia.
      destruct k as [|k']; [eexists; reflexivity|]. rewrite Z.
      rewrite (proj2 (Nat.ltb_lt 0 _)) by (apply NE; lia). eexists; reflexivity.
  - (* Prev *)
    assert (K0 : k = 0).
    { destruct k as [|k']; [reflexivity|]. unfold dr, prev_of in ED. discriminate. }
    apply (FIN k pi (S pi) (S k)).
    + lia.
    + exact F.
    + lia.
    + rewrite Nat.ltb_irrefl. reflexivity.
    + lia.
    + rewrite <- F. unfold flat. lia.
    + intros LL Z LN NE. unfold choose, next_of. cbn [prev_of].
      destruct (Nat.ltb_spec (S (S k)) (length LL)) as [G|G]; [|eexists; reflexivity].
      rewrite Z. rewrite (proj2 (Nat.ltb_ge _ 0)) by lia. eexists; reflexivity.
Qed.

(* ---------- split ---------- *)

Lemma half_full_spec L o : half_full L o = true <-> exists j, o = Some j /\ used L j < 16.
Proof.
  unfold half_full. destruct o as [j|]; change (Nat.div ITEM_COUNT 2) with 16.
  - rewrite Nat.ltb_lt. split; [eauto|]. intros (j' & E & H). congruence.
  - split; [discriminate|]. intros (j' & E & _). discriminate.
Qed.

Lemma split_spec T : forall d k i p mem cc L Us, T = L :: Us ->
  used L k = ITEM_COUNT -> i <= ITEM_COUNT -> nonempty L -> capped L -> Forall capped Us ->
  lk (sums L) Us -> Forall nonempty Us -> pvalid Us p k -> cc = list_sum (sums L) ->
  match split T d k i p mem cc with
  | None => MAX_DEPTH <= d + length T
  | Some SplitNoMem => mem <= d + length T - d
  | Some (SplitOk T' k' i' p') => exists L' Us', T' = L' :: Us' /\ split_post L Us k i L' Us' k' i' p' /\
                                    length T <= length T' /\ (d + length T <= MAX_DEPTH -> d + length T' <= MAX_DEPTH)
  end.
Proof.
  induction T as [|L0 Us0 IH]; intros d k i p mem cc L Us ET UK HI HNE HCP HCU HLK HNU HP HCC; [discriminate|].
  injection ET as -> ->. cbn [split].
  assert (KL : k < length L).
  { destruct (Nat.ltb_spec k (length L)); [assumption|]. unfold used, nd in UK. rewrite nth_overflow in UK by assumption. discriminate. }
  destruct (half_full L (next_of L k) || half_full L (prev_of k)) eqn:HF.
  - assert (CH : exists dr j, choose L (next_of L k) (prev_of k) = Some (dr, j)).
    { unfold choose. apply orb_true_iff in HF. rewrite !half_full_spec in HF.
      destruct (next_of L k) as [a|], (prev_of k) as [b|].
      - destruct (Nat.ltb (used L a) (used L b)); eauto.
      - eauto.
      - eauto.
      - destruct HF as [(j & E & _)|(j & E & _)]; discriminate. }
    destruct CH as (dr & j & CH). destruct (choose_adj L k dr j KL CH) as (JL & ADJ & M1 & M2).
    assert (UJ : used L j < 16).
    { apply orb_true_iff in HF. rewrite !half_full_spec in HF. destruct HF as [(x & E & H)|(x & E & H)].
      - specialize (M1 x E). lia.
      - specialize (M2 x E). lia. }
    destruct (sbalance_spec L Us k i p dr j CH UK UJ HI) as (L' & Us' & k' & i' & p' & S1 & S2 & S3 & S4); auto.
    rewrite S1. exists L', Us'. split; [reflexivity|]. split; [exact S2|].
    cbn [length]. rewrite S4. lia.
  - destruct mem as [|mem1]; [cbn; lia|].
    destruct (Nat.ltb_spec (S d) MAX_DEPTH) as [DL|DL]; [|cbn; lia].
    destruct Us as [|U r].
    + destruct mem1 as [|mem2]; [cbn; lia|].
      assert (L1 : length L = 1) by (cbn in HLK; rewrite sums_length in HLK; exact HLK).
      assert (P0 : p = [] /\ k = 0) by (destruct p as [|[? ?] ?]; [cbn in HP; auto|contradiction]). destruct P0 as [-> ->].
      destruct (link_split_spec L [[[Cnt cc]]] 0 i [(0, 0)] UK HI HNE HCP) as (L' & Us' & k' & i' & p' & S1 & S2 & LU).
      * constructor; [|constructor]. intros [|[|x]]; unfold used, nd, ITEM_COUNT; cbn; lia.
      * cbn [lk]. split; [|split].
        -- destruct L as [|n [|n2 L]]; try discriminate. cbn [concat app sums map wt]. f_equal. rewrite HCC. cbn. lia.
        -- constructor; [exact Logic.I|constructor].
        -- reflexivity.
      * constructor; [|constructor]. intros x X. cbn in X. assert (x = 0) by lia. subst x. unfold used, nd. cbn. lia.
      * cbn. unfold used, nd. cbn. repeat split; lia.
      * unfold used, nd. cbn. unfold ITEM_COUNT. lia.
      * rewrite S1. exists L', Us'. split; [reflexivity|].
        split; [exact S2|]. cbn [length] in *. rewrite LU. unfold MAX_DEPTH in *. lia.
    + destruct p as [|[pk pi] q]; [contradiction|].
      cbn [lk] in HLK. destruct HLK as (HW & HC & HLK). destruct HP as (V & F & HP).
      inversion HCU as [|U0 r0 CU CR]; subst U0 r0. inversion HNU as [|U0 r0 NU NR]; subst U0 r0.
      assert (ABOVE : match (if Nat.leb ITEM_COUNT (used U pk) then split (U :: r) (S d) pk pi q mem1 cc else Some (SplitOk (U :: r) pk pi q)) with
                      | None => MAX_DEPTH <= S d + length (U :: r)
                      | Some SplitNoMem => mem1 <= length (U :: r)
                      | Some (SplitOk T' k' i' p') => exists L' Us', T' = L' :: Us' /\ concat L' = concat U /\ lk (sums L') Us' /\ nonempty L' /\ Forall nonempty Us' /\
                           capped L' /\ Forall capped Us' /\ pvalid Us' p' k' /\ used L' k' < ITEM_COUNT /\ i' < used L' k' /\ flat L' k' i' = flat U pk pi /\
                           length (U :: r) <= length T' /\ (S d + length (U :: r) <= MAX_DEPTH -> S d + length T' <= MAX_DEPTH)
                      end).
      { destruct (Nat.leb_spec ITEM_COUNT (used U pk)) as [GU|GU].
        - assert (UE : used U pk = ITEM_COUNT) by (pose proof (CU pk); lia).
          specialize (IH (S d) pk pi q mem1 cc U r eq_refl UE ltac:(lia) NU CU CR HLK NR HP).
          assert (CE : cc = list_sum (sums U)).
          { rewrite HCC, <- HW, <- sum_wt_list. unfold sums. symmetry. rewrite <- concat_sum. reflexivity. }
          specialize (IH CE). destruct (split (U :: r) (S d) pk pi q mem1 cc) as [[T' k' i' p'|]|].
          + destruct IH as (L' & Us' & -> & PO & LE1 & LE2). exists L', Us'.
            destruct PO as (T1 & T2 & T3 & T4 & T5 & T6 & T7 & T8 & T9 & T10 & T11 & T12).
            repeat match goal with |- _ /\ _ => split end; auto.
          + lia.
          + lia.
        - exists U, r. repeat match goal with |- _ /\ _ => split end; auto. }
      destruct (if Nat.leb ITEM_COUNT (used U pk) then split (U :: r) (S d) pk pi q mem1 cc else Some (SplitOk (U :: r) pk pi q)) as [[T' k' i' p'|]|].
      * destruct ABOVE as (U' & r' & -> & A1 & A2 & A3 & A4 & A5 & A6 & A7 & A8 & A9 & A10 & A11 & A12).
        destruct (link_split_spec L (U' :: r') k i ((k', i') :: p') UK HI HNE HCP) as (L2 & Us2 & k2 & i2 & p2 & S1 & S2 & LU).
        -- constructor; assumption.
        -- cbn [lk]. rewrite A1. auto.
        -- constructor; assumption.
        -- cbn [pvalid]. rewrite A10. auto.
        -- exact A8.
        -- rewrite S1. exists L2, Us2. split; [reflexivity|].
           split; [|cbn [length] in *; rewrite LU; cbn [length]; lia].
           exact S2.
      * cbn [length] in *. lia.
      * cbn [length] in *. lia.
Qed.
