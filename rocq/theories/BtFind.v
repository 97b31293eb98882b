(* Searching in the B+tree of BtModel, in terms of the rank in the sorted list of elements *)
From Verif Require Import Base UtilModel BtModel BtSpec BtOrder BtLevel.
Local Open Scope nat_scope.

Definition full (e : elem) : slot := El (Some e).

Definition tree (T : list level) (E : list elem) : Prop :=
  match T with
  | [] => False
  | L :: Us => concat L = map full E /\ lk (sums L) Us /\ Forall nonempty T
  end.

(* sortedness by ranks *)
Definition incr_keys (E : list elem) : Prop :=
  forall i j a c, i < j -> nth_error E i = Some a -> nth_error E j = Some c -> klt (bk a) (bk c) = true.

Lemma sorted_incr E : sorted E <-> incr_keys E.
Proof.
  split.
  - induction E as [|x E IH]; intros HS i j a c IJ HA HC; [destruct i; discriminate|].
    destruct HS as [H1 H2]. destruct j as [|j]; [lia|]. cbn in HC. destruct i as [|i]; cbn in HA.
    + injection HA as <-. apply H1. eapply nth_error_In; eauto.
    + eapply (IH H2 i j); eauto. lia.
  - induction E as [|x E IH]; intros HK; cbn [sorted]; [exact Logic.I|]. split.
    + intros y HY. apply In_nth_error in HY. destruct HY as [n HN]. apply (HK 0 (S n)); [lia|reflexivity|exact HN].
    + apply IH. intros i j a c IJ HA HC. apply (HK (S i) (S j)); [lia|exact HA|exact HC].
Qed.

(* ---------- structure of a tree ---------- *)

Lemma last_nth {A} (l : list A) d : last l d = nth (length l - 1) l d.
Proof.
  induction l as [|x l IH]; [reflexivity|]. destruct l as [|y l]; [reflexivity|].
  change (last (x :: y :: l) d) with (last (y :: l) d). rewrite IH. cbn [length].
  replace (S (S (length l)) - 1) with (S (S (length l) - 1)) by lia. reflexivity.
Qed.

Fixpoint seg (Us : list level) (p : path) (k top : nat) : Prop :=
  match Us, p with
  | [], [] => k = top
  | U :: r, (pk, pi) :: q => pi < used U pk /\ flat U pk pi = k /\ seg r q pk top
  | _, _ => False
  end.

Lemma pvalid_seg Us : forall p k, pvalid Us p k <-> seg Us p k 0.
Proof. induction Us as [|U r IH]; intros [|[a b] p] k; cbn; try tauto. rewrite IH. tauto. Qed.

Lemma seg_snoc Us : forall p k U a b, seg Us p k (flat U a b) -> b < used U a -> seg (Us ++ [U]) (p ++ [(a, b)]) k a.
Proof.
  induction Us as [|V r IH]; intros [|[c d] p] k U a b; cbn; try tauto.
  - intros -> H. auto.
  - intros (H1 & H2 & H3) HU. split; [exact H1|]. split; [exact H2|]. apply IH; assumption.
Qed.

Lemma lk_lev W Us : forall d, lk W Us -> d < length Us ->
  map wt (concat (nth d Us [])) = match d with 0 => W | S d' => sums (nth d' Us []) end /\ Forall is_cnt (concat (nth d Us [])).
Proof.
  revert W. induction Us as [|U r IH]; intros W d H D; cbn in D; [lia|]. cbn [lk] in H. destruct H as (H1 & H2 & H3).
  destruct d as [|d]; cbn [nth]; [auto|].
  destruct (IH _ d H3) as (A & B); [lia|]. split; [|exact B]. rewrite A. destruct d; reflexivity.
Qed.

Lemma lk_top W Us : lk W Us -> Us <> [] -> length (last Us []) = 1.
Proof.
  revert W. induction Us as [|U r IH]; intros W H NE; [congruence|]. cbn [lk] in H. destruct H as (H1 & H2 & H3).
  destruct r as [|V r].
  - cbn in H3. rewrite sums_length in H3. exact H3.
  - change (last (U :: V :: r) []) with (last (V :: r) []). eapply IH; eauto. discriminate.
Qed.

Section Tree.
Variables (T : list level) (E : list elem).
Hypothesis HT : tree T E.

Lemma tree_link d : S d < length T -> map wt (concat (lev T (S d))) = sums (lev T d) /\ Forall is_cnt (concat (lev T (S d))).
Proof using HT.
  destruct T as [|L Us]; [contradiction|]. destruct HT as (H1 & H2 & H3). cbn [length]. intros D.
  unfold lev. cbn [nth]. destruct (lk_lev _ _ d H2) as (A & B); [lia|]. split; [|exact B].
  rewrite A. destruct d; reflexivity.
Qed.

Lemma tree_nonempty d : d < length T -> nonempty (lev T d).
Proof using HT.
  destruct T as [|L Us]; [contradiction|]. destruct HT as (H1 & H2 & H3). intros D.
  rewrite Forall_forall in H3. apply H3. unfold lev. apply nth_In. exact D.
Qed.

Lemma tree_leaf : concat (lev T 0) = map full E.
Proof using HT. destruct T as [|L Us]; [contradiction|]. exact (proj1 HT). Qed.

Lemma tree_top : length (lev T (depth T)) = 1.
Proof using HT.
  destruct T as [|L Us]; [contradiction|]. destruct HT as (H1 & H2 & H3). unfold depth, lev. cbn [length].
  destruct Us as [|U r].
  - cbn in H2. rewrite sums_length in H2. exact H2.
  - pose proof (lk_top _ _ H2 ltac:(discriminate)) as HL. rewrite last_nth in HL.
    replace (S (length (U :: r)) - 1) with (S (length (U :: r) - 1)) by (cbn; lia). exact HL.
Qed.

Lemma tree_length : 0 < length T.
Proof using HT. destruct T as [|L Us]; [contradiction|]. cbn. lia. Qed.

Lemma tree_total : total T = length E.
Proof using HT. unfold total. rewrite tree_leaf, map_length. reflexivity. Qed.

Lemma elem_at_spec k i : i < used (lev T 0) k -> elem_at T k i = nth_error E (flat (lev T 0) k i) /\ flat (lev T 0) k i < length E.
Proof using HT.
  intros H. unfold elem_at. rewrite <- flat_nth by assumption. rewrite tree_leaf.
  pose proof (flat_lt _ _ _ H) as F. rewrite tree_leaf, map_length in F. split; [|exact F].
  rewrite nth_error_map. unfold full. destruct (nth_error E (flat (lev T 0) k i)); reflexivity.
Qed.

Lemma leaf_sum k : sum_wt (nd (lev T 0) k) = used (lev T 0) k.
Proof using HT.
  unfold used. assert (F : Forall (fun s => wt s = 1) (concat (lev T 0))).
  { rewrite tree_leaf. apply Forall_forall. intros s Hs. apply in_map_iff in Hs. destruct Hs as (e & <- & _). reflexivity. }
  assert (F2 : Forall (fun s => wt s = 1) (nd (lev T 0) k)).
  { destruct (Nat.ltb_spec k (length (lev T 0))) as [H|H].
    - rewrite (split_level _ k H), concat_app in F. cbn [concat] in F. apply Forall_app in F. destruct F as [_ F].
      apply Forall_app in F. tauto.
    - unfold nd. rewrite nth_overflow by assumption. constructor. }
  induction F2 as [|s n H F2 IH]; [reflexivity|]. cbn [sum_wt fold_right length]. rewrite H. fold (sum_wt n). lia.
Qed.

Lemma leaf_sums : sums (lev T 0) = shape (lev T 0).
Proof using HT.
  apply list_ext. intros i. destruct (Nat.ltb_spec i (length (lev T 0))) as [H|H].
  - rewrite (nth_error_nth' _ 0) by (rewrite sums_length; exact H).
    rewrite (nth_error_nth' (shape _) 0) by (rewrite length_shape; exact H).
    rewrite sums_nth, leaf_sum, used_shape. reflexivity.
  - rewrite !(proj2 (nth_error_None _ _)); rewrite ?sums_length, ?length_shape; auto.
Qed.

Lemma before_leaf k : before (lev T 0) k = flat (lev T 0) k 0.
Proof using HT. unfold before. rewrite leaf_sums, flat_shape. lia. Qed.

Lemma before_S d k : k < length (lev T d) -> before (lev T d) (S k) = before (lev T d) k + sum_wt (nd (lev T d) k).
Proof using.
  intros H. unfold before. rewrite <- sums_nth.
  assert (K : k < length (sums (lev T d))) by (rewrite sums_length; exact H).
  revert K. generalize (sums (lev T d)). clear H. intros l. revert k.
  unfold list_sum. induction l as [|x l IH]; intros [|k] H; cbn in H; try lia; [cbn; lia|].
  specialize (IH k ltac:(lia)). cbn [firstn fold_right nth] in *. lia.
Qed.

Lemma child_lt d k i : S d < length T -> i < used (lev T (S d)) k -> flat (lev T (S d)) k i < length (lev T d).
Proof using HT.
  intros D H. pose proof (flat_lt _ _ _ H) as F. destruct (tree_link d D) as (A & _).
  apply (f_equal (@length _)) in A. rewrite map_length, sums_length in A. lia.
Qed.

Lemma before_child d k i : S d < length T -> k < length (lev T (S d)) -> i <= used (lev T (S d)) k ->
  before (lev T d) (flat (lev T (S d)) k i) = before (lev T (S d)) k + sum_wt (firstn i (nd (lev T (S d)) k)).
Proof using HT.
  intros D K H. destruct (tree_link d D) as (A & _). unfold before at 1. apply before_flat; assumption.
Qed.

Lemma sum_pos d : d < length T -> forall k, k < length (lev T d) -> 0 < sum_wt (nd (lev T d) k).
Proof using HT.
  induction d as [|d IH]; intros D k K.
  - rewrite leaf_sum. apply tree_nonempty; assumption.
  - pose proof (tree_nonempty (S d) D k K) as U0.
    destruct (tree_link d D) as (A & _).
    assert (Wp : forall i, i < used (lev T (S d)) k -> 0 < slot_wt (lev T (S d)) k i).
    { intros i I0. rewrite slot_wt_nth by assumption. rewrite A, sums_nth. apply IH; [lia|]. apply child_lt; assumption. }
    pose proof (slot_le_sum (lev T (S d)) k 0). specialize (Wp 0 U0). lia.
Qed.

Lemma seg_tl d : S d < length T -> firstn (S d) (tl T) = firstn d (tl T) ++ [lev T (S d)].
Proof using HT.
  destruct T as [|L Us]; [contradiction|]. cbn [length tl]. intros D. unfold lev. cbn [nth].
  assert (D' : d < length Us) by lia. clear - D'. revert d D'.
  induction Us as [|U r IH]; intros d D; cbn in D; [lia|]. destruct d as [|d]; [reflexivity|].
  change (firstn (S (S d)) (U :: r)) with (U :: firstn (S d) r). rewrite IH by lia. reflexivity.
Qed.

Lemma first_leaf_spec d : d < length T -> forall k, k < length (lev T d) ->
  exists l p, first_leaf T d k = (l, p) /\ l < length (lev T 0) /\ flat (lev T 0) l 0 = before (lev T d) k /\ seg (firstn d (tl T)) p l k.
Proof using HT.
  induction d as [|d IH]; intros D k K.
  - exists k, []. split; [reflexivity|]. split; [exact K|]. split; [symmetry; apply before_leaf|]. reflexivity.
  - pose proof (tree_nonempty (S d) D k K) as U0.
    destruct (IH ltac:(lia) (flat (lev T (S d)) k 0)) as (l & p & E1 & E2 & E3 & E4); [apply child_lt; assumption|].
    exists l, (p ++ [(k, 0)]). cbn [first_leaf]. rewrite E1. split; [reflexivity|]. split; [exact E2|]. split.
    + rewrite E3. rewrite before_child by (assumption || lia). cbn [firstn]. unfold sum_wt. cbn. lia.
    + rewrite seg_tl by assumption. apply seg_snoc; assumption.
Qed.

Lemma last_leaf_spec d : d < length T -> forall k, k < length (lev T d) ->
  exists l p, last_leaf T d k = (l, p) /\ l < length (lev T 0) /\ flat (lev T 0) (S l) 0 = before (lev T d) (S k) /\ seg (firstn d (tl T)) p l k.
Proof using HT.
  induction d as [|d IH]; intros D k K.
  - exists k, []. split; [reflexivity|]. split; [exact K|]. split; [symmetry; apply before_leaf|]. reflexivity.
  - pose proof (tree_nonempty (S d) D k K) as U0. set (i := used (lev T (S d)) k - 1).
    assert (I0 : i < used (lev T (S d)) k) by (unfold i; lia).
    assert (CL : flat (lev T (S d)) k i < length (lev T d)) by (apply child_lt; assumption).
    destruct (IH ltac:(lia) (flat (lev T (S d)) k i)) as (l & p & E1 & E2 & E3 & E4); [exact CL|].
    exists l, (p ++ [(k, i)]). cbn [last_leaf]. fold i. rewrite E1. split; [reflexivity|]. split; [exact E2|]. split.
    + rewrite E3. replace (S (flat (lev T (S d)) k i)) with (flat (lev T (S d)) k (S i)) by (unfold flat; lia).
      rewrite before_child by (assumption || lia). rewrite before_S by assumption.
      rewrite firstn_all2; [reflexivity|]. unfold used in *. lia.
    + rewrite seg_tl by assumption. apply seg_snoc; assumption.
Qed.

Lemma first_elem_spec d k : d < length T -> k < length (lev T d) ->
  first_elem T d k = nth_error E (before (lev T d) k) /\ before (lev T d) k < length E.
Proof using HT.
  intros D K. unfold first_elem. destruct (first_leaf_spec d D k K) as (l & p & E1 & E2 & E3 & _).
  rewrite E1. cbn [fst]. rewrite <- E3. apply elem_at_spec. apply (tree_nonempty 0 tree_length). exact E2.
Qed.

Lemma last_elem_spec d k : d < length T -> k < length (lev T d) ->
  last_elem T d k = nth_error E (before (lev T d) (S k) - 1).
Proof using HT.
  intros D K. unfold last_elem. destruct (last_leaf_spec d D k K) as (l & p & E1 & E2 & E3 & _).
  rewrite E1. cbn [fst]. pose proof (tree_nonempty 0 tree_length l E2) as U0.
  rewrite (proj1 (elem_at_spec l (used (lev T 0) l - 1) ltac:(lia))). f_equal.
  rewrite <- E3, flat_S by assumption. unfold flat. lia.
Qed.

Lemma top_weight : before (lev T (depth T)) 1 = length E.
Proof using HT.
  pose proof tree_length as TL.
  assert (G : forall d, d < length T -> list_sum (sums (lev T d)) = length E).
  { induction d as [|d IH]; intros D.
    - rewrite leaf_sums, <- shape_concat, tree_leaf, map_length. reflexivity.
    - destruct (tree_link d D) as (A & _). rewrite <- IH by lia. rewrite <- A. symmetry.
      rewrite <- sum_wt_list. unfold sums. apply concat_sum. }
  unfold before. rewrite <- (G (depth T)) by (unfold depth; lia).
  rewrite firstn_all2; [reflexivity|]. rewrite sums_length, tree_top. lia.
Qed.

Lemma first_elem_root : first_elem T (depth T) 0 = hd_error E /\ E <> [].
Proof using HT.
  pose proof tree_length as TL. pose proof tree_top as TT.
  destruct (first_elem_spec (depth T) 0) as (A & B); [unfold depth; lia|lia|].
  rewrite A. change (before (lev T (depth T)) 0) with 0 in *. split.
  - destruct E; reflexivity.
  - destruct E; [cbn in B; lia|discriminate].
Qed.

Lemma hd_rev {A} (l : list A) : hd_error (rev l) = nth_error l (length l - 1).
Proof.
  destruct l as [|x l] using rev_ind; [reflexivity|]. rewrite rev_app_distr, app_length. cbn [rev app hd_error length].
  rewrite nth_error_app2 by lia. replace (length l + 1 - 1 - length l) with 0 by lia. reflexivity.
Qed.

Lemma last_elem_root : last_elem T (depth T) 0 = hd_error (rev E).
Proof using HT.
  pose proof tree_length as TL. pose proof tree_top as TT.
  rewrite last_elem_spec by (rewrite ?TT; unfold depth; lia). rewrite top_weight, hd_rev. reflexivity.
Qed.

Lemma root_path p l : seg (firstn (depth T) (tl T)) p l 0 -> pvalid (tl T) p l.
Proof using HT.
  rewrite firstn_all2 by (unfold depth; destruct T; cbn in *; lia). apply pvalid_seg.
Qed.

(* ---------- binary search ---------- *)

Lemma bsearch_spec b cmp (f : nat -> bkey) : forall fuel lo hi, hi - lo <= fuel ->
  (forall m, lo <= m < hi -> cmp m = Some (bcomp b (f m))) ->
  (forall m m', lo <= m -> m < m' -> m' < hi -> klt (f m) (f m') = true) ->
  lo <= hi ->
  (exists m, bsearch fuel cmp lo hi = Some (inl m) /\ lo <= m < hi /\ f m = b) \/
  (exists r, bsearch fuel cmp lo hi = Some (inr r) /\ lo <= r <= hi /\
             (forall m, lo <= m < r -> klt (f m) b = true) /\ (forall m, r <= m < hi -> klt b (f m) = true)).
Proof using.
  clear. induction fuel as [|fuel IH]; intros lo hi HF HC HM LE; cbn [bsearch].
  - rewrite (proj2 (Nat.ltb_ge _ _)) by lia. right. exists lo. split; [reflexivity|]. split; [lia|]. split; intros; lia.
  - destruct (Nat.ltb_spec lo hi) as [LT|GE].
    2:{ right. exists lo. split; [reflexivity|]. split; [lia|]. split; intros; lia. }
    set (mid := Nat.div (lo + (hi - 1)) 2).
    assert (M : lo <= mid < hi).
    { unfold mid. pose proof (Nat.div_mod (lo + (hi - 1)) 2 ltac:(lia)).
      pose proof (Nat.mod_upper_bound (lo + (hi - 1)) 2 ltac:(lia)). lia. }
    rewrite HC by assumption.
    destruct (bcomp_cases b (f mid)) as [(C & EQ & _)|[(C & K & _)|(C & K & _)]]; rewrite C.
    + left. exists mid. auto.
    + destruct (IH lo mid) as [(m & A1 & A2 & A3)|(r & A1 & A2 & A3 & A4)]; try lia.
      * intros; apply HC; lia.
      * intros; apply HM; lia.
      * left. exists m. split; [exact A1|]. split; [lia|exact A3].
      * right. exists r. split; [exact A1|]. split; [lia|]. split; [exact A3|].
        intros m Hm. destruct (Nat.ltb_spec m mid) as [|G]; [apply A4; lia|].
        destruct (Nat.eq_dec m mid) as [->|NE]; [exact K|]. eapply klt_trans; [exact K|]. apply HM; lia.
    + destruct (IH (S mid) hi) as [(m & A1 & A2 & A3)|(r & A1 & A2 & A3 & A4)]; try lia.
      * intros; apply HC; lia.
      * intros; apply HM; lia.
      * left. exists m. split; [exact A1|]. split; [lia|exact A3].
      * right. exists r. split; [exact A1|]. split; [lia|]. split; [|exact A4].
        intros m Hm. destruct (Nat.ltb_spec mid m) as [|G]; [apply A3; lia|].
        destruct (Nat.eq_dec m mid) as [->|NE]; [exact K|]. eapply klt_trans; [|exact K]. apply HM; lia.
Qed.

(* ---------- find_leaf ---------- *)

Hypothesis HS : incr_keys E.

Definition below (b : bkey) (r : nat) : Prop := forall j e, j < r -> nth_error E j = Some e -> klt (bk e) b = true.
Definition above (b : bkey) (r : nat) : Prop := forall j e, r <= j -> nth_error E j = Some e -> klt b (bk e) = true.

Definition key_at (j : nat) : bkey := match nth_error E j with Some e => bk e | None => U64 0 end.

Lemma key_at_incr i j : i < j -> j < length E -> klt (key_at i) (key_at j) = true.
Proof using HS.
  intros IJ J. unfold key_at.
  destruct (nth_error E i) as [a|] eqn:HA; [|apply nth_error_None in HA; lia].
  destruct (nth_error E j) as [c|] eqn:HC; [|apply nth_error_None in HC; lia].
  exact (HS i j a c IJ HA HC).
Qed.

Lemma key_at_lt b r : r < length E -> klt (key_at r) b = true -> below b (S r).
Proof using HS.
  intros R K j e J HE. unfold key_at in K.
  destruct (nth_error E r) as [a|] eqn:HA; [|apply nth_error_None in HA; lia].
  destruct (Nat.eq_dec j r) as [->|NE]; [congruence|]. eapply klt_trans; [|exact K]. apply (HS j r e a); [lia|assumption|assumption].
Qed.

Lemma key_at_gt b r : r < length E -> klt b (key_at r) = true -> above b r.
Proof using HS.
  intros R K j e J HE. unfold key_at in K.
  destruct (nth_error E r) as [a|] eqn:HA; [|apply nth_error_None in HA; lia].
  destruct (Nat.eq_dec j r) as [->|NE]; [congruence|]. eapply klt_trans; [exact K|]. apply (HS r j a e); [lia|assumption|assumption].
Qed.

Lemma find_leaf_spec b d : d < length T -> forall k, k < length (lev T d) ->
  below b (before (lev T d) k) -> above b (before (lev T d) (S k)) ->
  exists l p f, find_leaf T d k b = Some (l, p, f) /\ l < length (lev T 0) /\ seg (firstn d (tl T)) p l k /\
    if f then key_at (flat (lev T 0) l 0) = b
    else below b (flat (lev T 0) l 0) /\ above b (flat (lev T 0) (S l) 0).
Proof using HT HS.
  induction d as [|d IH]; intros D k K HB HA.
  - exists k, [], false. cbn [find_leaf]. split; [reflexivity|]. split; [exact K|]. split; [reflexivity|].
    rewrite !before_leaf in *. auto.
  - pose proof (tree_nonempty (S d) D k K) as U0. cbn [find_leaf].
    set (L := lev T (S d)) in *.
    assert (CH : forall i, i < used L k -> flat L k i < length (lev T d)) by (intros; apply child_lt; assumption).
    set (g := fun i => before (lev T d) (flat L k i)).
    assert (GS : forall i, i < used L k -> g (S i) = g i + sum_wt (nd (lev T d) (flat L k i))).
    { intros i I0. unfold g. replace (flat L k (S i)) with (S (flat L k i)) by (unfold flat; lia). apply before_S. apply CH. exact I0. }
    assert (GP : forall i, i < used L k -> g i < g (S i)).
    { intros i I0. rewrite GS by assumption. pose proof (sum_pos d ltac:(lia) (flat L k i) (CH i I0)). lia. }
    assert (GM : forall i j, i < j -> j <= used L k -> g i < g j).
    { intros i j IJ J. induction IJ as [|j IJ IHj]; [apply GP; lia|]. specialize (IHj ltac:(lia)). pose proof (GP j ltac:(lia)). lia. }
    assert (GE : g (used L k) = before L (S k)).
    { unfold g, L. rewrite before_child by (assumption || lia). rewrite before_S by assumption. f_equal.
      rewrite firstn_all2; [reflexivity|]. unfold used. lia. }
    assert (G0 : g 0 = before L k).
    { unfold g, L. rewrite before_child by (assumption || lia). cbn [firstn]. unfold sum_wt; cbn. lia. }
    assert (GL : forall i, i < used L k -> g i < length E).
    { intros i I0. apply (first_elem_spec d (flat L k i)); [lia|apply CH; exact I0]. }
    assert (CM : forall m, 1 <= m < used L k -> cmp_to b (first_elem T d (flat L k m)) = Some (bcomp b (key_at (g m)))).
    { intros m Hm. destruct (first_elem_spec d (flat L k m)) as (F1 & F2); [lia|apply CH; lia|].
      rewrite F1. fold (g m) in *. unfold key_at. destruct (nth_error E (g m)) as [e|] eqn:EE; [reflexivity|].
      apply nth_error_None in EE. lia. }
    destruct (bsearch_spec b (fun mid => cmp_to b (first_elem T d (flat L k mid))) (fun m => key_at (g m)) (used L k) 1 (used L k))
      as [(m & A1 & A2 & A3)|(r & A1 & A2 & A3 & A4)]; [lia|exact CM| |lia| |].
    + intros m m' H1 H2 H3. apply key_at_incr; [apply GM; lia|apply GL; lia].
    + rewrite A1. destruct (first_leaf_spec d ltac:(lia) (flat L k m)) as (l & p & E1 & E2 & E3 & E4); [apply CH; lia|].
      rewrite E1. exists l, (p ++ [(k, m)]), true. split; [reflexivity|]. split; [exact E2|]. split.
      * rewrite seg_tl by assumption. apply seg_snoc; [assumption|]. fold L. lia.
      * rewrite E3. exact A3.
    + rewrite A1. assert (R1 : r - 1 < used L k) by lia.
      destruct (IH ltac:(lia) (flat L k (r - 1)) (CH _ R1)) as (l & p & f & E1 & E2 & E3 & E4).
      * fold (g (r - 1)). destruct (Nat.eq_dec r 1) as [->|NE].
        -- replace (1 - 1) with 0 by lia. rewrite G0. exact HB.
        -- intros j e J HE. eapply (key_at_lt b (g (r - 1))); [apply GL; lia|apply A3; lia| |exact HE]. lia.
      * replace (S (flat L k (r - 1))) with (flat L k r) by (unfold flat; lia). fold (g r).
        destruct (Nat.eq_dec r (used L k)) as [->|NE].
        -- rewrite GE. exact HA.
        -- apply key_at_gt; [apply GL; lia|apply A4; lia].
      * rewrite E1. exists l, (p ++ [(k, r - 1)]), f. split; [reflexivity|]. split; [exact E2|]. split; [|exact E4].
        rewrite seg_tl by assumption. apply seg_snoc; [assumption|]. fold L. lia.
Qed.

Lemma find_leaf_root b :
  exists l p f, find_leaf T (depth T) 0 b = Some (l, p, f) /\ l < length (lev T 0) /\ pvalid (tl T) p l /\
    if f then key_at (flat (lev T 0) l 0) = b
    else below b (flat (lev T 0) l 0) /\ above b (flat (lev T 0) (S l) 0).
Proof using HT HS.
  pose proof tree_length as TL. pose proof tree_top as TT.
  destruct (find_leaf_spec b (depth T) ltac:(unfold depth; lia) 0 ltac:(lia)) as (l & p & f & A1 & A2 & A3 & A4).
  - intros j e J. cbn in J. lia.
  - rewrite top_weight. intros j e J HE. assert (j < length E) by (apply nth_error_Some; congruence). lia.
  - exists l, p, f. split; [exact A1|]. split; [exact A2|]. split; [apply root_path; exact A3|exact A4].
Qed.

Lemma leaf_search_spec b l : l < length (lev T 0) ->
  below b (flat (lev T 0) l 0) -> above b (flat (lev T 0) (S l) 0) ->
  (exists i, leaf_search T l b = Some (inl i) /\ i < used (lev T 0) l /\ key_at (flat (lev T 0) l i) = b) \/
  (exists i, leaf_search T l b = Some (inr i) /\ i <= used (lev T 0) l /\
             below b (flat (lev T 0) l i) /\ above b (flat (lev T 0) l i)).
Proof using HT HS.
  intros HL HB HA. set (L := lev T 0) in *. unfold leaf_search. fold L.
  assert (FL : forall m, m < used L l -> flat L l m < length E) by (intros; apply elem_at_spec; assumption).
  destruct (bsearch_spec b (fun mid => cmp_to b (elem_at T l mid)) (fun m => key_at (flat L l m)) (used L l) 0 (used L l))
    as [(m & A1 & A2 & A3)|(r & A1 & A2 & A3 & A4)]; [lia| | |lia| |].
  - intros m Hm. rewrite (proj1 (elem_at_spec l m ltac:(fold L; lia))). fold L. unfold key_at.
    destruct (nth_error E (flat L l m)) eqn:EE; [reflexivity|]. apply nth_error_None in EE. specialize (FL m ltac:(lia)). lia.
  - intros m m' H1 H2 H3. apply key_at_incr; [unfold flat; lia|apply FL; lia].
  - left. exists m. rewrite A1. repeat split; auto. lia.
  - right. exists r. rewrite A1. split; [reflexivity|]. split; [lia|]. split.
    + destruct r as [|r]; [exact HB|]. replace (flat L l (S r)) with (S (flat L l r)) by (unfold flat; lia).
      apply key_at_lt; [apply FL; lia|apply A3; lia].
    + destruct (Nat.eq_dec r (used L l)) as [->|NE].
      * rewrite <- flat_S by assumption. exact HA.
      * apply key_at_gt; [apply FL; lia|apply A4; lia].
Qed.

Lemma find_insposi_spec b :
  exists found l i p, find_insposi T b = Some (found, l, i, p) /\ l < length (lev T 0) /\ pvalid (tl T) p l /\
    if found then i < used (lev T 0) l /\ key_at (flat (lev T 0) l i) = b
    else i <= used (lev T 0) l /\ below b (flat (lev T 0) l i) /\ above b (flat (lev T 0) l i).
Proof using HT HS.
  unfold find_insposi. destruct (find_leaf_root b) as (l & p & f & A1 & A2 & A3 & A4). rewrite A1.
  destruct f.
  - exists true, l, 0, p. split; [reflexivity|]. split; [exact A2|]. split; [exact A3|]. split; [|exact A4].
    apply (tree_nonempty 0 tree_length). exact A2.
  - destruct A4 as (B1 & B2). destruct (leaf_search_spec b l A2 B1 B2) as [(i & C1 & C2 & C3)|(i & C1 & C2 & C3)]; rewrite C1.
    + exists true, l, i, p. auto.
    + exists false, l, i, p. auto.
Qed.

(* ---------- find_first ---------- *)

Lemma key_at_some r b : key_at r = b -> r < length E -> exists e, nth_error E r = Some e /\ bk e = b.
Proof using.
  unfold key_at. intros H R. destruct (nth_error E r) as [e|] eqn:EE; [exists e; auto|]. apply nth_error_None in EE. lia.
Qed.

(* result of a search for [from] in direction rt: r = number of elements below [from] *)
Definition first_result (rt : rtype) (rg : range) (res : option elem * posi * path) : Prop :=
  let L := lev T 0 in
  (exists l i p e, res = (Some e, mkPosi (Some l) i true, p) /\ i < used L l /\ nth_error E (flat L l i) = Some e /\
                   bk e = r_from rg /\ pvalid (tl T) p l) \/
  (exists r, below (r_from rg) r /\ above (r_from rg) r /\ r <= length E /\
    match rt with
    | SIN => exists ps p, res = (None, ps, p) /\ (r = 0 -> ps = mkPosi None ITEM_COUNT false) /\
                          (r = length E -> ps = mkPosi None 0 false) /\ (0 < r < length E -> pn ps <> None)
    | ASC => (r = length E /\ exists p, res = (None, mkPosi None 0 false, p)) \/
             (exists l i e p, nth_error E r = Some e /\ i < used L l /\ flat L l i = r /\
                res = ((if klt (r_end rg) (bk e) then None else Some e), mkPosi (Some l) i false, p) /\
                (klt (r_end rg) (bk e) = false -> pvalid (tl T) p l))
    | DSC => (r = 0 /\ exists p, res = (None, mkPosi None ITEM_COUNT false, p)) \/
             (exists l i e p, 0 < r /\ nth_error E (r - 1) = Some e /\ i < used L l /\ flat L l i = r - 1 /\
                res = ((if klt (bk e) (r_end rg) then None else Some e), mkPosi (Some l) i false, p) /\
                (klt (bk e) (r_end rg) = false -> pvalid (tl T) p l))
    end).

Lemma tree_lk : lk (sums (lev T 0)) (tl T) /\ Forall nonempty (tl T).
Proof using HT.
  destruct T as [|L Us]; [contradiction|]. destruct HT as (H1 & H2 & H3). split; [exact H2|].
  inversion H3; assumption.
Qed.

Lemma find_first_spec rt rg : exists res, find_first T rt (Some rg) = Some res /\ first_result rt rg res.
Proof using HT HS.
  unfold find_first. set (b := r_from rg).
  destruct (find_leaf_root b) as (l & p & f & A1 & A2 & A3 & A4). rewrite A1.
  pose proof (tree_nonempty 0 tree_length) as NE. pose proof (NE l A2) as UL.
  destruct tree_lk as (LK & NN).
  set (L := lev T 0) in *.
  assert (LE : length (concat L) = length E) by (unfold L; rewrite tree_leaf, map_length; reflexivity).
  destruct f.
  - destruct (elem_at_spec l 0 UL) as (EA & EL). fold L in EA, EL.
    destruct (key_at_some _ _ A4 EL) as (e & HE & BE). rewrite EA, HE.
    eexists. split; [reflexivity|]. left. exists l, 0, p, e. auto.
  - destruct A4 as (B1 & B2). destruct (leaf_search_spec b l A2 B1 B2) as [(i & C1 & C2 & C3)|(i & C1 & C2 & C3 & C4)]; rewrite C1.
    + destruct (elem_at_spec l i C2) as (EA & EL). fold L in EA, EL, C3.
      destruct (key_at_some _ _ C3 EL) as (e & HE & BE). rewrite EA, HE.
      eexists. split; [reflexivity|]. left. exists l, i, p, e. auto.
    + fold L in C2, C3, C4. set (r := flat L l i) in *.
      assert (RL : r <= length E).
      { unfold r. rewrite <- LE. pose proof (flat_lt L l 0 UL). pose proof (flat_lt L l (used L l - 1) ltac:(lia)).
        unfold flat in *. lia. }
      pose proof (flat_S L l A2) as FS.
      assert (NX : S l < length L -> 0 < used L (S l)) by (intros; apply NE; assumption).
      destruct rt.
      * eexists. split; [reflexivity|]. right. exists r. split; [exact C3|]. split; [exact C4|]. split; [exact RL|].
        eexists. exists p. split; [reflexivity|].
        destruct (Nat.eq_dec i 0) as [I0|I0].
        -- rewrite (proj2 (Nat.ltb_ge 0 i)) by lia. cbn [andb]. rewrite (proj2 (Nat.leb_gt (used L l) i)) by lia.
           destruct l as [|l'].
           ++ split; [reflexivity|]. split; [|intros ?].
              ** intros RE. exfalso. pose proof (flat_lt L 0 0 UL). subst i. unfold r in RE. unfold flat in *. cbn in *. lia.
              ** exfalso. subst i. unfold r, flat in *. cbn in *. lia.
           ++ assert (UL' : 0 < used L l') by (apply NE; lia).
              assert (RP : 0 < r). { unfold r. pose proof (flat_order L l' 0 (S l') i UL' ltac:(lia)). lia. }
              split; [lia|]. split; [|intros _; discriminate].
              intros RE. exfalso. pose proof (flat_lt L (S l') 0 UL). subst i. unfold r in RE. lia.
        -- rewrite (proj2 (Nat.ltb_lt 0 i)) by lia. cbn [andb].
           assert (RP : 0 < r) by (unfold r, flat; lia).
           destruct (Nat.ltb_spec i (used L l)) as [IL|IL].
           ++ split; [lia|]. split; [|intros _; discriminate].
              intros RE. exfalso. pose proof (flat_lt L l i IL). unfold r in *. lia.
           ++ rewrite (proj2 (Nat.leb_le (used L l) i)) by lia. assert (i = used L l) by lia. subst i.
              split; [lia|]. destruct (Nat.ltb_spec (S l) (length L)) as [SL|SL].
              ** split; [|intros _; discriminate]. intros RE. exfalso.
                 pose proof (flat_lt L (S l) 0 (NX SL)). unfold r in RE. lia.
              ** split; [reflexivity|]. intros RR. exfalso. rewrite flat_end in FS by lia. unfold r in RR. lia.
      * assert (AT : exists ps, (if Nat.ltb i (used L l) then mkPosi (Some l) i false
                         else mkPosi (if Nat.ltb (S l) (length L) then Some (S l) else None) 0 false) = ps /\
                 ((r = length E /\ ps = mkPosi None 0 false) \/
                  (exists l1 i1, ps = mkPosi (Some l1) i1 false /\ i1 < used L l1 /\ flat L l1 i1 = r /\ (l1 = l \/ l1 = S l)))).
        { eexists. split; [reflexivity|]. destruct (Nat.ltb_spec i (used L l)) as [IL|IL].
          - right. exists l, i. auto.
          - assert (i = used L l) by lia. subst i. destruct (Nat.ltb_spec (S l) (length L)) as [SL|SL].
            + right. exists (S l), 0. split; [reflexivity|]. split; [auto|]. split; [unfold r; lia|auto].
            + left. split; [|reflexivity]. rewrite flat_end in FS by lia. unfold r. lia. }
        destruct AT as (ps & EP & [(RE & PE)|(l1 & i1 & PE & I1 & F1 & LC)]); rewrite EP, PE; clear EP PE; cbn [pn px].
        -- eexists. split; [reflexivity|]. right. exists r. split; [exact C3|]. split; [exact C4|]. split; [exact RL|].
           left. split; [exact RE|]. eexists. reflexivity.
        -- destruct (elem_at_spec l1 i1 I1) as (EA & EL). fold L in EA, EL. rewrite F1 in EA, EL.
           destruct (nth_error E r) as [e|] eqn:HE; [|apply nth_error_None in HE; lia].
           rewrite EA. rewrite b_isgt_spec.
           assert (PQ : exists q, (if Nat.eqb l1 l then Some p else incr_path (tl T) p) = Some q /\ pvalid (tl T) q l1).
           { destruct (Nat.eqb_spec l1 l) as [->|NEL]; [exists p; auto|]. destruct LC as [LC|LC]; [congruence|]. subst l1.
             eapply incr_path_spec; eauto. rewrite sums_length. eapply used_lt; eauto. }
           destruct PQ as (q & Q1 & Q2).
           destruct (klt (r_end rg) (bk e)) eqn:KE.
           ++ eexists. split; [reflexivity|]. right. exists r. split; [exact C3|]. split; [exact C4|]. split; [exact RL|].
              right. exists l1, i1, e, p. split; [exact HE|]. split; [exact I1|]. split; [exact F1|]. rewrite KE.
              split; [reflexivity|discriminate].
           ++ exists (Some e, mkPosi (Some l1) i1 false, q). split.
              { destruct (Nat.eqb l1 l); [congruence|]. rewrite Q1. reflexivity. }
              right. exists r. split; [exact C3|]. split; [exact C4|]. split; [exact RL|].
              right. exists l1, i1, e, q. split; [exact HE|]. split; [exact I1|]. split; [exact F1|]. rewrite KE. auto.
      * assert (AT : exists ps, (match i with S i' => mkPosi (Some l) i' false | O =>
                                  match l with O => mkPosi None ITEM_COUNT false | S k' => mkPosi (Some k') (used L k' - 1) false end end) = ps /\
                 ((r = 0 /\ ps = mkPosi None ITEM_COUNT false) \/
                  (exists l1 i1, ps = mkPosi (Some l1) i1 false /\ i1 < used L l1 /\ S (flat L l1 i1) = r /\ (l1 = l \/ S l1 = l)))).
        { eexists. split; [reflexivity|]. destruct i as [|i'].
          - destruct l as [|l'].
            + left. split; reflexivity.
            + right. exists l', (used L l' - 1). pose proof (NE l' ltac:(lia)) as UL'. split; [reflexivity|]. split; [lia|].
              split; [|auto]. unfold r. pose proof (flat_S L l' ltac:(lia)). unfold flat in *. lia.
          - right. exists l, i'. split; [reflexivity|]. split; [lia|]. split; [|auto]. unfold r, flat. lia. }
        destruct AT as (ps & EP & [(RE & PE)|(l1 & i1 & PE & I1 & F1 & LC)]); rewrite EP, PE; clear EP PE; cbn [pn px].
        -- eexists. split; [reflexivity|]. right. exists r. split; [exact C3|]. split; [exact C4|]. split; [exact RL|].
           left. split; [exact RE|]. eexists. reflexivity.
        -- destruct (elem_at_spec l1 i1 I1) as (EA & EL). fold L in EA, EL.
           assert (F1' : flat L l1 i1 = r - 1) by lia. rewrite F1' in EA, EL.
           destruct (nth_error E (r - 1)) as [e|] eqn:HE; [|apply nth_error_None in HE; lia].
           rewrite EA. rewrite b_islt_spec.
           assert (PQ : exists q, (if Nat.eqb l1 l then Some p else decr_path (tl T) p) = Some q /\ pvalid (tl T) q l1).
           { destruct (Nat.eqb_spec l1 l) as [->|NEL]; [exists p; auto|]. destruct LC as [LC|LC]; [congruence|]. subst l.
             eapply decr_path_spec; eauto. }
           destruct PQ as (q & Q1 & Q2).
           destruct (klt (bk e) (r_end rg)) eqn:KE.
           ++ eexists. split; [reflexivity|]. right. exists r. split; [exact C3|]. split; [exact C4|]. split; [exact RL|].
              right. exists l1, i1, e, p. split; [lia|]. split; [exact HE|]. split; [exact I1|]. split; [exact F1'|]. rewrite KE.
              split; [reflexivity|discriminate].
           ++ exists (Some e, mkPosi (Some l1) i1 false, q). split.
              { destruct (Nat.eqb l1 l); [congruence|]. rewrite Q1. reflexivity. }
              right. exists r. split; [exact C3|]. split; [exact C4|]. split; [exact RL|].
              right. exists l1, i1, e, q. split; [lia|]. split; [exact HE|]. split; [exact I1|]. split; [exact F1'|]. rewrite KE. auto.
Qed.

Lemma find_first_all :
  (exists p e, find_first T ASC None = Some (Some e, mkPosi (Some 0) 0 false, p) /\ hd_error E = Some e /\ pvalid (tl T) p 0 /\ 0 < used (lev T 0) 0).
Proof using HT.
  clear HS. pose proof tree_length as TL. pose proof tree_top as TT. cbn [find_first].
  destruct (first_leaf_spec (depth T) ltac:(unfold depth; lia) 0 ltac:(lia)) as (l & p & E1 & E2 & E3 & E4).
  rewrite E1. change (before (lev T (depth T)) 0) with 0 in E3.
  pose proof (tree_nonempty 0 TL) as NE. pose proof (NE l E2) as UL.
  assert (l = 0).
  { destruct l as [|l']; [reflexivity|]. pose proof (flat_order (lev T 0) l' 0 (S l') 0 (NE l' ltac:(lia)) ltac:(lia)). lia. }
  subst l. apply root_path in E4. destruct (elem_at_spec 0 0 UL) as (EA & EL). rewrite E3 in EA, EL. rewrite EA.
  destruct E as [|e E']; [cbn in EL; lia|]. cbn [nth_error]. exists p, e. split; [reflexivity|]. split; [reflexivity|].
  split; [exact E4|exact UL].
Qed.

End Tree.
