(* Levels, positions, paths and counts of BtModel *)
From Verif Require Import Base UtilModel BtModel.
Local Open Scope nat_scope.

(* ---------- lists ---------- *)

Lemma upd_nth_length {A} f (l : list A) : forall i, length (upd_nth i f l) = length l.
Proof. induction l as [|x l IH]; intros [|i]; cbn; auto. Qed.

Lemma upd_nth_app {A} f (l1 : list A) x l2 : upd_nth (length l1) f (l1 ++ x :: l2) = l1 ++ f x :: l2.
Proof. induction l1 as [|y l1 IH]; cbn; [reflexivity|]. rewrite IH. reflexivity. Qed.

Lemma upd_nth_same {A} f (l : list A) d : forall i, i < length l -> nth i (upd_nth i f l) d = f (nth i l d).
Proof. induction l as [|x l IH]; intros [|i] H; cbn in *; try lia; [reflexivity|]. apply IH. lia. Qed.

Lemma upd_nth_other {A} f (l : list A) d : forall i j, i <> j -> nth j (upd_nth i f l) d = nth j l d.
Proof. induction l as [|x l IH]; intros [|i] [|j] H; cbn; try lia; try reflexivity. apply IH. lia. Qed.

Lemma upd_nth_id {A} f (l : list A) : forall i, (forall x, nth_error l i = Some x -> f x = x) -> upd_nth i f l = l.
Proof.
  induction l as [|x l IH]; intros [|i] H; cbn; try reflexivity.
  - rewrite H; reflexivity.
  - rewrite IH; [reflexivity|]. intros y Hy. apply H. exact Hy.
Qed.

Lemma upd_nth_map {A B} (g : A -> B) (f : A -> A) (h : B -> B) (l : list A) : forall i,
  (forall x, nth_error l i = Some x -> g (f x) = h (g x)) -> map g (upd_nth i f l) = upd_nth i h (map g l).
Proof.
  induction l as [|x l IH]; intros [|i] H; cbn; try reflexivity.
  - rewrite H; reflexivity.
  - rewrite (IH i); [reflexivity|]. intros y Hy. apply H. exact Hy.
Qed.

Lemma upd_nth_ext {A} (f g : A -> A) (l : list A) : forall i,
  (forall x, nth_error l i = Some x -> f x = g x) -> upd_nth i f l = upd_nth i g l.
Proof.
  induction l as [|x l IH]; intros [|i] H; cbn; try reflexivity.
  - rewrite H; reflexivity.
  - rewrite (IH i); [reflexivity|]. intros y Hy. apply H. exact Hy.
Qed.

Lemma upd_nth_twice {A} (f g : A -> A) (l : list A) : forall i, upd_nth i f (upd_nth i g l) = upd_nth i (fun x => f (g x)) l.
Proof. induction l as [|x l IH]; intros [|i]; cbn; try reflexivity. rewrite IH. reflexivity. Qed.

Lemma upd_nth_comm {A} (f g : A -> A) (l : list A) : forall i j, i <> j -> upd_nth i f (upd_nth j g l) = upd_nth j g (upd_nth i f l).
Proof. induction l as [|x l IH]; intros [|i] [|j] H; cbn; try reflexivity; try lia. rewrite IH; [reflexivity|lia]. Qed.

Lemma upd_nth_over {A} f (l : list A) : forall i, length l <= i -> upd_nth i f l = l.
Proof. induction l as [|x l IH]; intros [|i] H; cbn in *; try reflexivity; try lia. rewrite IH; [reflexivity|lia]. Qed.

Lemma upd_nth_firstn {A} f (l : list A) : forall i, i < length l -> exists x, nth_error l i = Some x /\
  upd_nth i f l = firstn i l ++ f x :: skipn (S i) l.
Proof.
  induction l as [|x l IH]; intros [|i] H; cbn in *; try lia.
  - exists x. split; reflexivity.
  - destruct (IH i) as (y & E & F); [lia|]. exists y. split; [exact E|]. rewrite F. reflexivity.
Qed.

Lemma Forall_upd_nth {A} (P : A -> Prop) f (l : list A) : forall i,
  Forall P l -> (forall x, nth_error l i = Some x -> P x -> P (f x)) -> Forall P (upd_nth i f l).
Proof.
  induction l as [|x l IH]; intros [|i] F H; cbn; auto; inversion F; subst; constructor; auto.
Qed.

Lemma split_nth {A} (l : list A) k d : k < length l -> l = firstn k l ++ nth k l d :: skipn (S k) l.
Proof.
  revert k. induction l as [|x l IH]; intros [|k] H; cbn in *; try lia; [reflexivity|]. f_equal. apply IH. lia.
Qed.

Lemma nth_error_nth' {A} (l : list A) d : forall i, i < length l -> nth_error l i = Some (nth i l d).
Proof. induction l as [|x l IH]; intros [|i] H; cbn in *; try lia; [reflexivity|]. apply IH. lia. Qed.

Lemma skipn_add {A} (l : list A) : forall a b, skipn a (skipn b l) = skipn (b + a) l.
Proof.
  induction l as [|x l IH]; intros a b; [rewrite !skipn_nil; reflexivity|].
  destruct b; cbn; [reflexivity|]. apply IH.
Qed.

Lemma nth_error_skipn {A} (l : list A) : forall a b, nth_error (skipn a l) b = nth_error l (a + b).
Proof. induction l as [|x l IH]; intros [|a] b; cbn; try reflexivity; [destruct b; reflexivity|]. apply IH. Qed.

Lemma nth_error_firstn {A} (l : list A) : forall a b, b < a -> nth_error (firstn a l) b = nth_error l b.
Proof. induction l as [|x l IH]; intros [|a] [|b] H; cbn; try lia; try reflexivity. apply IH. lia. Qed.

Lemma list_ext {A} (l l' : list A) : (forall i, nth_error l i = nth_error l' i) -> l = l'.
Proof.
  revert l'. induction l as [|x l IH]; intros [|y l'] H; [reflexivity| | |].
  - specialize (H 0). discriminate.
  - specialize (H 0). discriminate.
  - pose proof (H 0) as H0. cbn in H0. injection H0 as ->. f_equal. apply IH. intros i. apply (H (S i)).
Qed.

(* ---------- nodes ---------- *)

Lemma used_lt L k i : i < used L k -> k < length L.
Proof.
  unfold used, nd. intros H. destruct (Nat.ltb_spec k (length L)) as [G|G]; [exact G|].
  rewrite nth_overflow in H by assumption. cbn in H. lia.
Qed.

Lemma split_level L k : k < length L -> L = firstn k L ++ nd L k :: skipn (S k) L.
Proof. apply split_nth. Qed.

Lemma nd_app1 (A B : level) n : nd (A ++ n :: B) (length A) = n.
Proof. unfold nd. rewrite app_nth2, Nat.sub_diag; [reflexivity|lia]. Qed.

Lemma set_nd_app (A B : level) n m : set_nd (A ++ n :: B) (length A) m = A ++ m :: B.
Proof. apply upd_nth_app. Qed.

Lemma set_nd_length L k n : length (set_nd L k n) = length L.
Proof. apply upd_nth_length. Qed.

Lemma nd_set_same L k n : k < length L -> nd (set_nd L k n) k = n.
Proof. intros. unfold nd, set_nd. rewrite upd_nth_same by assumption. reflexivity. Qed.

Lemma nd_set_other L k j n : k <> j -> nd (set_nd L k n) j = nd L j.
Proof. intros. unfold nd, set_nd. apply upd_nth_other. assumption. Qed.

Lemma set_nd_same L k : set_nd L k (nd L k) = L.
Proof.
  unfold set_nd. apply upd_nth_id. intros x H. unfold nd.
  apply nth_error_nth. exact H.
Qed.

(* decompose a level at node k *)
Lemma level_at L k : k < length L -> exists A n B, L = A ++ n :: B /\ length A = k /\ nd L k = n.
Proof.
  intros H. exists (firstn k L), (nd L k), (skipn (S k) L).
  split; [apply split_level; assumption|]. split; [|reflexivity]. rewrite firstn_length. lia.
Qed.

Lemma flat_app A n B i : flat (A ++ n :: B) (length A) i = length (concat A) + i.
Proof.
  unfold flat. rewrite firstn_app, firstn_all, Nat.sub_diag. cbn [firstn]. rewrite app_nil_r. reflexivity.
Qed.

Lemma flat_nth L k i : i < used L k -> nth_error (concat L) (flat L k i) = nth_error (nd L k) i.
Proof.
  intros H. destruct (level_at L k) as (A & n & B & -> & <- & E); [eapply used_lt; eauto|].
  unfold used in H. rewrite E in *. rewrite flat_app, concat_app. cbn [concat].
  rewrite nth_error_app2 by lia. replace (length (concat A) + i - length (concat A)) with i by lia.
  rewrite nth_error_app1 by assumption. reflexivity.
Qed.

Lemma flat_lt L k i : i < used L k -> flat L k i < length (concat L).
Proof.
  intros H. apply nth_error_Some. rewrite flat_nth by assumption. apply nth_error_Some. exact H.
Qed.

Lemma flat_add L k i j : flat L k i + j = flat L k (i + j).
Proof. unfold flat. lia. Qed.

Lemma flat_S L k : k < length L -> flat L (S k) 0 = flat L k (used L k).
Proof.
  intros H. destruct (level_at L k) as (A & n & B & -> & <- & E); [assumption|].
  unfold used. rewrite E, flat_app. unfold flat.
  replace (S (length A)) with (length (A ++ [n])) by (rewrite app_length; cbn; lia).
  replace (A ++ n :: B) with ((A ++ [n]) ++ B) by (rewrite <- app_assoc; reflexivity).
  rewrite firstn_app, firstn_all, Nat.sub_diag. cbn [firstn]. rewrite app_nil_r, concat_app, app_length.
  cbn [concat]. rewrite app_nil_r. lia.
Qed.

Lemma flat_end L k : length L <= k -> flat L k 0 = length (concat L).
Proof. intros H. unfold flat. rewrite firstn_all2 by assumption. lia. Qed.

Lemma flat_mono L j k : j <= k -> flat L j 0 <= flat L k 0.
Proof.
  intros H. unfold flat. induction H; [lia|].
  destruct (Nat.ltb_spec m (length L)).
  - pose proof (flat_S L m ltac:(assumption)) as F. unfold flat in F. lia.
  - rewrite !(firstn_all2 (n := m)), !(firstn_all2 (n := S m)) in * by lia. lia.
Qed.

Lemma flat_order L j i k i' : i < used L j -> j < k -> flat L j i < flat L k i'.
Proof.
  intros H G. pose proof (used_lt _ _ _ H) as HL.
  pose proof (flat_S L j HL). pose proof (flat_mono L (S j) k G). unfold flat in *. lia.
Qed.

Lemma flat_inj L j i k i' : i < used L j -> i' < used L k -> flat L j i = flat L k i' -> j = k /\ i = i'.
Proof.
  intros H H' E. destruct (Nat.lt_trichotomy j k) as [G|[->|G]].
  - pose proof (flat_order L j i k i' H G). lia.
  - unfold flat in E. lia.
  - pose proof (flat_order L k i' j i H' G). lia.
Qed.

Lemma flat_surj L : forall r, r < length (concat L) -> exists k i, i < used L k /\ flat L k i = r.
Proof.
  induction L as [|n L IH]; intros r H; cbn in H; [lia|].
  rewrite app_length in H. destruct (Nat.ltb_spec r (length n)) as [G|G].
  - exists 0, r. split; [exact G|]. reflexivity.
  - destruct (IH (r - length n)) as (k & i & HI & HF); [lia|].
    exists (S k), i. split; [exact HI|]. unfold flat in *. cbn [firstn concat]. rewrite app_length. lia.
Qed.

Lemma flat_le_cases L j i k : i < used L j -> flat L j i < flat L k 0 -> j < k.
Proof.
  intros H G. destruct (Nat.ltb_spec j k) as [|HL]; [assumption|].
  pose proof (flat_mono L k j HL). unfold flat in *. lia.
Qed.

(* shape: everything about positions depends only on the number of slots per node *)
Definition shape (L : level) : list nat := map (@length slot) L.

Lemma used_shape L k : used L k = nth k (shape L) 0.
Proof. unfold used, nd, shape. change 0 with (length (@nil slot)). rewrite map_nth. reflexivity. Qed.

Lemma sum_wt_app a b : sum_wt (a ++ b) = sum_wt a + sum_wt b.
Proof. induction a as [|x a IH]; cbn [app sum_wt fold_right]; [reflexivity|]. fold (sum_wt a). fold (sum_wt (a ++ b)). lia. Qed.

Lemma concat_len (l : list (list slot)) : length (concat l) = list_sum (map (@length slot) l).
Proof. induction l as [|n l IH]; [reflexivity|]. cbn. rewrite app_length, IH. reflexivity. Qed.
Lemma concat_sum (l : list (list slot)) : sum_wt (concat l) = list_sum (map sum_wt l).
Proof.
  induction l as [|n l IH]; [reflexivity|]. cbn [concat map list_sum fold_right]. rewrite sum_wt_app, IH. reflexivity.
Qed.

Lemma flat_shape L k i : flat L k i = list_sum (firstn k (shape L)) + i.
Proof.
  unfold flat, shape. f_equal. rewrite firstn_map. apply concat_len.
Qed.

Lemma length_shape L : length (shape L) = length L.
Proof. apply map_length. Qed.

Lemma shape_used L L' : shape L = shape L' -> forall k, used L k = used L' k.
Proof. intros H k. rewrite !used_shape, H. reflexivity. Qed.
Lemma shape_flat L L' : shape L = shape L' -> forall k i, flat L k i = flat L' k i.
Proof. intros H k i. rewrite !flat_shape, H. reflexivity. Qed.
Lemma shape_len L L' : shape L = shape L' -> length L = length L'.
Proof. intros H. rewrite <- !length_shape, H. reflexivity. Qed.
Lemma shape_concat L : length (concat L) = list_sum (shape L).
Proof. apply concat_len. Qed.

Lemma shape_incr L L' : shape L = shape L' -> forall k i, incr_at L k i = incr_at L' k i.
Proof. intros H k i. unfold incr_at. rewrite (shape_used _ _ H), (shape_len _ _ H). reflexivity. Qed.
Lemma shape_decr L L' : shape L = shape L' -> forall k i, decr_at L k i = decr_at L' k i.
Proof. intros H k i. unfold decr_at. destruct i; [|reflexivity]. destruct k; [reflexivity|]. rewrite (shape_used _ _ H). reflexivity. Qed.

(* ---------- stepping ---------- *)

Lemma incr_at_spec L k i : i < used L k -> (S k < length L -> 0 < used L (S k)) ->
  match incr_at L k i with
  | (Some k', i') => i' < used L k' /\ flat L k' i' = S (flat L k i) /\ (k' = k \/ k' = S k /\ i' = 0 /\ S i = used L k)
  | (None, i') => i' = 0 /\ S (flat L k i) = length (concat L) /\ S k = length L
  end.
Proof.
  intros H N. unfold incr_at. pose proof (used_lt _ _ _ H) as KL.
  destruct (Nat.ltb_spec (S i) (used L k)) as [G|G].
  - split; [exact G|]. split; [unfold flat; lia|]. left; reflexivity.
  - pose proof (flat_S L k KL) as F. destruct (Nat.ltb_spec (S k) (length L)) as [G2|G2].
    + split; [auto|]. split; [unfold flat in *; lia|]. right. repeat split; lia.
    + split; [reflexivity|]. rewrite flat_end in F by lia. unfold flat in *. split; lia.
Qed.

Lemma decr_at_spec L k i : i < used L k -> (0 < k -> 0 < used L (k - 1)) ->
  match decr_at L k i with
  | (Some k', i') => i' < used L k' /\ S (flat L k' i') = flat L k i /\ (k' = k \/ S k' = k /\ i = 0 /\ S i' = used L k')
  | (None, i') => i' = ITEM_COUNT /\ flat L k i = 0 /\ k = 0
  end.
Proof.
  intros H N. unfold decr_at. pose proof (used_lt _ _ _ H) as KL.
  destruct i as [|i].
  - destruct k as [|k].
    + repeat split; reflexivity.
    + replace (S k - 1) with k in N by lia. specialize (N ltac:(lia)).
      pose proof (flat_S L k ltac:(lia)) as F.
      split; [lia|]. split; [unfold flat in *; lia|]. right. repeat split; lia.
  - split; [lia|]. split; [unfold flat; lia|]. left; reflexivity.
Qed.

(* ---------- counts ---------- *)

Definition is_cnt (s : slot) : Prop := match s with Cnt _ => True | El _ => False end.
Definition sums (L : level) : list nat := map sum_wt L.

Lemma sum_wt_list n : sum_wt n = list_sum (map wt n).
Proof. induction n as [|x n IH]; [reflexivity|]. cbn. f_equal. exact IH. Qed.

Lemma sums_app a b : sums (a ++ b) = sums a ++ sums b.
Proof. apply map_app. Qed.

Lemma sums_length L : length (sums L) = length L.
Proof. apply map_length. Qed.

Lemma sums_nth L k : nth k (sums L) 0 = sum_wt (nd L k).
Proof. unfold sums, nd. change 0 with (sum_wt []). apply map_nth. Qed.

(* elements before node k *)
Definition before (L : level) (k : nat) : nat := list_sum (firstn k (sums L)).

Lemma before_concat L k : before L k = sum_wt (concat (firstn k L)).
Proof.
  unfold before, sums. rewrite firstn_map. symmetry. apply concat_sum.
Qed.

Lemma wt_adj f s : is_cnt s -> wt (adj f s) = f (wt s).
Proof. destruct s; cbn; tauto. Qed.
Lemma is_cnt_adj f s : is_cnt s -> is_cnt (adj f s).
Proof. destruct s; cbn; tauto. Qed.

Lemma concat_upd (U : level) k i (f : slot -> slot) : i < used U k ->
  concat (set_nd U k (upd_nth i f (nd U k))) = upd_nth (flat U k i) f (concat U).
Proof.
  intros H. destruct (level_at U k) as (A & n & B & -> & <- & E); [eapply used_lt; eauto|].
  unfold used in H. rewrite E in *. rewrite set_nd_app, flat_app, !concat_app. cbn [concat].
  pose proof (split_nth n i (El None) H) as S1. set (x := nth i n (El None)) in *.
  set (a := firstn i n) in *. assert (La : length a = i) by (unfold a; rewrite firstn_length; lia).
  rewrite S1. rewrite <- La at 1. rewrite upd_nth_app.
  replace (concat A ++ (a ++ x :: skipn (S i) n) ++ concat B) with ((concat A ++ a) ++ x :: skipn (S i) n ++ concat B)
    by (rewrite <- !app_assoc; reflexivity).
  replace (length (concat A) + i) with (length (concat A ++ a)) by (rewrite app_length; lia).
  rewrite upd_nth_app. rewrite <- !app_assoc. reflexivity.
Qed.

Lemma set_cnt_concat U k i f : i < used U k -> concat (set_cnt U k i f) = upd_nth (flat U k i) (adj f) (concat U).
Proof. apply concat_upd. Qed.

Lemma set_cnt_shape U k i f : shape (set_cnt U k i f) = shape U.
Proof.
  unfold set_cnt, set_nd, shape. rewrite (upd_nth_map _ _ (fun n => n)).
  - apply upd_nth_id. auto.
  - intros x H. rewrite upd_nth_length. unfold nd. rewrite (nth_error_nth _ _ _ H). reflexivity.
Qed.

Lemma set_cnt_cnts U k i f : Forall is_cnt (concat U) -> i < used U k -> Forall is_cnt (concat (set_cnt U k i f)).
Proof.
  intros F H. rewrite set_cnt_concat by assumption. apply Forall_upd_nth; [assumption|].
  intros; apply is_cnt_adj; assumption.
Qed.

Lemma cnts_node U k : Forall is_cnt (concat U) -> Forall is_cnt (nd U k).
Proof.
  intros F. destruct (Nat.ltb_spec k (length U)) as [H|H].
  - rewrite (split_level U k H), concat_app in F. cbn [concat] in F. apply Forall_app in F. destruct F as [_ F].
    apply Forall_app in F. tauto.
  - unfold nd. rewrite nth_overflow by assumption. constructor.
Qed.

Lemma set_cnt_wts U k i f : Forall is_cnt (concat U) -> i < used U k ->
  map wt (concat (set_cnt U k i f)) = upd_nth (flat U k i) f (map wt (concat U)).
Proof.
  intros F H. rewrite set_cnt_concat by assumption. apply upd_nth_map.
  intros x E. apply wt_adj. rewrite Forall_forall in F. apply F. eapply nth_error_In; eauto.
Qed.

Lemma slot_wt_nth U k i : i < used U k -> slot_wt U k i = nth (flat U k i) (map wt (concat U)) 0.
Proof.
  intros H. unfold slot_wt. rewrite <- flat_nth by assumption.
  destruct (nth_error (concat U) (flat U k i)) as [s|] eqn:E.
  - apply (map_nth_error wt) in E. symmetry. apply nth_error_nth. exact E.
  - apply nth_error_None in E. pose proof (flat_lt _ _ _ H). lia.
Qed.

Lemma list_at {A} (l : list A) i : i < length l -> exists a x b, l = a ++ x :: b /\ length a = i.
Proof.
  intros H. destruct (nth_error l i) as [x|] eqn:E.
  - apply nth_error_split in E. destruct E as (a & b & E & L). exists a, x, b. auto.
  - apply nth_error_None in E. lia.
Qed.

Lemma sum_wt_upd n i f : Forall is_cnt n -> i < length n ->
  sum_wt (upd_nth i (adj f) n) + nth i (map wt n) 0 = sum_wt n + f (nth i (map wt n) 0).
Proof.
  intros F H. destruct (list_at n i H) as (a & x & b & -> & <-).
  rewrite upd_nth_app, map_app, app_nth2 by (rewrite map_length; lia). rewrite map_length, Nat.sub_diag.
  cbn [map nth]. rewrite !sum_wt_app. cbn [sum_wt fold_right].
  apply Forall_app in F. destruct F as [_ F]. inversion F; subst.
  rewrite wt_adj by assumption. lia.
Qed.

Lemma set_cnt_sums U k i f : Forall is_cnt (concat U) -> i < used U k ->
  sums (set_cnt U k i f) = upd_nth k (fun n => n + f (slot_wt U k i) - slot_wt U k i) (sums U).
Proof.
  intros F H. unfold sums, set_cnt, set_nd. apply upd_nth_map. intros x E.
  assert (x = nd U k) by (unfold nd; rewrite (nth_error_nth _ _ _ E); reflexivity). subst x.
  pose proof (sum_wt_upd (nd U k) i f (cnts_node _ _ F) H) as S1.
  assert (SW : slot_wt U k i = nth i (map wt (nd U k)) 0).
  { unfold slot_wt. destruct (nth_error (nd U k) i) as [s|] eqn:E2.
    - apply (map_nth_error wt) in E2. symmetry. apply nth_error_nth. exact E2.
    - apply nth_error_None in E2. unfold used in H. lia. }
  rewrite SW. lia.
Qed.

(* a node's slot weight is at most the node's weight *)
Lemma slot_le_sum U k i : slot_wt U k i <= sum_wt (nd U k).
Proof.
  unfold slot_wt. destruct (nth_error (nd U k) i) as [s|] eqn:E; [|lia].
  apply nth_error_split in E. destruct E as (a & b & E & _). rewrite E, sum_wt_app. cbn. lia.
Qed.

(* ---------- linked levels ---------- *)

(* W: the weights of the nodes of the level below *)
Fixpoint lk (W : list nat) (Us : list level) : Prop :=
  match Us with
  | [] => length W = 1
  | U :: r => map wt (concat U) = W /\ Forall is_cnt (concat U) /\ lk (sums U) r
  end.

Lemma lk_length W U r : lk W (U :: r) -> length (concat U) = length W.
Proof. intros (H & _). rewrite <- H, map_length. reflexivity. Qed.

(* p leads from the root to node k of the level below Us *)
Fixpoint pvalid (Us : list level) (p : path) (k : nat) : Prop :=
  match Us, p with
  | [], [] => k = 0
  | U :: r, (pk, pi) :: q => pi < used U pk /\ flat U pk pi = k /\ pvalid r q pk
  | _, _ => False
  end.

Lemma pvalid_fun Us : forall p q k, pvalid Us p k -> pvalid Us q k -> p = q.
Proof.
  induction Us as [|U r IH]; intros [|[a b] p] [|[c d] q] k; cbn [pvalid]; try tauto.
  intros (H1 & H2 & H3) (G1 & G2 & G3).
  destruct (flat_inj U a b c d H1 G1) as [-> ->]; [congruence|]. f_equal. eapply IH; eauto.
Qed.

Lemma pvalid_lt W Us : forall p k, lk W Us -> pvalid Us p k -> k < length W.
Proof.
  destruct Us as [|U r]; intros [|[a b] p] k; cbn [pvalid lk]; try tauto; [lia|].
  intros (H & _) (G1 & G2 & _). rewrite <- H, map_length, <- G2. apply flat_lt. exact G1.
Qed.

Lemma pvalid_ex Us : forall W k, lk W Us -> k < length W -> exists p, pvalid Us p k.
Proof.
  induction Us as [|U r IH]; intros W k H K; cbn [lk] in H.
  - exists []. cbn. lia.
  - destruct H as (H & C & HL). rewrite <- H, map_length in K.
    destruct (flat_surj U k K) as (a & b & H1 & H2).
    destruct (IH _ a HL) as (p & HP).
    { rewrite sums_length. eapply used_lt; eauto. }
    exists ((a, b) :: p). cbn. auto.
Qed.

Definition shapes (Us : list level) : list (list nat) := map shape Us.

Lemma pvalid_shapes Us : forall Us' p k, shapes Us = shapes Us' -> pvalid Us p k -> pvalid Us' p k.
Proof.
  induction Us as [|U r IH]; intros [|U' r'] [|[a b] p] k H; cbn [pvalid shapes map] in *; try tauto; try discriminate.
  injection H as H1 H2. rewrite <- (shape_used _ _ H1), <- (shape_flat _ _ H1).
  intros (G1 & G2 & G3). split; [exact G1|]. split; [exact G2|]. eapply IH; eauto.
Qed.

Definition nonempty (L : level) : Prop := forall k, k < length L -> 0 < used L k.
Lemma nonempty_shape L L' : shape L = shape L' -> nonempty L -> nonempty L'.
Proof. intros H N k K. rewrite <- (shape_used _ _ H). apply N. rewrite (shape_len _ _ H). exact K. Qed.

(* the next / previous node's path *)
Lemma incr_path_spec Us : forall W p k, lk W Us -> pvalid Us p k -> S k < length W -> Forall nonempty Us ->
  exists q, incr_path Us p = Some q /\ pvalid Us q (S k).
Proof.
  induction Us as [|U r IH]; intros W [|[a b] p] k HL HP HK HN; cbn [lk pvalid] in *; try tauto; [lia|].
  destruct HL as (HW & HC & HL). destruct HP as (H1 & H2 & H3).
  inversion HN as [|U0 r0 N1 N2]; subst U0 r0.
  rewrite <- HW, map_length in HK. cbn [incr_path].
  pose proof (incr_at_spec U a b H1 (N1 (S a))) as SP.
  destruct (incr_at U a b) as [[a'|] b'].
  - destruct SP as (V & F & C). destruct (Nat.eqb_spec a a') as [<-|NE].
    + eexists. split; [reflexivity|]. cbn [pvalid]. rewrite F, H2. auto.
    + destruct C as [C|(C & _)]; [congruence|]. subst a'.
      destruct (IH (sums U) p a HL H3) as (q & Q1 & Q2); [rewrite sums_length; eapply used_lt; eauto|assumption|].
      rewrite Q1. eexists. split; [reflexivity|]. cbn [pvalid]. rewrite F, H2. auto.
  - destruct SP as (_ & F & _). lia.
Qed.

Lemma decr_path_spec Us : forall W p k, lk W Us -> pvalid Us p (S k) -> Forall nonempty Us ->
  exists q, decr_path Us p = Some q /\ pvalid Us q k.
Proof.
  induction Us as [|U r IH]; intros W [|[a b] p] k HL HP HN; cbn [lk pvalid] in *; try tauto; [lia|].
  destruct HL as (HW & HC & HL). destruct HP as (H1 & H2 & H3).
  inversion HN as [|U0 r0 N1 N2]; subst U0 r0. cbn [decr_path].
  pose proof (used_lt _ _ _ H1) as AL.
  pose proof (decr_at_spec U a b H1 (fun g => N1 (a - 1) ltac:(lia))) as SP.
  destruct (decr_at U a b) as [[a'|] b'].
  - destruct SP as (V & F & C). destruct (Nat.eqb_spec a a') as [<-|NE].
    + eexists. split; [reflexivity|]. cbn [pvalid]. repeat split; auto. lia.
    + destruct C as [C|(C & _)]; [congruence|]. subst a.
      destruct (IH (sums U) p a' HL H3 N2) as (q & Q1 & Q2).
      rewrite Q1. eexists. split; [reflexivity|]. cbn [pvalid]. repeat split; auto. lia.
  - destruct SP as (_ & F & _). lia.
Qed.

(* elements before node k, from its path *)
Lemma before_flat U W k i : map wt (concat U) = W -> i <= used U k -> k < length U ->
  list_sum (firstn (flat U k i) W) = before U k + sum_wt (firstn i (nd U k)).
Proof.
  intros H I K. rewrite before_concat, sum_wt_list, sum_wt_list, <- H.
  destruct (level_at U k) as (A & n & B & E & L & N); [assumption|].
  rewrite N. unfold used in I. rewrite N in I. subst U k. rewrite flat_app, concat_app. cbn [concat].
  rewrite firstn_app, firstn_all, Nat.sub_diag. cbn [firstn]. rewrite app_nil_r.
  rewrite firstn_map, !firstn_app.
  rewrite (firstn_all2 (n := length (concat A) + i)) by lia.
  replace (length (concat A) + i - length (concat A)) with i by lia.
  replace (i - length n) with 0 by lia. cbn [firstn]. rewrite app_nil_r.
  rewrite map_app, list_sum_app. reflexivity.
Qed.

Lemma path_rank_spec Us : forall W p k, lk W Us -> pvalid Us p k -> path_rank Us p = list_sum (firstn k W).
Proof.
  induction Us as [|U r IH]; intros W [|[a b] p] k HL HP; cbn [lk pvalid path_rank] in *; try tauto.
  - subst k. reflexivity.
  - destruct HL as (HW & HC & HL). destruct HP as (H1 & H2 & H3).
    rewrite (IH _ _ _ HL H3). rewrite <- H2.
    rewrite (before_flat U W a b HW); [|lia|eapply used_lt; eauto]. unfold before. lia.
Qed.

(* ---------- changing counts along a path ---------- *)

Lemma sums_ext_shape U U' : shape U = shape U' -> length U = length U'.
Proof. apply shape_len. Qed.

Lemma adj_path_shapes Us : forall p f, shapes (adj_path Us p f) = shapes Us.
Proof.
  induction Us as [|U r IH]; intros [|[a b] p] f; cbn; try reflexivity.
  unfold shapes in *. rewrite IH, set_cnt_shape. reflexivity.
Qed.

Lemma adj_path_add Us : forall W p k c, lk W Us -> pvalid Us p k ->
  lk (upd_nth k (fun n => n + c) W) (adj_path Us p (fun n => n + c)).
Proof.
  induction Us as [|U r IH]; intros W [|[a b] p] k c HL HP; cbn [lk pvalid adj_path] in *; try tauto.
  - rewrite upd_nth_length. exact HL.
  - destruct HL as (HW & HC & HL). destruct HP as (H1 & H2 & H3).
    split; [|split].
    + rewrite set_cnt_wts by assumption. rewrite H2, HW. reflexivity.
    + apply set_cnt_cnts; assumption.
    + rewrite set_cnt_sums by assumption.
      rewrite (upd_nth_ext _ (fun n => n + c)) by (intros; lia). apply IH; assumption.
Qed.

Lemma adj_path_sub Us : forall W p k c, lk W Us -> pvalid Us p k -> c <= nth k W 0 ->
  lk (upd_nth k (fun n => n - c) W) (adj_path Us p (fun n => n - c)) /\ path_ge Us p c = true.
Proof.
  induction Us as [|U r IH]; intros W [|[a b] p] k c HL HP HC0; cbn [lk pvalid adj_path path_ge] in *; try tauto.
  - rewrite upd_nth_length. auto.
  - destruct HL as (HW & HC & HL). destruct HP as (H1 & H2 & H3).
    assert (SW : slot_wt U a b = nth k W 0) by (rewrite slot_wt_nth, H2, HW by assumption; reflexivity).
    assert (LE : c <= nth a (sums U) 0) by (rewrite sums_nth; pose proof (slot_le_sum U a b); lia).
    destruct (IH _ _ _ c HL H3 LE) as (I1 & I2).
    split; [split; [|split]|].
    + rewrite set_cnt_wts by assumption. rewrite H2, HW. reflexivity.
    + apply set_cnt_cnts; assumption.
    + rewrite set_cnt_sums by assumption.
      rewrite (upd_nth_ext _ (fun n => n - c)); [assumption|].
      intros x E. assert (x = nth a (sums U) 0) by (symmetry; apply nth_error_nth; exact E).
      rewrite sums_nth in *. pose proof (slot_le_sum U a b). lia.
    + rewrite I2. rewrite (proj2 (Nat.leb_le _ _)); [reflexivity|lia].
Qed.

(* weight c goes from node k to node j *)
Definition mv (k j c : nat) (W : list nat) : list nat := upd_nth j (fun n => n + c) (upd_nth k (fun n => n - c) W).

Lemma mv_length k j c W : length (mv k j c W) = length W.
Proof. unfold mv. rewrite !upd_nth_length. reflexivity. Qed.

Lemma mv_same k c W : c <= nth k W 0 -> mv k k c W = W.
Proof.
  intros H. unfold mv. rewrite upd_nth_twice. apply upd_nth_id. intros x E.
  rewrite (nth_error_nth _ _ 0 E) in H. lia.
Qed.

(* one step of moving: from slot (a, b) to slot (a', b') of level U *)
Lemma mv_step U W a b a' b' c :
  map wt (concat U) = W -> Forall is_cnt (concat U) -> b < used U a -> b' < used U a' -> flat U a b <> flat U a' b' ->
  c <= nth (flat U a b) W 0 ->
  let U2 := set_cnt (set_cnt U a b (fun n => n - c)) a' b' (fun n => n + c) in
  map wt (concat U2) = mv (flat U a b) (flat U a' b') c W /\ Forall is_cnt (concat U2) /\ shape U2 = shape U /\
  sums U2 = mv a a' c (sums U) /\ c <= nth a (sums U) 0.
Proof.
  intros HW HC H1 H2 NE LE U2.
  set (U1 := set_cnt U a b (fun n => n - c)) in *.
  assert (SH : shape U1 = shape U) by apply set_cnt_shape.
  assert (H2' : b' < used U1 a') by (rewrite (shape_used _ _ SH); exact H2).
  assert (C1 : Forall is_cnt (concat U1)) by (apply set_cnt_cnts; assumption).
  assert (SW : slot_wt U a b = nth (flat U a b) W 0) by (rewrite slot_wt_nth, HW by assumption; reflexivity).
  assert (LS : c <= nth a (sums U) 0) by (rewrite sums_nth; pose proof (slot_le_sum U a b); lia).
  split; [|split; [|split; [|split]]].
  - unfold U2. rewrite set_cnt_wts by assumption. rewrite (shape_flat _ _ SH).
    unfold U1. rewrite set_cnt_wts by assumption. rewrite HW. reflexivity.
  - apply set_cnt_cnts; assumption.
  - unfold U2. rewrite set_cnt_shape. exact SH.
  - unfold U2. rewrite set_cnt_sums by assumption.
    rewrite (upd_nth_ext _ (fun n => n + c)) by (intros; lia). unfold mv. f_equal.
    unfold U1. rewrite set_cnt_sums by assumption. apply upd_nth_ext.
    intros x E. assert (x = nth a (sums U) 0) by (symmetry; apply nth_error_nth; exact E).
    rewrite sums_nth in *. pose proof (slot_le_sum U a b). lia.
  - exact LS.
Qed.

Lemma move_split_spec Us : forall W p k j dr c, lk W Us -> pvalid Us p k -> c <= nth k W 0 ->
  Forall nonempty Us -> j < length W -> match dr with Next => j = S k | Prev => k = S j end ->
  exists Us', move_split Us p dr c = Some Us' /\ lk (mv k j c W) Us' /\ shapes Us' = shapes Us.
Proof.
  induction Us as [|U r IH]; intros W [|[a b] p] k j dr c HL HP HC0 HN HJ HD; cbn [lk pvalid move_split] in *; try tauto.
  - exfalso. destruct dr; lia.
  - destruct HL as (HW & HC & HL). destruct HP as (H1 & H2 & H3).
    inversion HN as [|U0 r0 N1 N2]; subst U0 r0.
    pose proof (used_lt _ _ _ H1) as AL.
    set (U1 := set_cnt U a b (fun n => n - c)).
    assert (SH : shape U1 = shape U) by apply set_cnt_shape.
    assert (STEP : exists a' b', (match dr with Next => incr_at U1 a b | Prev => decr_at U1 a b end) = (Some a', b') /\
              b' < used U a' /\ flat U a' b' = j /\ (a' = a \/ match dr with Next => a' = S a | Prev => a = S a' end)).
    { destruct dr.
      - rewrite (shape_incr _ _ SH). pose proof (incr_at_spec U a b H1 (N1 (S a))) as SP.
        destruct (incr_at U a b) as [[a'|] b'].
        + destruct SP as (V & F & C). exists a', b'. repeat split; auto; [lia|]. tauto.
        + destruct SP as (_ & F & _). rewrite <- HW, map_length in HJ. lia.
      - rewrite (shape_decr _ _ SH). pose proof (decr_at_spec U a b H1 (fun g => N1 (a - 1) ltac:(lia))) as SP.
        destruct (decr_at U a b) as [[a'|] b'].
        + destruct SP as (V & F & C). exists a', b'. repeat split; auto; [lia|]. destruct C as [->|(C & _)]; auto.
        + destruct SP as (_ & F & _). lia. }
    destruct STEP as (a' & b' & ES & V & F & C). rewrite ES.
    assert (NE : flat U a b <> flat U a' b') by (rewrite H2, F; destruct dr; lia).
    rewrite <- H2 in HC0.
    destruct (mv_step U W a b a' b' c HW HC H1 V NE HC0) as (M1 & M2 & M3 & M4 & M5).
    fold U1 in M1, M2, M3, M4. rewrite H2, F in M1.
    destruct (Nat.eqb_spec a a') as [<-|NA].
    + eexists. split; [reflexivity|]. split.
      * cbn [lk]. split; [exact M1|]. split; [exact M2|].
        rewrite M4, mv_same by assumption. exact HL.
      * cbn [shapes map]. rewrite M3. reflexivity.
    + destruct C as [C|C]; [congruence|].
      destruct (IH (sums U) p a a' dr c HL H3 M5 N2) as (r' & R1 & R2 & R3).
      { rewrite sums_length. eapply used_lt; eauto. }
      { exact C. }
      rewrite R1. eexists. split; [reflexivity|]. split.
      * cbn [lk]. split; [exact M1|]. split; [exact M2|]. rewrite M4. exact R2.
      * unfold shapes in *. cbn [map]. rewrite M3, R3. reflexivity.
Qed.
