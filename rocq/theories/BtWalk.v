(* Walking over a range, with and without deleting *)
From Verif Require Import Base UtilModel BtModel BtSpec BtOrder BtLevel BtFind BtSplit BtMerge BtMerge2.
Local Open Scope nat_scope.

Definition btree (T : list level) (E : list elem) : Prop := well T /\ concat (lev T 0) = map full E.

Lemma btree_tree T E : btree T E -> tree T E.
Proof. intros (H & HE). destruct T as [|L Us]; [contradiction|]. destruct H as (H1 & H2 & H3). split; [exact HE|]. split; assumption. Qed.

Lemma full_wt (E : list elem) : Forall (fun s => wt s <> 0) (map full E).
Proof. apply Forall_forall. intros s H. apply in_map_iff in H. destruct H as (e & <- & _). discriminate. Qed.

Lemma full_live (L : level) E : concat L = map full E -> live L.
Proof. intros H. unfold live. rewrite H. apply full_wt. Qed.

(* ---------- removing one element ---------- *)

Lemma map_del_nth {A B} (f : A -> B) l i : map f (del_nth i l) = del_nth i (map f l).
Proof. unfold del_nth. rewrite map_app, firstn_map, skipn_map. reflexivity. Qed.

Lemma del_slot L k i : i < used L k -> let L1 := set_nd L k (del_nth i (nd L k)) in
  concat L1 = del_nth (flat L k i) (concat L) /\ length L1 = length L /\ S (used L1 k) = used L k /\
  sums L1 = upd_nth k (fun n => n - slot_wt L k i) (sums L).
Proof.
  intros H L1. unfold L1. clear L1. pose proof (used_lt _ _ _ H) as K. destruct (level_at L k K) as (A & n & B & E & LA & N).
  unfold used, slot_wt in *. rewrite N in *. destruct (list_at n i H) as (n1 & s & n2 & En & Ln). subst L k. rewrite set_nd_app.
  assert (D : del_nth i n = n1 ++ n2) by (rewrite En, <- Ln; apply del_nth_app). rewrite D.
  split; [|split; [|split]].
  - rewrite flat_app, !concat_app. cbn [concat]. rewrite En.
    replace (concat A ++ (n1 ++ s :: n2) ++ concat B) with ((concat A ++ n1) ++ s :: (n2 ++ concat B)) by (rewrite <- !app_assoc; reflexivity).
    replace (length (concat A) + i) with (length (concat A ++ n1)) by (rewrite app_length; lia). rewrite del_nth_app, <- !app_assoc. reflexivity.
  - rewrite !app_length. reflexivity.
  - rewrite nd_app1, En, !app_length. cbn [length]. lia.
  - unfold sums. rewrite !map_app. cbn [map]. rewrite <- (map_length sum_wt A), upd_nth_app. f_equal. f_equal.
    rewrite En, <- Ln, nth_error_app2, Nat.sub_diag by lia. cbn [nth_error]. rewrite !sum_wt_app, sum_wt_cons. lia.
Qed.

Lemma elem_unlink_spec T E k i p : btree T E -> i < used (lev T 0) k -> pvalid (tl T) p k ->
  exists T', elem_unlink T k i p = Some T' /\ length T' <= length T /\
    (T' = [] /\ del_nth (flat (lev T 0) k i) E = [] \/ btree T' (del_nth (flat (lev T 0) k i) E)).
Proof.
  intros (HW & HE) V HP. destruct T as [|L Us]; [contradiction|]. cbn [lev nth tl] in *. unfold lev in *. cbn [nth] in *.
  destruct HW as (HLK & HN & HC). inversion HN as [|x0 r0 NL NU]; subst x0 r0. inversion HC as [|x0 r0 CL CU]; subst x0 r0.
  unfold elem_unlink. destruct (del_slot L k i V) as (D1 & D2 & D3 & D4). set (L1 := set_nd L k (del_nth i (nd L k))) in *.
  pose proof (used_lt _ _ _ V) as KL.
  assert (SW : slot_wt L k i = 1).
  { unfold slot_wt. rewrite <- flat_nth by assumption. rewrite HE. rewrite nth_error_map.
    pose proof (flat_lt L k i V) as FL. rewrite HE, map_length in FL. rewrite (nth_error_nth' E (mkE (U64 0) [] []) _ FL). reflexivity. }
  rewrite SW in D4.
  assert (C1 : concat L1 = map full (del_nth (flat L k i) E)) by (rewrite D1, HE, map_del_nth; reflexivity).
  assert (PRED : forall U q, adj_path U q pred = adj_path U q (fun n => n - 1)).
  { assert (PE : forall n s, upd_nth n (adj pred) s = upd_nth n (adj (fun n => n - 1)) s).
    { intros n s. apply upd_nth_ext. intros [o|m] _; cbn; [reflexivity|]. f_equal. lia. }
    induction U as [|U0 U IH]; intros [|[a b] q]; cbn [adj_path]; try reflexivity. unfold set_cnt. rewrite PE, IH. reflexivity. }
  rewrite PRED.
  destruct (adj_path_sub Us (sums L) p k 1 HLK HP) as (A1 & _).
  { rewrite sums_nth. pose proof (slot_le_sum L k i). lia. }
  rewrite <- D4 in A1. pose proof (adj_path_shapes Us p (fun n => n - 1)) as SH. set (Us1 := adj_path Us p (fun n => n - 1)) in *.
  assert (NU1 : Forall nonempty Us1) by (eapply shapes_nonempty; [symmetry; exact SH|exact NU]).
  assert (CU1 : Forall capped Us1) by (eapply shapes_capped; [symmetry; exact SH|exact CU]).
  assert (P1 : pvalid Us1 p k) by (eapply pvalid_shapes; [symmetry; exact SH|exact HP]).
  assert (OTH : forall x, x <> k -> used L1 x = used L x) by (intros x X; apply used_set_other; exact X).
  assert (CL1 : capped L1).
  { intros x. destruct (Nat.eq_dec x k) as [->|NX]; [pose proof (CL k); lia|]. rewrite OTH by assumption. apply CL. }
  assert (LEN : length (L1 :: Us1) = length (L :: Us)) by (cbn [length]; rewrite (shapes_len _ _ SH); reflexivity).
  change (Nat.div ITEM_COUNT 2) with 16. destruct (Nat.ltb_spec (used L1 k) 16) as [G|G].
  - destruct (node_merge_spec true 1 k L1 Us1 p) as (T' & M1 & M2 & M3); auto.
    + eapply full_live; eauto.
    + intros x X U0. destruct (Nat.eq_dec x k) as [->|NX]; [unfold todo; lia|]. rewrite OTH in U0 by assumption.
      specialize (NL x ltac:(lia)). lia.
    + cbv iota. lia.
    + exists T'. split; [exact M1|]. split; [lia|]. destruct M3 as [(M3 & M4)|(M3 & M4)].
      * left. split; [exact M3|]. rewrite C1 in M4. destruct (del_nth (flat L k i) E); [reflexivity|discriminate].
      * right. split; [exact M3|]. rewrite M4. exact C1.
  - exists (L1 :: Us1). split; [reflexivity|]. split; [lia|]. right. split; [|exact C1]. split; [exact A1|]. split; constructor; auto.
    intros x X. destruct (Nat.eq_dec x k) as [->|NX]; [lia|]. rewrite OTH by assumption. apply NL. lia.
Qed.

(* ---------- one step ---------- *)

Lemma step_posi T E (fw : bool) k i : tree T E -> i < used (lev T 0) k ->
  match (if fw then incr_at (lev T 0) k i else decr_at (lev T 0) k i) with
  | (Some k', i') => i' < used (lev T 0) k' /\
       (if fw then flat (lev T 0) k' i' = S (flat (lev T 0) k i) else S (flat (lev T 0) k' i') = flat (lev T 0) k i) /\
       (k' = k \/ if fw then k' = S k /\ i' = 0 else k = S k' /\ S i' = used (lev T 0) k')
  | (None, i') => if fw then i' = 0 /\ S (flat (lev T 0) k i) = length E else i' = ITEM_COUNT /\ flat (lev T 0) k i = 0
  end.
Proof.
  intros HT V. set (L := lev T 0) in *.
  assert (NE : nonempty L) by (apply (tree_nonempty T E HT 0); eapply tree_length; eauto).
  assert (LE : length (concat L) = length E) by (unfold L; rewrite (tree_leaf T E HT), map_length; reflexivity).
  pose proof (used_lt _ _ _ V) as KL.
  destruct fw.
  - pose proof (incr_at_spec L k i V (NE (S k))) as SP. destruct (incr_at L k i) as [[k'|] i'].
    + destruct SP as (S1 & S2 & S3). split; [exact S1|]. split; [exact S2|]. tauto.
    + destruct SP as (-> & S2 & _). split; [reflexivity|congruence].
  - pose proof (decr_at_spec L k i V (fun g => NE (k - 1) ltac:(lia))) as SP. destruct (decr_at L k i) as [[k'|] i'].
    + destruct SP as (S1 & S2 & S3). split; [exact S1|]. split; [exact S2|]. destruct S3 as [S3|(S3 & _ & S4)]; [tauto|]. right. split; [lia|exact S4].
    + destruct SP as (-> & S2 & _). auto.
Qed.

Definition dirlist (E : list elem) (fw : bool) (r : nat) : list elem := if fw then skipn r E else rev (firstn (S r) E).
Definition next_rank (fw : bool) (r : nat) : nat := if fw then S r else pred r.
Definition last_rank (E : list elem) (fw : bool) (r : nat) : Prop := if fw then S r = length E else r = 0.

Lemma nth_error_split' {A} (l : list A) r e : nth_error l r = Some e -> skipn r l = e :: skipn (S r) l /\ firstn (S r) l = firstn r l ++ [e].
Proof.
  revert r. induction l as [|x l IH]; intros r H; [destruct r; discriminate|]. destruct r as [|r]; cbn in H.
  - injection H as ->. split; reflexivity.
  - destruct (IH r H) as [I1 I2]. cbn [skipn firstn]. split; [exact I1|]. cbn [app]. f_equal. exact I2.
Qed.

Lemma dirlist_cons E fw r e : nth_error E r = Some e -> exists V, dirlist E fw r = e :: V /\
  (last_rank E fw r -> V = []) /\ (~ last_rank E fw r -> V = dirlist E fw (next_rank fw r)).
Proof.
  intros H. destruct (nth_error_split' E r e H) as [H1 H2]. unfold dirlist, last_rank, next_rank. destruct fw.
  - exists (skipn (S r) E). split; [exact H1|]. split; [|reflexivity]. intros L. apply skipn_all2. lia.
  - exists (rev (firstn r E)). split; [rewrite H2, rev_app_distr; reflexivity|]. split; [intros ->; reflexivity|].
    intros L. replace (S (pred r)) with r by lia. reflexivity.
Qed.

Section Walk.
Variables (fw : bool) (rg : option range) (fl : option efilter) (ofs cnt : nat).

Definition beyond (e : elem) : bool :=
  match rg with None => false | Some r => if fw then klt (r_end r) (bk e) else klt (bk e) (r_end r) end.
Definition at_end (e : elem) : bool := match rg with None => false | Some r => keq (bk e) (r_end r) end.

(* the walk over the elements that follow, nearest first; the flag tells whether the elements ran out *)
Fixpoint aw (V : list elem) (eq : bool) (skip : nat) (acc : list elem) : list elem * bool :=
  match V with
  | [] => (acc, true)
  | e :: V' =>
      let hit := passes fl e in
      let tk := hit && negb (Nat.ltb skip ofs) in
      let acc1 := if tk then acc ++ [e] else acc in
      let skip1 := if tk then skip else if hit then S skip else skip in
      if tk && Nat.ltb 0 cnt && Nat.leb cnt (length acc1) then (acc1, false)
      else if eq then (acc1, false)
      else match V' with
           | [] => (acc1, true)
           | e' :: _ => if beyond e' then (acc1, false) else aw V' (at_end e') skip1 acc1
           end
  end.

Lemma find_step_spec T E k i q : tree T E -> i < used (lev T 0) k ->
  let r := flat (lev T 0) k i in
  if (if fw then Nat.eqb (S r) (length E) else Nat.eqb r 0) then
    find_step T fw (mkPosi (Some k) i q) rg = Some (None, mkPosi None (if fw then 0 else ITEM_COUNT) false)
  else exists e' k' i', nth_error E (next_rank fw r) = Some e' /\ i' < used (lev T 0) k' /\ flat (lev T 0) k' i' = next_rank fw r /\
    (k' = k \/ if fw then k' = S k /\ i' = 0 else k = S k' /\ S i' = used (lev T 0) k') /\
    find_step T fw (mkPosi (Some k) i q) rg = Some (if beyond e' then None else Some e', mkPosi (Some k') i' (at_end e')).
Proof.
  intros HT V r. unfold find_step. cbn [pn px]. pose proof (step_posi T E fw k i HT V) as SP. fold r in SP.
  destruct (elem_at_spec T E HT k i V) as (_ & RL). fold r in RL.
  destruct (if fw then incr_at (lev T 0) k i else decr_at (lev T 0) k i) as [[k'|] i'].
  - destruct SP as (S1 & S2 & S3).
    assert (NR : flat (lev T 0) k' i' = next_rank fw r) by (unfold next_rank; destruct fw; lia).
    destruct (elem_at_spec T E HT k' i' S1) as (EA & EL). rewrite NR in EA, EL.
    assert (NL : (if fw then Nat.eqb (S r) (length E) else Nat.eqb r 0) = false).
    { unfold next_rank in *. destruct fw; apply Nat.eqb_neq; lia. }
    rewrite NL. destruct (nth_error E (next_rank fw r)) as [e'|] eqn:EE; [|apply nth_error_None in EE; lia].
    exists e', k', i'. split; [reflexivity|]. split; [exact S1|]. split; [exact NR|]. split; [exact S3|].
    rewrite EA. unfold beyond, at_end. destruct rg as [g|]; [|reflexivity].
    destruct (bcomp (bk e') (r_end g)) eqn:EC.
    + apply bcomp_eq in EC. rewrite EC, klt_irrefl, keq_refl. destruct fw; reflexivity.
    + apply bcomp_lt in EC. rewrite (klt_asym _ _ EC), EC, (klt_neq _ _ EC). destruct fw; reflexivity.
    + apply bcomp_gt in EC. rewrite (klt_asym _ _ EC), EC, (klt_neq' _ _ EC). destruct fw; reflexivity.
  - destruct fw.
    + destruct SP as (-> & S2). rewrite S2, Nat.eqb_refl. reflexivity.
    + destruct SP as (-> & S2). rewrite S2. reflexivity.
Qed.

(* ---------- selected slots ---------- *)

Definition sel (D : list elem) (s : slot) : bool := match s with El (Some e) => has_key (bk e) D | _ => false end.
Definition prune (D : list elem) (n : node) : node := filter (fun s => negb (sel D s)) n.
Definition nullify (D : list elem) (n : node) : node := map (fun s => if sel D s then El None else s) n.
Definition selcnt (D : list elem) (n : node) : nat := length (filter (sel D) n).
Definition solid (n : node) : Prop := Forall (fun s => exists e, s = full e) n.

Lemma nullify_length D n : length (nullify D n) = length n.
Proof using. apply map_length. Qed.

Lemma nullify_filter D n : solid n -> filter nz (nullify D n) = prune D n /\ length (filter is_null (nullify D n)) = selcnt D n /\ sum_wt (nullify D n) = sum_wt n.
Proof using.
  induction n as [|s n IH]; intros H; [repeat split|]. apply Forall_cons_iff in H. destruct H as [(e & ->) HN].
  destruct (IH HN) as (I1 & I2 & I3). unfold prune, nullify, selcnt in *. cbn [map filter]. destruct (sel D (full e)) eqn:ES; cbn [negb].
  - cbn [nz is_null negb]. split; [exact I1|]. split; [cbn [length]; f_equal; exact I2|]. rewrite !sum_wt_cons, I3. reflexivity.
  - cbn [nz is_null negb full]. split; [f_equal; exact I1|]. split; [exact I2|]. rewrite !sum_wt_cons, I3. reflexivity.
Qed.

Lemma solid_wt n : solid n -> sum_wt n = length n.
Proof using. induction n as [|s n IH]; intros H; [reflexivity|]. apply Forall_cons_iff in H. destruct H as [(e & ->) HN]. rewrite sum_wt_cons, IH by assumption. reflexivity. Qed.

Lemma solid_prune D n : solid n -> solid (prune D n) /\ length (prune D n) + selcnt D n = length n.
Proof using.
  intros H. split.
  - apply Forall_forall. intros s HS. apply filter_In in HS. unfold solid in H. rewrite Forall_forall in H. apply H. tauto.
  - pose proof (filter_split_len (sel D) n). unfold prune, selcnt. lia.
Qed.

Lemma none_sel D n : (forall s, In s n -> sel D s = false) -> prune D n = n /\ nullify D n = n /\ selcnt D n = 0.
Proof using.
  induction n as [|s n IH]; intros H; [repeat split|]. destruct (IH (fun x HX => H x (or_intror HX))) as (I1 & I2 & I3).
  unfold prune, nullify, selcnt in *. cbn [filter map]. rewrite (H s (or_introl eq_refl)). cbn [negb].
  split; [f_equal; exact I1|]. split; [f_equal; exact I2|exact I3].
Qed.

Lemma selcnt_zero D n : selcnt D n = 0 -> prune D n = n /\ nullify D n = n.
Proof using.
  intros H. destruct (none_sel D n) as (A & B & _); [|auto]. intros s HS. destruct (sel D s) eqn:E; [|reflexivity].
  unfold selcnt in H. assert (IN : In s (filter (sel D) n)) by (apply filter_In; auto). destruct (filter (sel D) n); [contradiction|discriminate].
Qed.

Lemma has_key_app k D e : has_key k (D ++ [e]) = has_key k D || keq k (bk e).
Proof using. unfold has_key. rewrite existsb_app. cbn [existsb]. rewrite orb_false_r. reflexivity. Qed.

Lemma has_key_In k D : has_key k D = true <-> exists d, In d D /\ bk d = k.
Proof using.
  unfold has_key. rewrite existsb_exists. split; intros (d & H1 & H2); exists d; (split; [exact H1|]).
  - apply keq_eq in H2. congruence.
  - subst. apply keq_refl.
Qed.

(* one more selected element, in this node or not *)
Lemma sel_other D e n : (forall x, In (full x) n -> bk x <> bk e) -> solid n -> prune (D ++ [e]) n = prune D n /\ nullify (D ++ [e]) n = nullify D n.
Proof using.
  intros H HS.
  assert (SE : forall s, In s n -> sel (D ++ [e]) s = sel D s).
  { intros s HIN. unfold solid in HS. rewrite Forall_forall in HS. destruct (HS s HIN) as (x & ->). cbn [sel full]. rewrite has_key_app.
    destruct (keq (bk x) (bk e)) eqn:EK; [|apply orb_false_r]. apply keq_eq in EK. exfalso. exact (H x HIN EK). }
  split; [apply filter_ext_in|apply map_ext_in]; intros s HIN; rewrite SE by assumption; reflexivity.
Qed.

Lemma sel_here D e n i : solid n -> nth_error n i = Some (full e) -> has_key (bk e) D = false ->
  (forall j x, nth_error n j = Some (full x) -> bk x = bk e -> j = i) ->
  nullify (D ++ [e]) n = upd_nth i (fun _ => El None) (nullify D n) /\ selcnt (D ++ [e]) n = S (selcnt D n).
Proof using.
  clear fw rg fl ofs cnt.
  intros HS HI HK HU. destruct (nth_error_split n i HI) as (n1 & n2 & En & Ln). subst n i.
  assert (N1 : forall x, In (full x) n1 -> bk x <> bk e).
  { intros x HX EQ. apply In_nth_error in HX. destruct HX as [j HJ]. assert (JL : j < length n1) by (apply nth_error_Some; rewrite HJ; discriminate).
    assert (j = length n1) by (apply (HU j x); [rewrite nth_error_app1 by assumption; exact HJ|exact EQ]). lia. }
  assert (N2 : forall x, In (full x) n2 -> bk x <> bk e).
  { intros x HX EQ. apply In_nth_error in HX. destruct HX as [j HJ].
    assert (length n1 + S j = length n1); [|lia]. apply (HU (length n1 + S j) x); [|exact EQ].
    rewrite nth_error_app2 by lia. replace (length n1 + S j - length n1) with (S j) by lia. exact HJ. }
  unfold solid in HS. apply Forall_app in HS. destruct HS as [S1 S2]. inversion S2 as [|s0 r0 _ S3]; subst s0 r0.
  destruct (sel_other D e n1 N1 S1) as [P1 P2]. destruct (sel_other D e n2 N2 S3) as [Q1 Q2].
  split.
  - unfold nullify in *. rewrite !map_app. cbn [map]. rewrite P2, Q2. rewrite <- (map_length (fun s => if sel D s then El None else s) n1). rewrite upd_nth_app.
    f_equal. f_equal. cbn [sel full]. rewrite has_key_app, keq_refl, orb_true_r. reflexivity.
  - destruct (solid_prune (D ++ [e]) n1 S1) as [_ L1]. destruct (solid_prune D n1 S1) as [_ L1']. rewrite P1 in L1.
    destruct (solid_prune (D ++ [e]) n2 S3) as [_ L2]. destruct (solid_prune D n2 S3) as [_ L2']. rewrite Q1 in L2.
    unfold selcnt in *. rewrite !filter_app. cbn [filter]. cbn [sel full]. rewrite has_key_app, keq_refl, orb_true_r, HK. rewrite !app_length. cbn [length]. lia.
Qed.
Variables (L0 : level) (Us0 : list level) (E : list elem) (del : bool) (k0 : nat).
Hypothesis HT : tree (L0 :: Us0) E.
Hypothesis HS : incr_keys E.

Definition located (D : list elem) (P : nat -> nat -> Prop) : Prop :=
  forall d, In d D -> exists x y, y < used L0 x /\ nth_error (nd L0 x) y = Some (full d) /\ P x y.

Definition winv (w : wk) : Prop :=
  wtot w + wcur w = length (wacc w) /\
  if del then
    exists L Us, wT w = L :: Us /\ shapes Us = shapes Us0 /\ lk (sums L) Us /\ length L = length L0 /\
      (forall x, x <> wsk w -> nd L x = prune (wacc w) (nd L0 x)) /\
      nd L (wsk w) = nullify (wacc w) (nd L0 (wsk w)) /\
      wcur w = selcnt (wacc w) (nd L0 (wsk w)) /\
      wsk w < length L0 /\ pvalid Us0 (wup w) (wsk w) /\ wsi w <= used L0 (wsk w) /\
      (if fw then S (wsk w) = k0 + wnodes w else S k0 = wsk w + wnodes w) /\ 0 < wnodes w /\
      located (wacc w) (fun x y => if fw then k0 <= x <= wsk w /\ (x = wsk w -> wsi w <= y) else wsk w <= x <= k0)
  else wT w = L0 :: Us0.

Lemma leaf_solid x : solid (nd L0 x).
Proof using HT.
  destruct HT as (H1 & _). apply Forall_forall. intros s HI. unfold nd in HI. destruct (Nat.ltb_spec x (length L0)) as [XL|XL].
  - assert (IN : In s (concat L0)) by (apply in_concat; exists (nth x L0 []); split; [apply nth_In; exact XL|exact HI]).
    rewrite H1 in IN. apply in_map_iff in IN. destruct IN as (e & <- & _). eauto.
  - rewrite nth_overflow in HI by exact XL. contradiction.
Qed.

Lemma key_place x y x' y' a b : nth_error (nd L0 x) y = Some (full a) -> nth_error (nd L0 x') y' = Some (full b) ->
  bk a = bk b -> x = x' /\ y = y'.
Proof using HT HS.
  intros H1 H2 EQ.
  assert (Y1 : y < used L0 x) by (apply nth_error_Some; rewrite H1; discriminate).
  assert (Y2 : y' < used L0 x') by (apply nth_error_Some; rewrite H2; discriminate).
  rewrite <- flat_nth in H1 by assumption. rewrite <- flat_nth in H2 by assumption.
  destruct HT as (HL & _). rewrite HL, nth_error_map in H1, H2.
  destruct (nth_error E (flat L0 x y)) as [a'|] eqn:EA; [|discriminate]. destruct (nth_error E (flat L0 x' y')) as [b'|] eqn:EB; [|discriminate].
  cbn in H1, H2. injection H1 as ->. injection H2 as ->.
  assert (F : flat L0 x y = flat L0 x' y').
  { destruct (Nat.lt_trichotomy (flat L0 x y) (flat L0 x' y')) as [C|[C|C]]; [|exact C|].
    - pose proof (HS _ _ _ _ C EA EB) as K. rewrite EQ, klt_irrefl in K. discriminate.
    - pose proof (HS _ _ _ _ C EB EA) as K. rewrite EQ, klt_irrefl in K. discriminate. }
  exact (flat_inj L0 x y x' y' Y1 Y2 F).
Qed.

Lemma located_none D (P : nat -> nat -> Prop) x : located D P -> (forall y, y < used L0 x -> ~ P x y) ->
  prune D (nd L0 x) = nd L0 x /\ nullify D (nd L0 x) = nd L0 x /\ selcnt D (nd L0 x) = 0.
Proof using HT HS.
  intros HL HP. apply none_sel. intros s HI. destruct (sel D s) eqn:ES; [|reflexivity]. exfalso.
  destruct s as [[e|]|]; cbn in ES; try discriminate. apply has_key_In in ES. destruct ES as (d & HD & HK).
  destruct (HL d HD) as (a & b & B1 & B2 & B3). apply In_nth_error in HI. destruct HI as [y HY].
  destruct (key_place a b x y d e B2 HY HK) as (-> & ->). exact (HP y B1 B3).
Qed.

Lemma located_key D (P : nat -> nat -> Prop) k i e : located D P -> nth_error (nd L0 k) i = Some (full e) -> ~ P k i -> has_key (bk e) D = false.
Proof using HT HS.
  intros HL HE HP. destruct (has_key (bk e) D) eqn:EK; [|reflexivity]. exfalso. apply has_key_In in EK. destruct EK as (d & HD & HK).
  destruct (HL d HD) as (a & b & B1 & B2 & B3). destruct (key_place a b k i d e B2 HE HK) as (-> & ->). exact (HP B3).
Qed.

Lemma nonull_first D n m : solid n -> (forall y x, nth_error n y = Some (full x) -> has_key (bk x) D = true -> m <= y) ->
  filter is_null (firstn m (nullify D n)) = [].
Proof using.
  intros HSn H. destruct (filter is_null (firstn m (nullify D n))) as [|s r] eqn:EF; [reflexivity|]. exfalso.
  assert (IN : In s (filter is_null (firstn m (nullify D n)))) by (rewrite EF; left; reflexivity).
  apply filter_In in IN. destruct IN as [IN NU]. apply In_nth_error in IN. destruct IN as [y HY].
  assert (YL : y < length (firstn m (nullify D n))) by (apply nth_error_Some; rewrite HY; discriminate).
  rewrite firstn_length in YL. rewrite nth_error_firstn in HY by lia. unfold nullify in HY. rewrite nth_error_map in HY.
  destruct (nth_error n y) as [t|] eqn:EY; [|discriminate]. cbn in HY. unfold solid in HSn. rewrite Forall_forall in HSn.
  destruct (HSn t (nth_error_In _ _ EY)) as (x & ->). destruct (sel D (full x)) eqn:ES.
  - cbn in ES. specialize (H y x EY ES). lia.
  - injection HY as <-. discriminate.
Qed.

Lemma leave_spec w : del = true -> winv w -> exists w', leave w fw true = Some w' /\ wc w' = wc w /\ wsk w' = wsk w /\ wup w' = wup w /\
  wnodes w' = wnodes w /\ wskip w' = wskip w /\ wacc w' = wacc w /\ wcur w' = 0 /\ wtot w' = length (wacc w) /\
  exists L Us, wT w' = L :: Us /\ shapes Us = shapes Us0 /\ lk (sums L) Us /\ length L = length L0 /\
    (forall x, nd L x = prune (wacc w) (nd L0 x)).
Proof using HT HS.
  intros DL (W0 & W). rewrite DL in W. destruct W as (L & Us & W1 & W2 & W3 & W4 & W5 & W6 & W7 & W8 & W9 & W10 & _ & _ & W12).
  unfold leave. destruct (Nat.ltb_spec 0 (wcur w)) as [C|C].
  - rewrite W1. pose proof (leaf_solid (wsk w)) as SO. destruct (nullify_filter (wacc w) (nd L0 (wsk w)) SO) as (N1 & N2 & N3).
    rewrite W6. rewrite remove_null_spec.
    2:{ rewrite N2. symmetry. exact W7. }
    2:{ destruct fw; [|reflexivity]. apply length_zero_iff_nil. apply nonull_first; [exact SO|]. intros y x HY HK. apply has_key_In in HK. destruct HK as (d & HD & HK).
        destruct (W12 d HD) as (a & b & B1 & B2 & B3 & B4). destruct (key_place a b (wsk w) y d x B2 HY HK) as (-> & ->). auto. }
    2:{ rewrite nullify_length. destruct fw; [exact W10|lia]. }
    rewrite N1. destruct (solid_prune (wacc w) _ SO) as (P1 & P2). 
    assert (PV : pvalid Us (wup w) (wsk w)) by (eapply pvalid_shapes; [symmetry; exact W2|exact W9]).
    assert (SL : nth (wsk w) (sums L) 0 = length (nd L0 (wsk w))).
    { rewrite sums_nth, W6, N3. apply solid_wt. exact SO. }
    destruct (adj_path_sub Us (sums L) (wup w) (wsk w) (wcur w) W3 PV) as (A1 & A2); [lia|].
    rewrite A2. eexists. split; [reflexivity|]. cbn [wc wsk wup wnodes wskip wacc wcur wtot wT].
    repeat match goal with |- _ /\ _ => split end; try reflexivity; [lia|].
    eexists _, _. split; [reflexivity|]. split; [rewrite adj_path_shapes; exact W2|].
    assert (LK : wsk w < length L) by lia.
    split; [|split; [rewrite set_nd_length; exact W4|]].
    + replace (sums (set_nd L (wsk w) (prune (wacc w) (nd L0 (wsk w))))) with (upd_nth (wsk w) (fun n => n - wcur w) (sums L)); [exact A1|].
      apply list_ext. intros j. destruct (Nat.ltb_spec j (length L)) as [JL|JL].
      * rewrite (nth_error_nth' _ 0) by (rewrite upd_nth_length, sums_length; exact JL).
        rewrite (nth_error_nth' (sums (set_nd _ _ _)) 0) by (rewrite sums_length, set_nd_length; exact JL). f_equal.
        rewrite sums_nth. destruct (Nat.eq_dec (wsk w) j) as [<-|NJ].
        -- rewrite upd_nth_same by (rewrite sums_length; exact LK). rewrite nd_set_same by exact LK. rewrite SL. rewrite solid_wt by exact P1. lia.
        -- rewrite upd_nth_other by exact NJ. rewrite nd_set_other by exact NJ. apply sums_nth.
      * transitivity (@None nat); [|symmetry]; apply nth_error_None; rewrite ?upd_nth_length, ?sums_length, ?set_nd_length; exact JL.
    + intros x. destruct (Nat.eq_dec (wsk w) x) as [<-|NX]; [apply nd_set_same; exact LK|]. rewrite nd_set_other by exact NX. apply W5. congruence.
  - assert (Z : wcur w = 0) by lia. rewrite Z in W7. symmetry in W7. destruct (selcnt_zero _ _ W7) as (Z1 & Z2).
    exists w. repeat match goal with |- _ /\ _ => split end; try reflexivity; [exact Z|lia|].
    exists L, Us. repeat (split; [assumption|]). intros x. destruct (Nat.eq_dec x (wsk w)) as [->|NX]; [|apply W5; exact NX].
    rewrite W6, Z1, Z2. reflexivity.
Qed.

Definition visited (r : nat) (strict : bool) : nat -> nat -> Prop := fun x y =>
  if fw then if strict then flat L0 x y < r else flat L0 x y <= r else if strict then r < flat L0 x y else r <= flat L0 x y.

Lemma located_sub D (P Q : nat -> nat -> Prop) : located D P -> (forall x y, y < used L0 x -> P x y -> Q x y) -> located D Q.
Proof using. intros H HPQ d HD. destruct (H d HD) as (x & y & A & B & C). exists x, y. auto. Qed.

Lemma located_snoc D (P : nat -> nat -> Prop) k i e : located D P -> i < used L0 k -> nth_error (nd L0 k) i = Some (full e) -> P k i -> located (D ++ [e]) P.
Proof using. intros H HI HE HP d HD. apply in_app_iff in HD. destruct HD as [HD|[<-|[]]]; [apply H; exact HD|]. exists k, i. auto. Qed.

Lemma leaf_elem k i e : i < used L0 k -> nth_error E (flat L0 k i) = Some e -> nth_error (nd L0 k) i = Some (full e).
Proof using HT. intros HI HE. rewrite <- flat_nth by exact HI. destruct HT as (HL & _). rewrite HL, nth_error_map, HE. reflexivity. Qed.

Lemma mark_spec w i e : winv w -> pn (wc w) = Some (wsk w) -> px (wc w) = i -> i < used L0 (wsk w) ->
  nth_error E (flat L0 (wsk w) i) = Some e -> located (wacc w) (visited (flat L0 (wsk w) i) true) -> (fw = true -> wsi w <= i) ->
  let w1 := mkW (if del then match pn (wc w) with Some k => null_slot (wT w) k (px (wc w)) | None => wT w end else wT w)
              (wc w) (wsk w) (wsi w) (wup w) (S (wcur w)) (wtot w) (wnodes w) (wskip w) (wacc w ++ [e]) in
  winv w1 /\ located (wacc w1) (visited (flat L0 (wsk w) i) false).
Proof using HT HS.
  intros (W0 & W) HP HX HI HE HL HW w1. pose proof (leaf_elem _ _ _ HI HE) as LE.
  split.
  2:{ cbn [wacc w1]. eapply located_snoc; [|exact HI|exact LE|].
      - eapply located_sub; [exact HL|]. unfold visited. intros x y _. destruct fw; lia.
      - unfold visited. destruct fw; lia. }
  unfold w1, winv. cbn [wT wc wsk wsi wup wcur wtot wnodes wskip wacc]. split; [rewrite app_length; cbn [length]; lia|].
  destruct del; [|exact W]. destruct W as (L & Us & W1 & W2 & W3 & W4 & W5 & W6 & W7 & W8 & W9 & W10 & W11 & W11' & W12).
  rewrite HP, HX, W1. unfold null_slot. eexists _, Us. split; [reflexivity|]. split; [exact W2|].
  assert (LK : wsk w < length L) by lia.
  assert (HK : has_key (bk e) (wacc w) = false) by (eapply located_key; [exact HL|exact LE|unfold visited; destruct fw; lia]).
  pose proof (leaf_solid (wsk w)) as SO.
  destruct (sel_here (wacc w) e (nd L0 (wsk w)) i SO LE HK) as (N1 & N2).
  { intros j x HJ EQ. destruct (key_place _ _ _ _ _ _ HJ LE EQ) as (_ & ->). reflexivity. }
  assert (SU : sums (set_nd L (wsk w) (upd_nth i (fun _ => El None) (nd L (wsk w)))) = sums L).
  { apply list_ext. intros j. destruct (Nat.ltb_spec j (length L)) as [JL|JL].
    - rewrite (nth_error_nth' _ 0) by (rewrite sums_length, set_nd_length; exact JL).
      rewrite (nth_error_nth' (sums L) 0) by (rewrite sums_length; exact JL). f_equal. rewrite !sums_nth.
      destruct (Nat.eq_dec (wsk w) j) as [<-|NJ]; [|rewrite nd_set_other by exact NJ; reflexivity].
      rewrite nd_set_same by exact LK. rewrite W6, <- N1.
      destruct (nullify_filter (wacc w ++ [e]) _ SO) as (_ & _ & Q1). destruct (nullify_filter (wacc w) _ SO) as (_ & _ & Q2). lia.
    - transitivity (@None nat); [|symmetry]; apply nth_error_None; rewrite ?sums_length, ?set_nd_length; exact JL. }
  split; [rewrite SU; exact W3|]. split; [rewrite set_nd_length; exact W4|].
  split.
  { intros x NX. rewrite nd_set_other by congruence. rewrite W5 by exact NX. symmetry. apply sel_other; [|apply leaf_solid].
    intros z HZ EQ. apply In_nth_error in HZ. destruct HZ as [y HY]. destruct (key_place _ _ _ _ _ _ HY LE EQ) as (-> & _). congruence. }
  split; [rewrite nd_set_same by exact LK; rewrite W6; symmetry; exact N1|].
  split; [rewrite N2; f_equal; exact W7|]. repeat (split; [assumption|]).
  eapply located_snoc; [exact W12|exact HI|exact LE|]. destruct fw; [|lia]. split; [lia|]. intros _. apply HW. reflexivity.
Qed.

Lemma flat_visited k i x y : i < used L0 k -> y < used L0 x -> visited (flat L0 k i) false x y ->
  if fw then x <= k /\ (x = k -> y <= i) else k <= x /\ (x = k -> i <= y).
Proof using.
  intros HI HY HV. unfold visited in HV.
  destruct (Nat.lt_trichotomy x k) as [C|[->|C]].
  - pose proof (flat_order L0 x y k i HY C). destruct fw; lia.
  - unfold flat in HV. destruct fw; lia.
  - pose proof (flat_order L0 k i x y HI C). destruct fw; lia.
Qed.

(* marking and pruning do not disturb what lies ahead *)
Lemma find_step_same w i : winv w -> wc w = mkPosi (Some (wsk w)) i (peq (wc w)) -> i < used L0 (wsk w) ->
  located (wacc w) (visited (flat L0 (wsk w) i) false) ->
  find_step (wT w) fw (wc w) rg = find_step (L0 :: Us0) fw (wc w) rg.
Proof using HT HS.
  intros (W0 & W) HC HI HL. destruct del; [|rewrite W; reflexivity].
  destruct W as (L & Us & W1 & W2 & W3 & W4 & W5 & W6 & W7 & W8 & W9 & _). rewrite W1. clear W1.
  unfold find_step. rewrite HC. cbn [pn px]. unfold lev. cbn [nth].
  set (k := wsk w) in *.
  assert (AH : forall x, (if fw then k < x else x < k) -> nd L x = nd L0 x).
  { intros x HX. rewrite W5 by (destruct fw; lia). eapply located_none; [exact HL|]. intros y HY HV.
    pose proof (flat_visited k i x y HI HY HV). destruct fw; lia. }
  assert (US : used L k = used L0 k) by (unfold used; rewrite W6, nullify_length; reflexivity).
  pose proof (step_posi (L0 :: Us0) E fw k i HT HI) as SP. unfold lev in SP. cbn [nth] in SP.
  assert (EQ : (if fw then incr_at L k i else decr_at L k i) = (if fw then incr_at L0 k i else decr_at L0 k i)).
  { destruct fw.
    - unfold incr_at. rewrite US, W4. reflexivity.
    - unfold decr_at. destruct i; [|reflexivity]. destruct k as [|k']; [reflexivity|]. unfold used. rewrite AH by lia. reflexivity. }
  rewrite EQ. destruct (if fw then incr_at L0 k i else decr_at L0 k i) as [[k'|] i']; [|reflexivity].
  destruct SP as (S1 & S2 & S3).
  assert (EA : elem_at (L :: Us) k' i' = elem_at (L0 :: Us0) k' i'); [|rewrite EA; reflexivity].
  unfold elem_at, lev. cbn [nth]. destruct (Nat.eq_dec k' k) as [->|NK].
  - rewrite W6. unfold nullify. rewrite nth_error_map. destruct (nth_error (nd L0 k) i') as [s|] eqn:ES; [|reflexivity]. cbn.
    destruct (sel (wacc w) s) eqn:EE; [|reflexivity]. exfalso. destruct s as [[z|]|]; cbn in EE; try discriminate.
    rewrite (located_key _ _ k i' z HL ES) in EE; [discriminate|]. unfold visited. destruct fw; lia.
  - rewrite AH; [reflexivity|]. destruct fw; lia.
Qed.

Lemma walk_spec : forall fuel w i q r e, winv w -> wc w = mkPosi (Some (wsk w)) i q -> i < used L0 (wsk w) -> flat L0 (wsk w) i = r ->
  nth_error E r = Some e -> located (wacc w) (visited r true) -> (fw = true -> wsi w <= i) -> length (dirlist E fw r) <= fuel ->
  exists w', walk fuel fw rg fl ofs cnt del w e = Some w' /\ winv w' /\
    wacc w' = fst (aw (dirlist E fw r) q (wskip w) (wacc w)) /\
    if snd (aw (dirlist E fw r) q (wskip w) (wacc w)) then wc w' = mkPosi None (if fw then 0 else ITEM_COUNT) false else pn (wc w') <> None.
Proof using HT HS.
  induction fuel as [|fuel IH]; intros w i q r e HW HC HI HR HE HL HSI HF.
  { destruct (dirlist_cons E fw r e HE) as (V & EV & _). rewrite EV in HF. cbn in HF. lia. }
  destruct (dirlist_cons E fw r e HE) as (V & EV & V1 & V2). rewrite EV. rewrite EV in HF. cbn [length] in HF.
  cbn [walk]. cbn [aw].
  set (hit := passes fl e). set (tk := hit && negb (wskip w <? ofs)).
  set (w1 := if tk then _ else _).
  assert (F1 : winv w1 /\ wc w1 = wc w /\ wsk w1 = wsk w /\ wsi w1 = wsi w /\ wup w1 = wup w /\
     wacc w1 = (if tk then wacc w ++ [e] else wacc w) /\ wskip w1 = (if tk then wskip w else if hit then S (wskip w) else wskip w) /\
     located (wacc w1) (visited r false)).
  { unfold w1. assert (LS : located (wacc w) (visited r false)) by (eapply located_sub; [exact HL|]; unfold visited; intros x y _; destruct fw; lia).
    destruct tk.
    - destruct (mark_spec w i e HW) as (M1 & M2); try assumption.
      + rewrite HC. reflexivity.
      + rewrite HC. reflexivity.
      + rewrite HR. exact HE.
      + rewrite HR. exact HL.
      + rewrite HR in M2. split; [exact M1|]. repeat (split; [reflexivity|]). exact M2.
    - destruct hit; repeat (split; [assumption || reflexivity|]); exact LS. }
  clearbody w1. destruct F1 as (G1 & G2 & G3 & G4 & G5 & G6 & G7 & G8).
  assert (TC : wtot w1 + wcur w1 = length (if tk then wacc w ++ [e] else wacc w)) by (rewrite <- G6; exact (proj1 G1)).
  rewrite TC. rewrite <- G6. destruct (tk && (0 <? cnt) && (cnt <=? length (wacc w1))).
  { exists w1. split; [reflexivity|]. split; [exact G1|]. split; [reflexivity|]. cbn [snd]. rewrite G2, HC. discriminate. }
  assert (PQ : peq (wc w1) = q) by (rewrite G2, HC; reflexivity). rewrite PQ. destruct q.
  { exists w1. split; [reflexivity|]. split; [exact G1|]. split; [reflexivity|]. cbn [snd]. rewrite G2, HC. discriminate. }
  rewrite (find_step_same w1 i) by (auto; rewrite ?G2, ?G3, ?HC, ?HR; auto).
  pose proof (find_step_spec (L0 :: Us0) E (wsk w) i false HT HI) as FS. cbv zeta in FS. change (lev (L0 :: Us0) 0) with L0 in FS. rewrite HR in FS.
  rewrite G2, HC.
  assert (LR : if (if fw then Nat.eqb (S r) (length E) else Nat.eqb r 0) then last_rank E fw r else ~ last_rank E fw r).
  { unfold last_rank. destruct fw; [destruct (Nat.eqb_spec (S r) (length E))|destruct (Nat.eqb_spec r 0)]; assumption. }
  destruct (if fw then Nat.eqb (S r) (length E) else Nat.eqb r 0).
  { rewrite FS, (V1 LR). eexists. split; [reflexivity|]. cbn [wacc wc fst snd]. split; [exact G1|]. auto. }
  destruct FS as (e' & k' & i' & F1 & F2 & F3 & F4 & F5). rewrite F5. rewrite (V2 LR) in HF |- *.
  destruct (dirlist_cons E fw (next_rank fw r) e' F1) as (V' & EV' & _). destruct (beyond e') eqn:EB.
  { eexists. split; [reflexivity|]. rewrite EV', EB. cbn [wacc wc fst snd]. split; [exact G1|]. split; [reflexivity|discriminate]. }
  cbn [pn]. replace (Nat.eqb k' (wsk w1)) with (Nat.eqb k' (wsk w)) by (rewrite G3; reflexivity).
  assert (AWE : (match dirlist E fw (next_rank fw r) with [] => (wacc w1, true) | e'0 :: _ => if beyond e'0 then (wacc w1, false)
      else aw (dirlist E fw (next_rank fw r)) (at_end e'0) (if tk then wskip w else if hit then S (wskip w) else wskip w) (wacc w1) end) =
      aw (dirlist E fw (next_rank fw r)) (at_end e') (wskip w1) (wacc w1)).
  { rewrite EV', EB, G7. reflexivity. }
  rewrite AWE. clear AWE.
  assert (NX : located (wacc w1) (visited (next_rank fw r) true)).
  { eapply located_sub; [exact G8|]. unfold visited, next_rank, last_rank in *. intros x y _. destruct fw; lia. }
  destruct (Nat.eqb_spec k' (wsk w)) as [->|NK].
  - match goal with |- context [walk fuel _ _ _ _ _ _ ?wn _] => destruct (IH wn i' (at_end e') (next_rank fw r) e') as (w' & R1 & R2 & R3 & R4) end;
      [| | | | | | | |exists w'; split; [try rewrite DL in R1; exact R1|]; split; [exact R2|]; split; [exact R3|exact R4]];
      cbn [wT wc wsk wsi wup wcur wtot wnodes wskip wacc px]; try reflexivity.
    + unfold winv in *. cbn [wT wc wsk wsi wup wcur wtot wnodes wskip wacc]. exact G1.
    + rewrite G3. reflexivity.
    + rewrite G3. exact F2.
    + rewrite G3. exact F3.
    + exact F1.
    + exact NX.
    + rewrite G4. intros HF'. specialize (HSI HF'). destruct F4 as [_|F4]; [|rewrite HF' in F4; lia].
      revert F3. rewrite <- HR. unfold flat, next_rank. rewrite HF'. lia.
    + lia.
  - assert (F4' : if fw then k' = S (wsk w) /\ i' = 0 else wsk w = S k' /\ S i' = used L0 k') by (destruct F4; [congruence|assumption]).
    clear F4. destruct del eqn:DL.
    + destruct (leave_spec w1 DL G1) as (w2 & H1 & H2 & H3 & H4 & H5 & H6 & H7 & H8 & H9 & L & Us & H10 & H11 & H12 & H13 & H14).
      rewrite H1. rewrite H10. cbn [tl andb].
      destruct G1 as (G0 & G1). rewrite DL in G1. destruct G1 as (_ & _ & _ & _ & _ & _ & _ & _ & _ & G20 & G21 & _ & G23 & G24 & G25).
      rewrite G3 in *.
      assert (KL : k' < length L0) by (eapply used_lt; exact F2).
      assert (NU : Forall nonempty Us).
      { eapply shapes_nonempty; [symmetry; exact H11|]. destruct HT as (_ & _ & N). inversion N; assumption. }
      assert (PV : pvalid Us (wup w2) (wsk w)) by (rewrite H4; eapply pvalid_shapes; [symmetry; exact H11|exact G21]).
      assert (UP : exists up, (if Nat.ltb 0 (depth (L :: Us)) then if fw then incr_path Us (wup w2) else decr_path Us (wup w2) else Some (wup w2)) = Some up /\ pvalid Us up k').
      { assert (D0 : 0 < depth (L :: Us)).
        { unfold depth. cbn [length pred]. destruct Us as [|U Us']; [|cbn; lia]. cbn in H12. rewrite sums_length in H12.
          destruct fw; lia. }
        apply Nat.ltb_lt in D0. rewrite D0. destruct fw.
        - destruct F4' as (-> & _). eapply incr_path_spec; [exact H12|exact PV|rewrite sums_length; lia|exact NU].
        - destruct F4' as (K1 & _). rewrite K1 in PV. eapply decr_path_spec; [exact H12|exact PV|exact NU]. }
      destruct UP as (up & U1 & U2). rewrite U1. rewrite <- H6, <- H7.
      assert (NZ : forall y, y < used L0 k' -> ~ visited r false k' y).
      { intros y HY HV. rewrite <- HR in HV. pose proof (flat_visited (wsk w) i k' y HI HY HV). destruct fw; lia. }
      destruct (located_none _ _ k' G8 NZ) as (Z1 & Z2 & Z3).
      match goal with |- context [walk fuel _ _ _ _ _ _ ?wn _] => destruct (IH wn i' (at_end e') (next_rank fw r) e') as (w' & R1 & R2 & R3 & R4) end;
      [| | | | | | | |exists w'; split; [try rewrite DL in R1; exact R1|]; split; [exact R2|]; split; [exact R3|exact R4]];
      cbn [wT wc wsk wsi wup wcur wtot wnodes wskip wacc px]; try reflexivity.
      * unfold winv. cbn [wT wc wsk wsi wup wcur wtot wnodes wskip wacc]. rewrite H8, H9, H7. split; [lia|]. rewrite DL.
        exists L, Us. repeat (split; [assumption || reflexivity|]).
        split; [intros x _; apply H14|]. split; [rewrite H14; congruence|]. split; [symmetry; exact Z3|].
        split; [exact KL|]. split; [eapply pvalid_shapes; [exact H11|exact U2]|]. split; [lia|]. rewrite H5.
        split; [destruct fw; lia|]. split; [lia|].
        eapply located_sub; [exact G25|]. cbv beta. intros x y _ HP. destruct fw; lia.
      * exact F2.
      * exact F3.
      * exact F1.
      * rewrite H7. exact NX.
      * lia.
    + assert (LV : exists w2, leave w1 fw false = Some w2 /\ wT w2 = wT w1 /\ wskip w2 = wskip w1 /\ wacc w2 = wacc w1 /\ wtot w2 + wcur w2 = wtot w1 + wcur w1).
      { unfold leave. destruct (Nat.ltb 0 (wcur w1)); eexists; (split; [reflexivity|]); cbn; repeat split; lia. }
      destruct LV as (w2 & -> & E1 & E2 & E3 & E4). cbn [andb]. rewrite <- E2, <- E3.
      match goal with |- context [walk fuel _ _ _ _ _ _ ?wn _] => destruct (IH wn i' (at_end e') (next_rank fw r) e') as (w' & R1 & R2 & R3 & R4) end;
      [| | | | | | | |exists w'; split; [try rewrite DL in R1; exact R1|]; split; [exact R2|]; split; [exact R3|exact R4]];
      cbn [wT wc wsk wsi wup wcur wtot wnodes wskip wacc px]; try reflexivity.
      * unfold winv in *. rewrite DL in *. cbn [wT wc wsk wsi wup wcur wtot wnodes wskip wacc]. rewrite E1, E3, E4. exact G1.
      * exact F2.
      * exact F3.
      * exact F1.
      * rewrite E3. exact NX.
      * lia.
Qed.

End Walk.
