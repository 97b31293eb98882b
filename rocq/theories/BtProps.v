(* Property theorems about the B+tree (C11 - C19).
   s ranges over the states of the tree of nodes (BtModel.bt) that a history of commands leads to
   (reach); contents s lists the elements in the leaves from left to right. *)
From Verif Require Import Base UtilModel BtModel BtSpec BtOrder BtLevel BtFind BtSplit BtMerge BtMerge2 BtWalk BtGet BtGet2 BtOps BtKeys BtIns BtRefine BtRun BtRun2.
Local Open Scope nat_scope.

Lemma reach_sorted s : reach s -> sorted (contents s).
Proof. intros H. apply (i_sorted _ _ (reach_inv s H)). Qed.

Lemma pair_eq {A B} (a c : A) (b d : B) : (a, b) = (c, d) -> a = c /\ b = d.
Proof. intros [= -> ->]. split; reflexivity. Qed.

(* a command that cannot run out of memory or depth answers as specified *)
Lemma answered s o : reach s -> op_ok o -> ~ grows o -> ~ short_mem o ->
  exists s', step s o = Some (s', snd (s_step (view s) o)) /\ view s' = fst (s_step (view s) o).
Proof.
  intros HR HO HG HM. pose proof (step_refines s _ o (reach_inv s HR) HO) as SR. unfold step_post in SR. destruct (step s o) as [[s' x]|] eqn:ES.
  - exists s'. destruct (reach_step s o s' x HR HO ES) as (_ & [(_ & _ & C)|A]); [contradiction|]. rewrite A. split; reflexivity.
  - tauto.
Qed.

Lemma reach_next s o s' x : reach s -> op_ok o -> step s o = Some (s', x) -> reach s'.
Proof.
  intros (max & v & ops & outs & HO & HR) O1 HS. exists max, v, (ops ++ [o]), (outs ++ [x]). split; [apply Forall_app; auto|].
  clear HO O1. revert HR. generalize (init max v). revert outs. induction ops as [|p ops IH]; intros outs t HR; cbn [run app] in *.
  - injection HR as -> <-. rewrite HS. reflexivity.
  - destruct (step t p) as [[t1 y]|]; [|discriminate]. destruct (run t1 ops) as [[t2 ys]|] eqn:E; [|discriminate]. injection HR as -> <-.
    rewrite (IH ys t1 E). reflexivity.
Qed.

(* ===== C11 one total order ===== *)

Theorem C11_total_order : forall a b c : bkey,
  (bcomp a b = Eq <-> a = b) /\
  (bcomp a b = Lt <-> bcomp b a = Gt) /\
  (bcomp a b = Lt -> bcomp b c = Lt -> bcomp a c = Lt) /\
  bcomp a a = Eq.
Proof.
  intros a b c. split; [apply bcomp_eq|]. split; [rewrite bcomp_lt, bcomp_gt; reflexivity|].
  split; [rewrite !bcomp_lt; apply klt_trans|]. apply bcomp_eq. reflexivity.
Qed.
Print Assumptions C11_total_order.

(* byte strings: lexicographic, a proper prefix first (stated without recursion) *)
Theorem C11_lexicographic : forall a b : bytes,
  bcomp (Bin a) (Bin b) = Lt <->
  (exists t, t <> [] /\ b = a ++ t) \/
  (exists p x y s t, a = p ++ x :: s /\ b = p ++ y :: t /\ (x < y)%N).
Proof.
  intros a b. rewrite bcomp_lt. cbn [klt]. split.
  - revert b. induction a as [|x a IH]; intros [|y b] H; cbn [lex] in H; try discriminate.
    + left. exists (y :: b). split; [discriminate|reflexivity].
    + apply orb_true_iff in H. destruct H as [H|H].
      * right. exists [], x, y, a, b. cbn. apply N.ltb_lt in H. auto.
      * apply andb_true_iff in H. destruct H as (H1 & H2). apply N.eqb_eq in H1. subst y. destruct (IH b H2) as [(t & T1 & ->)|(p & u & v & s & t & -> & -> & L)].
        -- left. exists t. split; [exact T1|reflexivity].
        -- right. exists (x :: p), u, v, s, t. auto.
  - intros [(t & T & ->)|(p & x & y & s & t & -> & -> & L)].
    + induction a as [|x a IH]; cbn [app lex]; [destruct t; [congruence|reflexivity]|]. rewrite N.eqb_refl, IH. apply orb_true_r.
    + induction p as [|z p IH]; cbn [app lex].
      * apply N.ltb_lt in L. rewrite L. reflexivity.
      * rewrite N.eqb_refl, IH. apply orb_true_r.
Qed.
Print Assumptions C11_lexicographic.

Theorem C11_numbers : forall a b : N, bcomp (U64 a) (U64 b) = N.compare a b.
Proof. intros a b. cbn [bcomp]. apply u64_comp_spec. Qed.
Print Assumptions C11_numbers.

(* the other tests of the code, and the classification of ranges, agree with it *)
Theorem C11_tests_agree : forall a b : bkey,
  (b_islt a b = true <-> bcomp a b = Lt) /\ (b_isgt a b = true <-> bcomp a b = Gt) /\ (b_isne a b = true <-> bcomp a b <> Eq) /\
  (range_type (mkR a (Some b)) = SIN <-> a = b) /\ (range_type (mkR a (Some b)) = ASC <-> bcomp a b = Lt) /\ (range_type (mkR a (Some b)) = DSC <-> bcomp a b = Gt).
Proof.
  intros a b. rewrite b_islt_spec, b_isgt_spec, b_isne_spec. unfold range_type. cbn [r_to r_from].
  destruct (bcomp_cases a b) as [(E & H1 & H2 & H3)|[(E & H2 & H3)|(E & H2 & H3)]]; rewrite E; repeat split; try congruence.
  all: intros; subst; rewrite ?klt_irrefl, ?keq_refl in *; try discriminate; rewrite ?(klt_neq _ _ H2), ?(klt_neq' _ _ H2); reflexivity.
Qed.
Print Assumptions C11_tests_agree.

(* the comparisons used by the eflag filter *)
Theorem C11_binary_tests_agree : forall a b : bytes,
  (bin_islt a b = true <-> bin_comp a b = Lt) /\ (bin_isgt a b = true <-> bin_comp a b = Gt) /\
  (bin_isle a b = true <-> bin_comp a b <> Gt) /\ (bin_isge a b = true <-> bin_comp a b <> Lt) /\
  (bin_iseq a b = true <-> bin_comp a b = Eq) /\ (bin_isne a b = true <-> bin_comp a b <> Eq).
Proof.
  intros a b. rewrite bin_islt_spec, bin_isgt_spec, bin_isle_spec, bin_isge_spec, bin_iseq_spec, bin_isne_spec.
  pose proof (bin_comp_lt a b) as HL. pose proof (bin_comp_gt a b) as HG. pose proof (bin_comp_eq a b) as HE. pose proof (bytes_eqb_eq a b) as HB.
  destruct (bin_comp a b), (lex a b), (lex b a), (bytes_eqb a b); cbn; intuition congruence.
Qed.
Print Assumptions C11_binary_tests_agree.

Example C11_case : bcomp (Bin [1; 2]%N) (Bin [1; 2; 0]%N) = Lt /\ bcomp (Bin [1; 2; 9]%N) (Bin [1; 3]%N) = Lt /\ bcomp (U64 10) (U64 9) = Gt.
Proof. repeat split. Qed.

(* ===== C12 a sorted map ===== *)

(* The answers of a history are those of the sorted list, except that commands that find no memory
   change nothing. *)
Theorem C12_every_history : forall max o ops s outs, Forall op_ok ops -> run (init max o) ops = Some (s, outs) ->
  allowed (sp_init max o) ops outs (view s) /\ sorted (contents s).
Proof.
  intros max o ops s outs HO HR. pose proof (run_inv ops (init max o) [] (init_inv max o) HO) as H. rewrite HR in H. destruct H as (HI & HA).
  split; [exact HA|]. apply (i_sorted _ _ HI).
Qed.
Print Assumptions C12_every_history.

(* A history fails (assertion, bad pointer, endless loop) at most at an insertion into a tree that
   has the maximal depth.  Missing: that this depth is never reached. *)
Theorem C12_fails_only_at_full_depth_partial : forall max o ops, Forall op_ok ops -> run (init max o) ops = None ->
  exists ops1 x ops2 s outs, ops = ops1 ++ x :: ops2 /\ run (init max o) ops1 = Some (s, outs) /\ step s x = None /\
    length (b_T s) = 7 /\ grows x.
Proof.
  intros max o ops HO HR. pose proof (run_inv ops (init max o) [] (init_inv max o) HO) as H. rewrite HR in H.
  destruct H as (ops1 & x & ops2 & s & outs & E & R & _ & ST & D & G). exists ops1, x, ops2, s, outs. auto.
Qed.
Print Assumptions C12_fails_only_at_full_depth_partial.

(* reading one bkey *)
Theorem C12_get : forall s k del, reach s -> contents s <> [] -> s_bad_type (view s) k = false ->
  exists s' x, step s (Get (mkR k None) None 0 0 del) = Some (s', x) /\
    (forall e, (exists tr, x = OElems [e] tr) <-> In e (contents s) /\ bk e = k) /\
    ((exists e tr, x = OElems [e] tr) \/ x = ORc ENOENT \/ x = ORc EBKEYOOR) /\
    forall e, In e (contents s') <-> In e (contents s) /\ (del = false \/ bk e <> k).
Proof.
  intros s k del HR NE BT. pose proof (reach_sorted s HR) as HS.
  destruct (answered s (Get (mkR k None) None 0 0 del) HR I) as (s' & ST & V); [exact (fun H => H)|exact (fun H => H)|].
  assert (VC : contents s' = s_el (fst (s_step (view s) (Get (mkR k None) None 0 0 del)))) by (rewrite <- V; reflexivity).
  cbn [s_step] in ST, VC. change (s_el (view s)) with (contents s) in *. cbn [r_from] in *. rewrite BT in *.
  destruct (contents s) as [|e0 l0] eqn:EC; [congruence|]. rewrite <- EC in *. clear e0 l0 EC. 
  replace (Nat.leb (length (contents s)) 0) with false in * by (destruct (contents s); [congruence|reflexivity]).
  pose proof (select_single k None (contents s) HS) as SS. rewrite SS in *. cbn [matches] in *. destruct (lookup k (contents s)) as [v|] eqn:L; cbn [fst snd] in *.
  - pose proof (proj1 (lookup_In _ _ _ HS) L) as (L1 & L2). exists s', (OElems [v] (if del then false else trim_signal (view s) (mkR k None) None 0 0)). split; [exact ST|]. split; [|split].
    + intros e. split.
      * intros (tr & [= <- _]). auto.
      * intros (E1 & E2). assert (EV : lookup k (contents s) = Some e) by (apply (lookup_In _ _ _ HS); auto). assert (e = v) by congruence. subst e. eauto.
    + left. eauto.
    + intros e. rewrite VC. destruct del; cbn [with_el s_el].
      * change (s_el (view s)) with (contents s) in *. unfold without. rewrite filter_In. cbn [has_key existsb]. rewrite orb_false_r, negb_true_iff. rewrite L2.
        split; intros (A & B); (split; [exact A|]).
        -- right. intros C. subst k. rewrite C, keq_refl in B. discriminate.
        -- destruct B as [B|B]; [discriminate|]. destruct (keq (bk e) k) eqn:K; [|reflexivity]. apply keq_eq in K. contradiction.
      * change (s_el (view s)) with (contents s). tauto.
  - exists s', (ORc (if trim_signal (view s) (mkR k None) None 0 0 then EBKEYOOR else ENOENT)). split; [exact ST|].
    assert (NK : forall e, In e (contents s) -> bk e <> k).
    { intros e HE HK. assert (Q : lookup k (contents s) = Some e) by (apply (lookup_In _ _ _ HS); auto). congruence. }
    split; [|split].
    + intros e. split; [intros (tr & Q); discriminate|]. intros (A & B). exfalso. exact (NK e A B).
    + right. destruct (trim_signal _ _ _ _ _); auto.
    + intros e. rewrite VC. change (s_el (view s)) with (contents s). split; [|tauto]. intros A. split; [exact A|]. right. apply NK. exact A.
Qed.
Print Assumptions C12_get.

(* enough memory: the root, the element and one node per level *)
Definition with_mem (o : op) : Prop := ~ short_mem o.

(* insert / upsert of a bkey that is present *)
Theorem C12_insert_present : forall s e y rep s' x mem, reach s -> kok (bk e) -> 7 < mem ->
  In y (contents s) -> bk y = bk e -> step s (Insert e rep false true mem) = Some (s', x) ->
  x = (if rep then OReplaced else ORc EEXISTS) /\
  forall z, In z (contents s') <-> if rep then z = e \/ In z (contents s) /\ bk z <> bk e else In z (contents s).
Proof.
  intros s e y rep s' x mem HR KE HM HY EY ST. pose proof (reach_sorted s HR) as HS.
  destruct (reach_step s (Insert e rep false true mem) s' x HR KE ST) as (HI' & [(_ & _ & C)|A]).
  { exfalso. cbn in C. unfold MAX_DEPTH in C. intuition (try congruence; try lia). }
  cbn [s_step] in A. change (s_el (view s)) with (contents s) in A.
  assert (BT : s_bad_type (view s) (bk e) = false).
  { pose proof (proj1 (Forall_forall _ _) (i_keys _ _ (reach_inv s HR)) y HY) as (_ & T). unfold s_bad_type. cbn. rewrite T, EY. destruct (bk e); reflexivity. }
  rewrite BT, andb_false_r in A. assert (L : lookup (bk e) (contents s) = Some y) by (apply (lookup_In _ _ _ HS); auto). rewrite L in A.
  destruct rep; apply pair_eq in A; destruct A as (A1 & A2); (split; [symmetry; exact A2|]); intros z.
  - assert (VC : contents s' = put e (contents s)) by (change (contents s') with (s_el (view s')); rewrite <- A1; reflexivity).
    assert (HS' : sorted (contents s')) by (apply (i_sorted _ _ HI')).
    assert (Q : In z (contents s') <-> lookup (bk z) (contents s') = Some z) by (rewrite (lookup_In _ _ _ HS'); tauto).
    rewrite Q, VC, (lookup_put _ _ _ _ HS L). destruct (keq (bk z) (bk e)) eqn:K.
    + apply keq_eq in K. split; [intros [= <-]; auto|]. intros [->|(_ & C)]; [reflexivity|contradiction].
    + rewrite (lookup_In _ _ _ HS). split; [|intros [->|(B & _)]; [rewrite keq_refl in K; discriminate|auto]].
      intros (B & _). right. split; [exact B|]. intros C. rewrite C, keq_refl in K. discriminate.
  - change (contents s') with (s_el (view s')). rewrite <- A1. reflexivity.
Qed.
Print Assumptions C12_insert_present.

(* insert of a new bkey while there is room and no maxbkeyrange *)
Theorem C12_insert_new : forall s e rep s' x mem, reach s -> kok (bk e) -> 7 < mem -> b_range s = None ->
  length (contents s) < b_max s -> (forall y, In y (contents s) -> type_of (bk y) = type_of (bk e) /\ bk y <> bk e) ->
  step s (Insert e rep false true mem) = Some (s', x) ->
  x = OIns None /\ forall z, In z (contents s') <-> z = e \/ In z (contents s).
Proof.
  intros s e rep s' x mem HR KE HM RN ROOM ALL ST. pose proof (reach_sorted s HR) as HS.
  destruct (reach_step s (Insert e rep false true mem) s' x HR KE ST) as (HI' & [(_ & _ & C)|A]).
  { exfalso. cbn in C. unfold MAX_DEPTH in C. intuition (try congruence; try lia). }
  cbn [s_step] in A. change (s_el (view s)) with (contents s) in A.
  assert (BT : s_has_type (view s) && s_bad_type (view s) (bk e) = false).
  { unfold s_has_type, s_bad_type. cbn [view s_el s_range s_type]. rewrite RN. pose proof (i_keys _ _ (reach_inv s HR)) as KS.
    destruct (contents s) as [|y l]; [reflexivity|]. apply Forall_cons_iff in KS. destruct KS as ((_ & T) & _). rewrite T.
    destruct (ALL y (or_introl eq_refl)) as (Q & _). rewrite Q. cbn. destruct (bk e); reflexivity. }
  rewrite BT in A. assert (L : lookup (bk e) (contents s) = None).
  { destruct (lookup (bk e) (contents s)) as [y|] eqn:L; [|reflexivity]. apply (lookup_In _ _ _ HS) in L. destruct L as (L1 & L2). destruct (ALL y L1). contradiction. }
  rewrite L in A. unfold s_new, range_verdict in A. cbn [view s_el s_range s_max] in A. rewrite RN in A. apply Nat.ltb_lt in ROOM. rewrite ROOM in A.
  assert (G : x = OIns None /\ contents s' = ins e (contents s)).
  { change (contents s') with (s_el (view s')). destruct (contents s) as [|y l]; apply pair_eq in A; destruct A as (A1 & A2); split; try (symmetry; exact A2); rewrite <- A1; reflexivity. }
  destruct G as (-> & ->). split; [reflexivity|]. intros z. apply ins_In.
Qed.
Print Assumptions C12_insert_new.

(* update of one bkey: eflag and value as asked, everything else untouched *)
Theorem C12_update : forall s k u v held s' x, reach s -> step s (Update k u v held false true) = Some (s', x) ->
  (x = ORc SUCC /\ exists y f, In y (contents s) /\ bk y = k /\ s_eflag u (ef y) = Some f /\
     forall z, In z (contents s') <-> z = mkE k f (match v with Some w => w | None => va y end) \/ In z (contents s) /\ bk z <> k) \/
  (x <> ORc SUCC /\ contents s' = contents s /\
     ((forall y, In y (contents s) -> bk y <> k) \/ exists y, In y (contents s) /\ bk y = k /\ s_eflag u (ef y) = None)).
Proof.
  intros s k u v held s' x HR ST. pose proof (reach_sorted s HR) as HS.
  destruct (reach_step s (Update k u v held false true) s' x HR I ST) as (HI' & [(_ & _ & C)|A]).
  { exfalso. cbn in C. intuition congruence. }
  cbn [s_step] in A. change (s_el (view s)) with (contents s) in A. change (contents s') with (s_el (view s')).
  destruct (contents s) as [|e0 l0] eqn:EC.
  { right. apply pair_eq in A; destruct A as (<- & <-). split; [discriminate|]. split; [exact EC|]. left. intros y []. }
  rewrite <- EC in *. clear e0 l0 EC. destruct (s_bad_type (view s) k) eqn:BT.
  { right. apply pair_eq in A; destruct A as (<- & <-). split; [discriminate|]. split; [reflexivity|]. left. intros y HY C.
    pose proof (proj1 (Forall_forall _ _) (i_keys _ _ (reach_inv s HR)) y HY) as (_ & T). unfold s_bad_type in BT. cbn in BT. rewrite T, C in BT. destruct k; discriminate. }
  destruct (lookup k (contents s)) as [y|] eqn:L.
  - pose proof (proj1 (lookup_In _ _ _ HS) L) as (L1 & L2). destruct (s_eflag u (ef y)) as [f|] eqn:SE; apply pair_eq in A; destruct A as (A1 & A2).
    + left. split; [symmetry; exact A2|]. exists y, f. split; [exact L1|]. split; [exact L2|]. split; [exact SE|]. rewrite <- A1, L2. cbn [with_el s_el].
      set (e := mkE k f _). assert (L' : lookup (bk e) (contents s) = Some y) by exact L. intros z.
      assert (HS' : sorted (put e (contents s))).
      { pose proof (i_sorted _ _ HI') as Q. change (contents s') with (s_el (view s')) in Q. rewrite <- A1, L2 in Q. exact Q. }
      assert (Q : In z (put e (contents s)) <-> lookup (bk z) (put e (contents s)) = Some z) by (rewrite (lookup_In _ _ _ HS'); tauto).
      rewrite Q, (lookup_put _ _ _ _ HS L'). change (bk e) with k. destruct (keq (bk z) k) eqn:K.
      * apply keq_eq in K. split; [intros [= <-]; auto|]. intros [->|(_ & C)]; [reflexivity|contradiction].
      * rewrite (lookup_In _ _ _ HS). split; [|intros [->|(B & _)]; [change (bk e) with k in K; rewrite keq_refl in K; discriminate|auto]].
        intros (B & _). right. split; [exact B|]. intros C. rewrite C, keq_refl in K. discriminate.
    + right. rewrite <- A1, <- A2. split; [discriminate|]. split; [reflexivity|]. right. exists y. auto.
  - right. apply pair_eq in A; destruct A as (<- & <-). split; [discriminate|]. split; [reflexivity|]. left. intros y HY C.
    assert (Q : lookup k (contents s) = Some y) by (apply (lookup_In _ _ _ HS); auto). congruence.
Qed.
Print Assumptions C12_update.

(* ===== C13 balance and counts ===== *)

Theorem C13_balanced : forall s, reach s -> contents s <> [] ->
  let T := b_T s in
  (* one root, at most 7 levels; nodes hold 1 .. 32 items *)
  length (lev T (length T - 1)) = 1 /\ 1 <= length T <= 7 /\
  (forall d n, d < length T -> In n (lev T d) -> 1 <= length n <= 32) /\
  (* leaves hold elements; slot i of node k above holds the number of elements below its child *)
  (forall n i, In n (lev T 0) -> i < length n -> exists e, nth_error n i = Some (El (Some e))) /\
  (forall d k i, S d < length T -> i < length (nth k (lev T (S d)) []) ->
     nth_error (nth k (lev T (S d)) []) i = Some (Cnt (below_node T d (length (concat (firstn k (lev T (S d)))) + i)))) /\
  (* every node except the root is the child of exactly one slot *)
  (forall d, S d < length T -> length (concat (lev T (S d))) = length (lev T d)).
Proof.
  intros s HR NE T. pose proof (reach_inv s HR) as HI. destruct (i_tree _ _ HI) as [(_ & C)|HB]; [congruence|]. fold T in HB.
  pose proof (btree_tree _ _ HB) as HT. pose proof (btree_nonempty _ _ HB) as (_ & TN). pose proof (i_depth _ _ HI) as HD. fold T in HD.
  split; [exact (tree_top T _ HT)|]. split; [destruct T; [congruence|cbn in *; unfold MAX_DEPTH in HD; lia]|].
  destruct HB as (HW & HE). split; [|split; [|split]].
  - intros d n D HN. destruct T as [|L Us] eqn:ET; [congruence|]. destruct HW as (_ & N & C). rewrite <- ET in *.
    assert (IL : In (lev T d) T) by (apply nth_In; exact D). pose proof (proj1 (Forall_forall _ _) N _ IL) as N1. pose proof (proj1 (Forall_forall _ _) C _ IL) as C1.
    apply In_nth with (d := []) in HN. destruct HN as (k & K & <-). pose proof (N1 k K) as N2. unfold used, nd in N2. split; [lia|].
    unfold capped in C1. specialize (C1 k). unfold used, nd, ITEM_COUNT in C1. lia.
  - intros n i HN HI'. assert (A : In (nth i n (El None)) (concat (lev T 0))) by (apply in_concat; exists n; split; [exact HN|apply nth_In; exact HI']).
    rewrite HE in A. apply in_map_iff in A. destruct A as (e & A1 & _). exists e. rewrite (nth_error_nth' n (El None)) by exact HI'. rewrite <- A1. reflexivity.
  - intros d k i D HI'. destruct (tree_link T _ HT d D) as (LK & CN). change (length (concat (firstn k (lev T (S d)))) + i) with (flat (lev T (S d)) k i).
    rewrite (below_sum T _ HT d) by first [lia|apply (child_lt T _ HT); [exact D|exact HI']].
    rewrite <- sums_nth, <- LK, <- slot_wt_nth by exact HI'. unfold slot_wt. change (nth k (lev T (S d)) []) with (nd (lev T (S d)) k) in *.
    rewrite (nth_error_nth' (nd (lev T (S d)) k) (El None)) by exact HI'.
    assert (A : In (nth i (nd (lev T (S d)) k) (El None)) (concat (lev T (S d)))).
    { apply in_concat. exists (nd (lev T (S d)) k). split; [|apply nth_In; exact HI']. apply nth_In. destruct (Nat.ltb_spec k (length (lev T (S d)))) as [Q|Q]; [exact Q|].
      unfold nd in HI'. rewrite nth_overflow in HI' by exact Q. cbn in HI'. lia. }
    pose proof (proj1 (Forall_forall _ _) CN _ A) as CA. destruct (nth i (nd (lev T (S d)) k) (El None)); [contradiction|reflexivity].
  - intros d D. destruct (tree_link T _ HT d D) as (LK & _). apply (f_equal (@length _)) in LK. rewrite map_length, sums_length in LK. exact LK.
Qed.
Print Assumptions C13_balanced.

Theorem C13_count_attribute : forall s, reach s -> b_n s = length (contents s) /\ NoDup (map bk (contents s)) /\
  exists s' r, step s GetAttr = Some (s', OAttr (length (contents s)) (b_max s) (b_ovf s) (b_trim s) (b_range s) r).
Proof.
  intros s HR. pose proof (reach_inv s HR) as HI. split; [apply (i_n _ _ HI)|]. split; [apply sorted_nodup; apply reach_sorted; exact HR|].
  destruct (answered s GetAttr HR I) as (s' & ST & _); [exact (fun H => H)|exact (fun H => H)|]. exists s'. eexists. exact ST.
Qed.
Print Assumptions C13_count_attribute.

(* ===== C14 range queries ===== *)

(* H lists the elements selected by range and filter, in the direction of the range *)
Definition selects (r : range) (fl : option efilter) (l H : list elem) : Prop :=
  (forall e, In e H <-> In e l /\ kle (lo_of r) (bk e) = true /\ kle (bk e) (hi_of r) = true /\ matches fl e = true) /\
  sorted (if desc r then rev H else H).

Lemma hits_selects r fl l : sorted l -> selects r fl l (hits r fl l).
Proof.
  intros HS. unfold selects, hits. split.
  - intros e. assert (G : In e (filter (fun e => in_rg r e && matches fl e) l) <-> In e l /\ kle (lo_of r) (bk e) = true /\ kle (bk e) (hi_of r) = true /\ matches fl e = true).
    { rewrite filter_In. unfold in_rg, inside. rewrite !andb_true_iff. tauto. }
    destruct (desc r); [rewrite <- in_rev|]; exact G.
  - destruct (desc r); [rewrite rev_involutive|]; apply sorted_filter; exact HS.
Qed.

(* such a list is unique, so the theorems below fix the answers completely *)
Theorem C14_selects_unique : forall r fl l H1 H2, selects r fl l H1 -> selects r fl l H2 -> H1 = H2.
Proof.
  assert (U : forall a b, sorted a -> sorted b -> (forall e, In e a <-> In e b) -> a = b).
  { induction a as [|x a IH]; intros [|y b] SA SB Q; [reflexivity|exfalso; apply (proj2 (Q y)); left; reflexivity|exfalso; apply (proj1 (Q x)); left; reflexivity|].
    destruct SA as (A1 & A2), SB as (B1 & B2). assert (x = y).
    { destruct (proj1 (Q x) (or_introl eq_refl)) as [->|X]; [reflexivity|]. destruct (proj2 (Q y) (or_introl eq_refl)) as [->|Y]; [reflexivity|].
      pose proof (klt_trans _ _ _ (B1 x X) (A1 y Y)) as C. rewrite klt_irrefl in C. discriminate. }
    subst y. f_equal. apply IH; auto. intros e. split; intros HE.
    - destruct (proj1 (Q e) (or_intror HE)) as [->|X]; [|exact X]. specialize (A1 e HE). rewrite klt_irrefl in A1. discriminate.
    - destruct (proj2 (Q e) (or_intror HE)) as [->|X]; [|exact X]. specialize (B1 e HE). rewrite klt_irrefl in B1. discriminate. }
  intros r fl l H1 H2 (A1 & A2) (B1 & B2). destruct (desc r).
  - rewrite <- (rev_involutive H1), <- (rev_involutive H2). f_equal. apply U; auto. intros e. rewrite <- !in_rev, A1, B1. tauto.
  - apply U; auto. intros e. rewrite A1, B1. tauto.
Qed.
Print Assumptions C14_selects_unique.

Lemma without_In d l e : sorted l -> incl d l -> In e l -> (In e (without d l) <-> ~ In e d).
Proof.
  intros HS HD HE. unfold without. rewrite filter_In, negb_true_iff. split.
  - intros (_ & H) C. assert (K : has_key (bk e) d = true) by (apply has_key_In; exists e; auto). congruence.
  - intros H. split; [exact HE|]. destruct (has_key (bk e) d) eqn:K; [|reflexivity]. apply has_key_In in K. destruct K as (x & X1 & X2).
    exfalso. apply H. assert (x = e) by (apply (sorted_key l); auto). subst. exact X1.
Qed.

Theorem C14_get : forall s r fl ofs cnt del H, reach s -> ofilter_ok fl -> selects r fl (contents s) H ->
  let d := (if Nat.eqb cnt 0 then skipn ofs H else firstn cnt (skipn ofs H)) in
  exists s' x, step s (Get r fl ofs cnt del) = Some (s', x) /\
    (d <> [] /\ s_bad_type (view s) (r_from r) = false /\ (exists tr, x = OElems d tr) /\
       (forall e, In e (contents s') <-> In e (contents s) /\ (del = false \/ ~ In e d)) \/
     contents s' = contents s /\
       (d = [] /\ (x = ORc ENOENT \/ x = ORc EBKEYOOR) \/ x = ORc EBADBKEY /\ s_bad_type (view s) (r_from r) = true)).
Proof.
  intros s r fl ofs cnt del H HR HF HSel d. pose proof (reach_sorted s HR) as HS.
  assert (EH : H = hits r fl (contents s)) by (eapply C14_selects_unique; [exact HSel|apply hits_selects; exact HS]).
  assert (ED : d = select r fl ofs cnt (contents s)) by (unfold d, select, take; rewrite EH; destruct cnt; reflexivity). clearbody d. subst d.
  destruct (answered s (Get r fl ofs cnt del) HR HF) as (s' & ST & V); [exact (fun H => H)|exact (fun H => H)|].
  exists s', (snd (s_step (view s) (Get r fl ofs cnt del))). split; [exact ST|].
  assert (VC : contents s' = s_el (fst (s_step (view s) (Get r fl ofs cnt del)))) by (rewrite <- V; reflexivity). rewrite VC. clear VC ST V.
  cbn [s_step]. change (s_el (view s)) with (contents s). destruct (Nat.leb_spec (length (contents s)) ofs) as [LO|LO].
  { cbn [fst snd]. right. split; [reflexivity|]. left. split; [|auto]. unfold select. rewrite skipn_all2; [destruct cnt; reflexivity|].
    unfold hits. assert (Q := filter_le (fun e => in_rg r e && matches fl e) (contents s)). destruct (desc r); rewrite ?rev_length; lia. }
  destruct (s_bad_type (view s) (r_from r)) eqn:BT; [right; cbn; auto|].
  destruct (select_sub r fl ofs cnt (contents s) HS) as (_ & IN).
  destruct (select r fl ofs cnt (contents s)) as [|y l] eqn:ES; cbn [fst snd].
  - right. split; [reflexivity|]. left. split; [reflexivity|]. destruct (trim_signal _ _ _ _ _); auto.
  - left. split; [discriminate|]. split; [reflexivity|]. split; [eauto|]. intros e. destruct del; cbn [with_el s_el].
    + change (s_el (view s)) with (contents s). split.
      * intros Q. assert (HE : In e (contents s)) by (unfold without in Q; apply filter_In in Q; tauto). split; [exact HE|]. right. apply (without_In _ _ e HS IN HE). exact Q.
      * intros (HE & [C|C]); [discriminate|]. apply (without_In _ _ e HS IN HE). exact C.
    + change (s_el (view s)) with (contents s). tauto.
Qed.
Print Assumptions C14_get.

Theorem C14_delete : forall s r fl cnt H, reach s -> ofilter_ok fl -> selects r fl (contents s) H ->
  let d := (if Nat.eqb cnt 0 then H else firstn cnt H) in
  exists s' x, step s (Delete r fl cnt) = Some (s', x) /\
    (d <> [] /\ x = OCnt (length d) /\ (forall e, In e (contents s') <-> In e (contents s) /\ ~ In e d) \/
     contents s' = contents s /\ (d = [] /\ x = ORc ENOENT \/ x = ORc EBADBKEY /\ s_bad_type (view s) (r_from r) = true)).
Proof.
  intros s r fl cnt H HR HF HSel d. pose proof (reach_sorted s HR) as HS.
  assert (EH : H = hits r fl (contents s)) by (eapply C14_selects_unique; [exact HSel|apply hits_selects; exact HS]).
  assert (ED : d = select r fl 0 cnt (contents s)) by (unfold d, select, take; rewrite EH; destruct cnt; reflexivity). clearbody d. subst d.
  destruct (answered s (Delete r fl cnt) HR HF) as (s' & ST & V); [exact (fun H => H)|exact (fun H => H)|].
  exists s', (snd (s_step (view s) (Delete r fl cnt))). split; [exact ST|].
  assert (VC : contents s' = s_el (fst (s_step (view s) (Delete r fl cnt)))) by (rewrite <- V; reflexivity). rewrite VC. clear VC ST V.
  cbn [s_step]. change (s_el (view s)) with (contents s). destruct (contents s) as [|e0 l0] eqn:EC.
  { cbn [fst snd]. right. split; [exact EC|]. left. split; [|auto]. unfold select, hits. cbn. destruct (desc r), cnt; reflexivity. }
  rewrite <- EC in *. clear e0 l0 EC. destruct (s_bad_type (view s) (r_from r)) eqn:BT; [right; cbn; auto|].
  destruct (select_sub r fl 0 cnt (contents s) HS) as (_ & IN).
  destruct (select r fl 0 cnt (contents s)) as [|y l] eqn:ES; cbn [fst snd].
  - right. split; [reflexivity|]. left. auto.
  - left. split; [discriminate|]. split; [reflexivity|]. intros e. cbn [with_el s_el]. change (s_el (view s)) with (contents s). split.
    + intros Q. assert (HE : In e (contents s)) by (unfold without in Q; apply filter_In in Q; tauto). split; [exact HE|]. apply (without_In _ _ e HS IN HE). exact Q.
    + intros (HE & C). apply (without_In _ _ e HS IN HE). exact C.
Qed.
Print Assumptions C14_delete.

Theorem C14_count : forall s r fl H, reach s -> ofilter_ok fl -> selects r fl (contents s) H ->
  s_bad_type (view s) (r_from r) = false ->
  exists s', step s (Count r fl) = Some (s', OCnt (length H)) /\ contents s' = contents s.
Proof.
  intros s r fl H HR HF HSel BT. pose proof (reach_sorted s HR) as HS.
  assert (EH : H = hits r fl (contents s)) by (eapply C14_selects_unique; [exact HSel|apply hits_selects; exact HS]).
  destruct (answered s (Count r fl) HR HF) as (s' & ST & V); [exact (fun H => H)|exact (fun H => H)|].
  exists s'. assert (VC : contents s' = s_el (fst (s_step (view s) (Count r fl)))) by (rewrite <- V; reflexivity). rewrite VC, ST. clear VC ST V.
  cbn [s_step]. rewrite BT, EH. cbn [fst snd]. split; reflexivity.
Qed.
Print Assumptions C14_count.

(* ===== C15 positions ===== *)

Lemma nth_rev {A} (l : list A) p : p < length l -> nth_error (rev l) p = nth_error l (length l - p - 1).
Proof.
  intros H. destruct (nth_error l (length l - p - 1)) as [x|] eqn:E.
  - apply nth_error_rev in E. rewrite <- E. f_equal. lia.
  - apply nth_error_None in E. lia.
Qed.
Lemma nth_ordered asc l p : p < length l -> nth_error (ordered asc l) p = nth_error l (if asc then p else length l - p - 1).
Proof.
  intros H. destruct asc; cbn [ordered]; [reflexivity|]. apply nth_rev. exact H.
Qed.

Lemma ordered_length asc l : length (ordered asc l) = length l.
Proof. destruct asc; cbn; [reflexivity|apply rev_length]. Qed.

Theorem C15_position : forall s b asc s' x, reach s -> step s (Position b asc) = Some (s', x) ->
  contents s' = contents s /\
  ((exists p e, x = OCnt p /\ nth_error (ordered asc (contents s)) p = Some e /\ bk e = b) \/
   (x = ORc ENOENT \/ x = ORc EBADBKEY) /\ forall e, In e (contents s) -> bk e <> b).
Proof.
  intros s b asc s' x HR ST. pose proof (reach_sorted s HR) as HS.
  destruct (reach_step s (Position b asc) s' x HR I ST) as (_ & [(_ & _ & [])|A]). cbn [s_step] in A. change (s_el (view s)) with (contents s) in A.
  change (contents s') with (s_el (view s')). destruct (contents s) as [|e0 l0] eqn:EC.
  { apply pair_eq in A; destruct A as (<- & <-). split; [exact EC|]. right. split; [auto|intros e []]. }
  rewrite <- EC in *. clear e0 l0 EC. destruct (s_bad_type (view s) b) eqn:BT.
  { apply pair_eq in A; destruct A as (<- & <-). split; [reflexivity|]. right. split; [auto|]. intros y HY C.
    pose proof (proj1 (Forall_forall _ _) (i_keys _ _ (reach_inv s HR)) y HY) as (_ & T). unfold s_bad_type in BT. cbn in BT. rewrite T, C in BT. destruct b; discriminate. }
  destruct (lookup b (contents s)) as [y|] eqn:L; apply pair_eq in A; destruct A as (<- & <-); (split; [reflexivity|]).
  - left. pose proof (proj1 (lookup_In _ _ _ HS) L) as (L1 & L2). apply In_nth_error in L1. destruct L1 as (r & L1). pose proof (pos_of_rank _ _ _ HS L1) as PR. rewrite L2 in PR. rewrite PR.
    assert (RL : r < length (contents s)) by (apply nth_error_Some; congruence).
    exists (if asc then r else length (contents s) - r - 1), y. split; [reflexivity|]. split; [|exact L2].
    rewrite nth_ordered by (destruct asc; lia). destruct asc; [exact L1|]. replace (length (contents s) - (length (contents s) - r - 1) - 1) with r by lia. exact L1.
  - right. split; [auto|]. intros e HE C. assert (Q : lookup b (contents s) = Some e) by (apply (lookup_In _ _ _ HS); auto). congruence.
Qed.
Print Assumptions C15_position.

(* gbp from..to: element i of the answer has rank from+i (from-i when to < from); positions
   beyond the end are cut to the last element *)
Theorem C15_get_by_position : forall s asc from to, reach s -> from < length (contents s) \/ to < length (contents s) ->
  let a := Nat.min from (length (contents s) - 1) in let b := Nat.min to (length (contents s) - 1) in
  exists s' d, step s (GetByPos asc from to) = Some (s', OElems d false) /\ contents s' = contents s /\
    length d = (if Nat.leb a b then b - a else a - b) + 1 /\
    forall i, i < length d -> nth_error d i = nth_error (ordered asc (contents s)) (if Nat.leb a b then a + i else a - i).
Proof.
  intros s asc from to HR HB a b.
  destruct (answered s (GetByPos asc from to) HR I) as (s' & ST & V); [exact (fun H => H)|exact (fun H => H)|].
  assert (VC : contents s' = s_el (fst (s_step (view s) (GetByPos asc from to)))) by (rewrite <- V; reflexivity). clear V.
  cbn [s_step] in *. change (s_el (view s)) with (contents s) in *.
  assert (NB : Nat.leb (length (contents s)) from && Nat.leb (length (contents s)) to = false).
  { apply andb_false_iff. destruct HB; [left|right]; apply Nat.leb_gt; assumption. }
  rewrite NB in *. fold a b in ST. assert (LA : a < length (contents s) /\ b < length (contents s)) by (unfold a, b; lia).
  set (X := ordered asc (contents s)) in *. assert (LX : length X = length (contents s)) by apply ordered_length.
  cbn [snd] in ST. eexists s', _. split; [exact ST|]. split; [exact VC|]. clear ST VC NB.
  assert (SEG : forall u n i, u + n <= length X -> i < n -> nth_error (firstn n (skipn u X)) i = nth_error X (u + i)).
  { intros u n i _ HI. clear -HI. rewrite nth_error_firstn by exact HI. apply nth_error_skipn. }
  destruct (Nat.leb_spec a b) as [C|C].
  - split; [rewrite firstn_length, skipn_length; lia|]. intros i HI. rewrite firstn_length, skipn_length in HI. apply SEG; lia.
  - split; [rewrite rev_length, firstn_length, skipn_length; lia|]. intros i HI. pose proof HI as HI'. rewrite rev_length in HI'. rewrite nth_rev by exact HI'.
    rewrite firstn_length, skipn_length in HI' |- *. replace (Nat.min (a - b + 1) (length X - b)) with (a - b + 1) in * by lia. rewrite SEG by lia. f_equal. lia.
Qed.
Print Assumptions C15_get_by_position.

(* gbp of the position of a bkey returns the element with that bkey *)
Theorem C15_round_trip : forall s b asc s1 p, reach s -> step s (Position b asc) = Some (s1, OCnt p) ->
  exists s2 e, step s1 (GetByPos asc p p) = Some (s2, OElems [e] false) /\ In e (contents s) /\ bk e = b.
Proof.
  intros s b asc s1 p HR ST. destruct (C15_position s b asc s1 _ HR ST) as (E1 & [(q & e & [= <-] & N & K)|([C|C] & _)]); try discriminate.
  assert (PL : p < length (contents s)) by (rewrite <- (ordered_length asc); apply nth_error_Some; congruence).
  pose proof (reach_next _ _ _ _ HR (I : op_ok (Position b asc)) ST) as HR1.
  destruct (C15_get_by_position s1 asc p p HR1) as (s2 & d & ST2 & _ & L & NE); [rewrite E1; auto|]. rewrite E1, Nat.leb_refl, Nat.sub_diag in *.
  exists s2, e. rewrite ST2. destruct d as [|y [|z d]]; try discriminate. specialize (NE 0 (Nat.lt_0_succ 0)). cbn in NE.
  replace (Nat.min p (length (contents s) - 1) + 0) with p in NE by lia. assert (y = e) by congruence. subst y. split; [reflexivity|]. split; [|exact K].
  apply nth_error_In in N. destruct asc; [exact N|apply in_rev; exact N].
Qed.
Print Assumptions C15_round_trip.

(* pwg: the element at the position of the bkey with up to cnt neighbours on both sides *)
Theorem C15_position_with_get : forall s b asc cnt s' p d i, reach s -> step s (PosGet b asc cnt) = Some (s', OPosGet p d i) ->
  contents s' = contents s /\ (exists e, nth_error (ordered asc (contents s)) p = Some e /\ bk e = b /\ nth_error d i = Some e) /\
  i = Nat.min p cnt /\ length d = i + 1 + Nat.min cnt (length (contents s) - p - 1) /\
  forall j, j < length d -> nth_error d j = nth_error (ordered asc (contents s)) (p - i + j).
Proof.
  intros s b asc cnt s' p d i HR ST. pose proof (reach_sorted s HR) as HS.
  destruct (reach_step s (PosGet b asc cnt) s' _ HR I ST) as (_ & [(_ & _ & [])|A]). cbn [s_step] in A. change (s_el (view s)) with (contents s) in A.
  change (contents s') with (s_el (view s')). destruct (contents s) as [|e0 l0] eqn:EC; [discriminate|].
  rewrite <- EC in *. clear e0 l0 EC. destruct (s_bad_type (view s) b) eqn:BT; [discriminate|].
  destruct (lookup b (contents s)) as [y|] eqn:L; [|discriminate]. apply pair_eq in A. destruct A as (<- & A2). split; [reflexivity|].
  pose proof (proj1 (lookup_In _ _ _ HS) L) as (L1 & L2). apply In_nth_error in L1. destruct L1 as (r & L1). pose proof (pos_of_rank _ _ _ HS L1) as PR. rewrite L2 in PR. rewrite PR in A2.
  assert (RL : r < length (contents s)) by (apply nth_error_Some; congruence).
  set (X := ordered asc (contents s)) in *. assert (LX : length X = length (contents s)) by apply ordered_length.
  assert (EP : p = if asc then r else length (contents s) - r - 1) by congruence. rewrite <- EP in A2.
  assert (ED : d = firstn (Nat.min p cnt + 1 + cnt) (skipn (p - cnt) X)) by congruence. assert (EI : i = Nat.min p cnt) by congruence. clear A2.
  assert (PL : p < length X) by (rewrite EP, LX; destruct asc; lia).
  assert (NP : nth_error X p = Some y).
  { unfold X. rewrite nth_ordered by (rewrite <- LX; exact PL). rewrite EP. destruct asc; [exact L1|]. replace (length (contents s) - (length (contents s) - r - 1) - 1) with r by lia. exact L1. }
  assert (LD : length d = i + 1 + Nat.min cnt (length (contents s) - p - 1)) by (rewrite ED, firstn_length, skipn_length; lia).
  assert (ND : forall j, j < length d -> nth_error d j = nth_error X (p - i + j)).
  { intros j HJ. rewrite ED. rewrite nth_error_firstn by (rewrite ED, firstn_length in HJ; lia). rewrite nth_error_skipn. f_equal. lia. }
  split; [|split; [exact EI|split; [exact LD|exact ND]]]. exists y. split; [exact NP|]. split; [exact L2|]. rewrite ND by lia. rewrite <- NP. f_equal. lia.
Qed.
Print Assumptions C15_position_with_get.

(* ===== C16 eflags ===== *)

(* the filter: v0 is the first operand, all operands have its length; an eflag that is too short
   for the addressed bytes passes only NE *)
Theorem C16_filter : forall f e v0 vs, filter_ok f -> f_vals f = v0 :: vs ->
  let n := length v0 in
  let x := firstn n (skipn (f_ofs f) (ef e)) in
  let y := match f_bit f with Some (o, w) => map2 (bit_of o) x w | None => x end in
  elem_filter e f = true <->
  if Nat.ltb (f_ofs f) (length (ef e)) && Nat.leb (f_ofs f + n) (length (ef e)) then
    match f_op f with
    | OpEq => In y (f_vals f)
    | OpNe => ~ In y (f_vals f)
    | OpLt => bin_comp y v0 = Lt
    | OpLe => bin_comp y v0 <> Gt
    | OpGt => bin_comp y v0 = Gt
    | OpGe => bin_comp y v0 <> Lt
    end
  else f_op f = OpNe.
Proof.
  intros f e v0 vs HF EV n x y. rewrite (elem_filter_spec f e HF). unfold f_matches, slice, f_len. rewrite EV. fold n.
  destruct (_ && _) eqn:E; [|destruct (f_op f); split; congruence]. fold x. fold y.
  assert (EX : existsb (bytes_eqb y) (v0 :: vs) = true <-> In y (v0 :: vs)).
  { rewrite existsb_exists. split; [intros (z & Z1 & Z2); apply bytes_eqb_eq in Z2; subst; exact Z1|]. intros H. exists y. split; [exact H|]. apply bytes_eqb_eq. reflexivity. }
  pose proof (bin_comp_lt y v0) as HL. pose proof (bin_comp_gt y v0) as HG.
  destruct (f_op f); cbn [op_holds].
  - exact EX.
  - rewrite <- EX. destruct (existsb _ _); cbn; split; congruence.
  - tauto.
  - rewrite HG. destruct (lex v0 y); cbn; split; congruence.
  - tauto.
  - rewrite HL. destruct (lex y v0); cbn; split; congruence.
Qed.
Print Assumptions C16_filter.

(* the bytes combined by the operator, position by position *)
Theorem C16_bitwise : forall o a b i x y, nth_error a i = Some x -> nth_error b i = Some y ->
  nth_error (bitwise o a b) i = Some (match o with OpAnd => N.land x y | OpOr => N.lor x y | OpXor => N.lxor x y end).
Proof.
  intros o a. induction a as [|u a IH]; intros [|v b] [|i] x y HA HB; cbn in *; try discriminate.
  - injection HA as ->. injection HB as ->. destruct o; reflexivity.
  - apply (IH b i x y HA HB).
Qed.
Print Assumptions C16_bitwise.

(* bitwise eflag update: refused when the eflag does not reach far enough, otherwise exactly the
   addressed bytes change; the operation of a whole update command is in C12_update *)
Theorem C16_update : forall o ofs v f, v <> [] ->
  (bad_eupd (Some (EBit o ofs v)) f = true <-> length f <= ofs \/ length f < ofs + length v) /\
  (bad_eupd (Some (EBit o ofs v)) f = false ->
   length (apply_eupd (Some (EBit o ofs v)) f) = length f /\
   forall i x, nth_error f i = Some x ->
     nth_error (apply_eupd (Some (EBit o ofs v)) f) i =
     Some (if Nat.leb ofs i && Nat.ltb i (ofs + length v) then
             match o with OpAnd => N.land x (nth (i - ofs) v 0%N) | OpOr => N.lor x (nth (i - ofs) v 0%N) | OpXor => N.lxor x (nth (i - ofs) v 0%N) end
           else x)).
Proof.
  intros o ofs v f NV. pose proof (eupd_spec (Some (EBit o ofs v)) f) as ES. cbn [s_eflag] in ES. destruct v as [|v0 v']; [congruence|]. set (v := v0 :: v') in *. unfold slice in ES.
  destruct (Nat.ltb ofs (length f) && Nat.leb (ofs + length v) (length f)) eqn:C.
  2:{ destruct (bad_eupd _ f); [|discriminate]. split; [|discriminate]. split; [intros _|reflexivity].
      apply andb_false_iff in C. rewrite Nat.ltb_ge, Nat.leb_gt in C. exact C. }
  destruct (bad_eupd _ f) eqn:B; [discriminate|]. apply andb_true_iff in C. rewrite Nat.ltb_lt, Nat.leb_le in C. destruct C as (C1 & C2).
  split; [split; [discriminate|intros [Q|Q]; lia]|]. intros _.
  assert (ES' : apply_eupd (Some (EBit o ofs v)) f = firstn ofs f ++ map2 (bit_of o) (firstn (length v) (skipn ofs f)) v ++ skipn (ofs + length v) f) by congruence. rewrite ES'.
  set (x := firstn (length v) (skipn ofs f)). assert (LX : length x = length v) by (unfold x; rewrite firstn_length, skipn_length; lia).
  assert (LM : length (map2 (bit_of o) x v) = length v).
  { clearbody x v. clear -LX. revert v LX. induction x as [|a x IH]; intros [|b v] H; cbn in *; try lia. rewrite IH; lia. }
  split; [rewrite !app_length, firstn_length, skipn_length, LM; lia|].
  intros i b HB. assert (IL : i < length f) by (apply nth_error_Some; congruence).
  destruct (Nat.ltb_spec i ofs) as [D|D].
  { destruct (Nat.leb_spec ofs i); [lia|]. cbn [andb]. rewrite nth_error_app1 by (rewrite firstn_length; lia). rewrite nth_error_firstn by exact D. exact HB. }
  destruct (Nat.leb_spec ofs i); [|lia]. cbn [andb]. rewrite nth_error_app2 by (rewrite firstn_length; lia). rewrite firstn_length, (Nat.min_l ofs (length f)) by lia.
  destruct (Nat.ltb_spec i (ofs + length v)) as [G|G].
  - rewrite nth_error_app1 by (rewrite LM; lia). rewrite <- bitwise_map2.
    assert (XA : nth_error x (i - ofs) = Some b) by (unfold x; rewrite nth_error_firstn by lia; rewrite nth_error_skipn; rewrite <- HB; f_equal; lia).
    apply (C16_bitwise o x v (i - ofs) b _ XA). apply nth_error_nth'. lia.
  - rewrite nth_error_app2 by (rewrite LM; lia). rewrite LM, nth_error_skipn. rewrite <- HB. f_equal. lia.
Qed.
Print Assumptions C16_update.

Example C16_case :
  let f := mkF 1 (Some (OpAnd, [15; 255]%N)) OpEq [[5; 6]; [7; 8]]%N in
  filter_ok f /\ elem_filter (mkE (U64 1) [9; 247; 8]%N []) f = true /\ elem_filter (mkE (U64 1) [9; 247]%N []) f = false /\
  apply_eupd (Some (EBit OpXor 1 [255]%N)) [1; 2; 3]%N = [1; 253; 3]%N.
Proof.
  cbv zeta. split; [|repeat split]. split; [discriminate|]. split; [|auto].
  intros v [<-|[<-|[]]]; cbn; lia.
Qed.

(* ===== C17 maxcount ===== *)

Theorem C17_never_more_than_maxcount : forall max o ops s outs, 0 < max -> Forall op_ok ops -> Forall count_ok ops ->
  run (init max o) ops = Some (s, outs) -> length (contents s) <= b_max s /\ b_n s <= b_max s.
Proof.
  intros max o ops s outs HM HO HC HR.
  assert (B : bounded (view s)).
  { eapply (run_keeps bounded count_ok); [|apply (init_inv max o)| |exact HO|exact HC|exact HR].
    - intros a p b x PA SA _ _ QP _ ST. exact (s_step_bounded a p b x PA SA QP ST).
    - split; cbn; lia. }
  destruct B as (_ & B). split; [exact B|]. assert (HRe : reach s) by (exists max, o, ops, outs; auto). rewrite (i_n _ _ (reach_inv s HRe)). exact B.
Qed.
Print Assumptions C17_never_more_than_maxcount.

(* an insert of a new bkey into a full tree without maxbkeyrange *)
Theorem C17_full_insert : forall s e rep s' x mem, reach s -> kok (bk e) -> 7 < mem -> b_range s = None ->
  contents s <> [] -> length (contents s) = b_max s -> (forall y, In y (contents s) -> type_of (bk y) = type_of (bk e) /\ bk y <> bk e) ->
  step s (Insert e rep false true mem) = Some (s', x) ->
  match b_ovf s with
  | OvError => x = ORc EOVERFLOW /\ contents s' = contents s
  | OvSmallest | OvSmallestSilent =>
      exists mn, In mn (contents s) /\ (forall y, In y (contents s) -> kle (bk mn) (bk y) = true) /\
        if klt (bk e) (bk mn) then x = ORc EBKEYOOR /\ contents s' = contents s
        else x = OIns (Some mn) /\ forall z, In z (contents s') <-> z = e \/ In z (contents s) /\ z <> mn
  | OvLargest | OvLargestSilent =>
      exists mx, In mx (contents s) /\ (forall y, In y (contents s) -> kle (bk y) (bk mx) = true) /\
        if klt (bk mx) (bk e) then x = ORc EBKEYOOR /\ contents s' = contents s
        else x = OIns (Some mx) /\ forall z, In z (contents s') <-> z = e \/ In z (contents s) /\ z <> mx
  end.
Proof.
  intros s e rep s' x mem HR KE HM RN NE FULL ALL ST. pose proof (reach_sorted s HR) as HS.
  destruct (reach_step s (Insert e rep false true mem) s' x HR KE ST) as (HI' & [(_ & _ & C)|A]).
  { exfalso. cbn in C. unfold MAX_DEPTH in C. intuition (try congruence; try lia). }
  cbn [s_step] in A. change (s_el (view s)) with (contents s) in A.
  assert (BT : s_has_type (view s) && s_bad_type (view s) (bk e) = false).
  { unfold s_has_type, s_bad_type. cbn [view s_el s_range s_type]. rewrite RN. pose proof (i_keys _ _ (reach_inv s HR)) as KS.
    destruct (contents s) as [|y l]; [reflexivity|]. apply Forall_cons_iff in KS. destruct KS as ((_ & T) & _). rewrite T.
    destruct (ALL y (or_introl eq_refl)) as (Q & _). rewrite Q. cbn. destruct (bk e); reflexivity. }
  rewrite BT in A. assert (L : lookup (bk e) (contents s) = None).
  { destruct (lookup (bk e) (contents s)) as [y|] eqn:L; [|reflexivity]. apply (lookup_In _ _ _ HS) in L. destruct L as (L1 & L2). destruct (ALL y L1). contradiction. }
  rewrite L in A. unfold s_new, range_verdict in A. cbn [view s_el s_range s_max s_ovf] in A. rewrite RN, FULL, Nat.ltb_irrefl in A.
  destruct (contents s) as [|e0 l0] eqn:EC; [congruence|]. rewrite <- EC in *. clear e0 l0 EC.
  pose proof (ins_sorted e (contents s) HS (proj1 (lookup_none_key _ _) L)) as HSI.
  change (contents s') with (s_el (view s')).
  assert (FI : exists mn, s_first (contents s) = Some mn) by (unfold s_first; destruct (contents s); [congruence|cbn; eauto]).
  assert (LA : exists mx, s_last (contents s) = Some mx).
  { unfold s_last. destruct (rev (contents s)) as [|y l] eqn:R; [|cbn; eauto]. apply (f_equal (@rev _)) in R. rewrite rev_involutive in R. cbn in R. congruence. }
  destruct FI as (mn & FI). destruct LA as (mx & LA). rewrite FI, LA in A.
  assert (LOW : drops_low (b_ovf s) = true -> exists mn, In mn (contents s) /\ (forall y, In y (contents s) -> kle (bk mn) (bk y) = true) /\
        if klt (bk e) (bk mn) then x = ORc EBKEYOOR /\ s_el (view s') = contents s
        else x = OIns (Some mn) /\ forall z, In z (s_el (view s')) <-> z = e \/ In z (contents s) /\ z <> mn).
  { intros DL. rewrite DL in A. exists mn. split; [apply hd_in; exact FI|]. split; [intros y HY; exact (first_le _ _ _ HS FI HY)|].
    destruct (klt (bk e) (bk mn)) eqn:C; apply pair_eq in A; destruct A as (A1 & A2); (split; [symmetry; exact A2|]); rewrite <- A1.
    - destruct (signals _); reflexivity.
    - assert (Z : s_el (if signals (b_ovf s) then with_trim (with_el (view s) (tl (ins e (contents s)))) true else with_el (view s) (tl (ins e (contents s)))) = tl (ins e (contents s))) by (destruct (signals _); reflexivity).
      rewrite Z. intros z. pose proof (ins_first _ e mn FI) as IF. rewrite C in IF. unfold s_first in IF. pose proof (ins_In e (contents s) z) as II.
      destruct (ins e (contents s)) as [|w l]; [discriminate|]. cbn in IF. injection IF as ->. cbn [tl]. destruct HSI as (H1 & _).
      assert (NM : z = e -> z <> mn) by (intros -> Q; destruct (ALL mn (hd_in _ _ FI)); congruence).
      split.
      + intros HZ. pose proof (proj1 II (or_intror HZ)) as [Q|Q]; [left; exact Q|]. right. split; [exact Q|]. intros ->. specialize (H1 mn HZ). rewrite klt_irrefl in H1. discriminate.
      + intros Q. assert (NZ : z <> mn) by tauto. destruct (proj2 II) as [W|W]; [tauto|congruence|exact W]. }
  assert (HIGH : drops_low (b_ovf s) = false -> drops_high (b_ovf s) = true -> exists mx, In mx (contents s) /\ (forall y, In y (contents s) -> kle (bk y) (bk mx) = true) /\
        if klt (bk mx) (bk e) then x = ORc EBKEYOOR /\ s_el (view s') = contents s
        else x = OIns (Some mx) /\ forall z, In z (s_el (view s')) <-> z = e \/ In z (contents s) /\ z <> mx).
  { intros DL DH. rewrite DL, DH in A. exists mx. split; [apply last_in; exact LA|]. split; [intros y HY; exact (last_ge _ _ _ HS LA HY)|].
    destruct (klt (bk mx) (bk e)) eqn:C; apply pair_eq in A; destruct A as (A1 & A2); (split; [symmetry; exact A2|]); rewrite <- A1.
    - destruct (signals _); reflexivity.
    - assert (Z : s_el (if signals (b_ovf s) then with_trim (with_el (view s) (removelast (ins e (contents s)))) true else with_el (view s) (removelast (ins e (contents s)))) = removelast (ins e (contents s))) by (destruct (signals _); reflexivity).
      rewrite Z. intros z. pose proof (ins_In e (contents s) z) as II.
      destruct (ins_last _ e mx HS LA) as [IL|IL]; [|apply keq_eq in IL; destruct (ALL mx (last_in _ _ LA)); congruence].
      rewrite C in IL. unfold s_last in IL. assert (NI : ins e (contents s) <> []) by (intros Q; rewrite Q in IL; discriminate).
      destruct (exists_last NI) as (u & w & EQ). rewrite EQ in *. rewrite rev_app_distr in IL. cbn in IL. injection IL as ->. rewrite removelast_last.
      apply sorted_app_iff in HSI. destruct HSI as (_ & _ & H2).
      assert (NM : z = e -> z <> mx) by (intros -> Q; destruct (ALL mx (last_in _ _ LA)); congruence).
      rewrite in_app_iff in II. split.
      + intros HZ. pose proof (proj1 II (or_introl HZ)) as [Q|Q]; [left; exact Q|]. right. split; [exact Q|]. intros ->. specialize (H2 mx mx HZ (or_introl eq_refl)). rewrite klt_irrefl in H2. discriminate.
      + intros Q. assert (NZ : z <> mx) by tauto. destruct (proj2 II) as [W|[W|[]]]; [tauto|exact W|congruence]. }
  destruct (b_ovf s); cbn [drops_low drops_high signals] in *; auto.
  apply pair_eq in A. destruct A as (<- & <-). split; reflexivity.
Qed.
Print Assumptions C17_full_insert.

(* ===== C18 maxbkeyrange ===== *)

(* bkeys that are numbers, or byte strings all of one length n: with a maxbkeyrange r of the same
   kind no two bkeys are further apart than r (measure: the number, or the big-endian value of the
   bytes).  Missing: byte strings of different lengths, see C18_refuted. *)
Theorem C18_span_partial : forall n max o ops s outs r x y, Forall op_ok ops -> Forall (ulen_op n) ops ->
  run (init max o) ops = Some (s, outs) -> b_range s = Some r ->
  In x (contents s) -> In y (contents s) -> (measure r (bk x) - measure r (bk y) <= measure r r)%N.
Proof.
  intros n max o ops s outs r x y HO HU HR ER HX HY.
  assert (U : uni n (view s)).
  { eapply (run_keeps (uni n) (ulen_op n)); [|apply (init_inv max o)| |exact HO|exact HU|exact HR].
    - intros a p b z PA SA TA RA QP OP ST. eapply s_step_uni; eassumption.
    - split; [constructor|]. intros q Q. discriminate. }
  exact (proj2 (proj2 U r ER) x y HX HY).
Qed.
Print Assumptions C18_span_partial.

Definition key1 (l : bytes) : op := Insert (mkE (Bin l) [] [13; 10]%N) false false true 8.
Definition num1 (n : N) : op := Insert (mkE (U64 n) [] [13; 10]%N) false false true 8.

Example C18_case : let ops := [num1 100; SetAttr (ARange (Some (U64 50))); num1 140; num1 150; num1 170; num1 110] in
  Forall op_ok ops /\ Forall (ulen_op 0) ops /\
  option_map (fun r => (contents (fst r), snd r)) (run (init 10 OvSmallest) ops) =
    Some (map (fun k => mkE (U64 k) [] [13; 10]%N) [140; 150; 170]%N,
          [OIns None; ORc SUCC; OIns None; OIns None; OIns None; ORc EBKEYOOR]).
Proof. cbv zeta. split; [repeat constructor|]. split; [repeat constructor|]. vm_compute. reflexivity. Qed.

(* binary bkeys of different lengths: after the successful insert of 0x20 the bkeys 0x0FFF and 0x20
   are more than the maxbkeyrange 0x10 apart *)
Theorem C18_refuted : exists ops s outs x y, Forall op_ok ops /\ run (init 10 OvSmallest) ops = Some (s, outs) /\
  b_range s = Some (Bin [16]%N) /\ last outs (ORc ENOMEM) = OIns None /\ In x (contents s) /\ In y (contents s) /\
  (measure (Bin [16]%N) (bk x) - measure (Bin [16]%N) (bk y) > measure (Bin [16]%N) (Bin [16]%N))%N.
Proof.
  exists [key1 [15; 5]%N; key1 [15; 255]%N; SetAttr (ARange (Some (Bin [16]%N))); key1 [32]%N].
  eexists _, _, (mkE (Bin [32]%N) [] [13; 10]%N), (mkE (Bin [15; 255]%N) [] [13; 10]%N).
  split; [repeat constructor; cbn; lia|]. split; [vm_compute; reflexivity|]. split; [reflexivity|]. split; [reflexivity|].
  split; [vm_compute; tauto|]. split; [vm_compute; tauto|]. vm_compute. reflexivity.
Qed.
Print Assumptions C18_refuted.

(* ===== C19 the trimmed indication ===== *)

(* a history in which no insert (or creating increment) lost an element or was refused as out of range *)
Fixpoint lossless (s : bt) (ops : list op) : Prop :=
  match ops with
  | [] => True
  | o :: r => match step s o with
              | Some (s', x) => (grows o -> x <> ORc EBKEYOOR /\ incl (map bk (contents s)) (map bk (contents s'))) /\ lossless s' r
              | None => True
              end
  end.

Definition signalled (x : out) : Prop := (exists d, x = OElems d true) \/ x = ORc EBKEYOOR.

(* then the indication never appears *)
Theorem C19_no_trim_no_signal : forall max v ops s outs r fl ofs cnt del s' x, Forall op_ok ops -> ofilter_ok fl ->
  run (init max v) ops = Some (s, outs) -> lossless (init max v) ops ->
  step s (Get r fl ofs cnt del) = Some (s', x) -> ~ signalled x.
Proof.
  intros max v ops s outs r fl ofs cnt del s' x HO HF HR HL ST.
  assert (TF : b_trim s = false).
  { assert (G : forall ops t E s outs, inv t E -> b_trim t = false -> Forall op_ok ops -> run t ops = Some (s, outs) -> lossless t ops -> b_trim s = false).
    { clear. induction ops as [|o ops IH]; intros t E s outs HI TF HO HR HL; cbn [run lossless] in *; [congruence|].
      apply Forall_cons_iff in HO. destruct HO as (O1 & O2). pose proof (step_refines t E o HI O1) as SR. destruct (step t o) as [[t1 x]|]; [|discriminate].
      destruct SR as (E1 & I1 & ALT). destruct (run t1 ops) as [[t2 xs]|] eqn:ER; [|discriminate]. injection HR as <- _. destruct HL as (L1 & L2).
      eapply IH; [exact I1| |exact O2|exact ER|exact L2]. change (b_trim t1) with (s_trim (absE t1 E1)). destruct (s_trim (absE t1 E1)) eqn:TT; [|reflexivity]. exfalso.
      destruct ALT as [(_ & A2 & _)|A1]; [rewrite A2 in TT; cbn in TT; congruence|].
      destruct (s_step_flag (absE t E) o (absE t1 E1) x TF (i_sorted _ _ HI) A1 TT) as (GR & [Q|(y & Y1 & Y2)]); destruct (L1 GR) as (M1 & M2); [congruence|].
      rewrite (inv_contents t E HI), (inv_contents t1 E1 I1) in M2. cbn in Y1, Y2.
      pose proof (M2 (bk y) (in_map bk _ _ Y1)) as M3.
      (* an insert of a new element never replaces y *)
      clear -Y1 Y2 M3 A1 HI I1 GR TT TF.
      assert (K : has_key (bk y) E1 = true).
      { apply in_map_iff in M3. destruct M3 as (z & Z1 & Z2). apply has_key_In. exists z. auto. }
      destruct o; cbn in GR; try contradiction; cbn [s_step] in A1; change (s_el (absE t E)) with E in A1.
      - destruct (_ && _); [apply pair_eq in A1; destruct A1 as (A1 & _); apply (f_equal s_trim) in A1; cbn in A1, TT; congruence|].
        destruct (lookup (bk e) E) as [v|] eqn:L.
        { destruct rep; apply pair_eq in A1; destruct A1 as (A1 & _); apply (f_equal s_trim) in A1; cbn in A1, TT; congruence. }
        assert (SS : snd (s_new (absE t E) e) = absE t1 E1).
        { destruct (s_new (absE t E) e) as [q w]. destruct q; apply pair_eq in A1; destruct A1 as (A1 & _); exact A1. }
        assert (IN : forall z, In z E1 -> z = e \/ In z E).
        { intros z HZ. assert (HZ' : In z (s_el (snd (s_new (absE t E) e)))) by (rewrite SS; exact HZ). clear -HZ'. apply s_new_sub in HZ'. exact HZ'. }
        apply has_key_In in K. destruct K as (z & Z1 & Z2). destruct (IN z Z1) as [->|Z3].
        + assert (C : lookup (bk e) E = Some y) by (apply (lookup_In _ _ _ (i_sorted _ _ HI)); auto). congruence.
        + assert (z = y) by (apply (sorted_key E); auto; apply (i_sorted _ _ HI)). subst z. contradiction.
      - destruct (_ && _); [apply pair_eq in A1; destruct A1 as (A1 & _); apply (f_equal s_trim) in A1; cbn in A1, TT; congruence|].
        destruct (lookup b E) as [v|] eqn:L.
        { destruct (safe_strtoull _); [destruct (Nat.eqb _ _)|]; apply pair_eq in A1; destruct A1 as (A1 & _); apply (f_equal s_trim) in A1; cbn in A1, TT; congruence. }
        destruct create; [|apply pair_eq in A1; destruct A1 as (A1 & _); apply (f_equal s_trim) in A1; cbn in A1, TT; congruence].
        set (e := mkE b f (s_num initial)) in *.
        assert (SS : snd (s_new (absE t E) e) = absE t1 E1).
        { destruct (s_new (absE t E) e) as [q w]. destruct q; apply pair_eq in A1; destruct A1 as (A1 & _); exact A1. }
        assert (IN : forall z, In z E1 -> z = e \/ In z E).
        { intros z HZ. assert (HZ' : In z (s_el (snd (s_new (absE t E) e)))) by (rewrite SS; exact HZ). clear -HZ'. apply s_new_sub in HZ'. exact HZ'. }
        apply has_key_In in K. destruct K as (z & Z1 & Z2). destruct (IN z Z1) as [->|Z3].
        + assert (C : lookup b E = Some y) by (apply (lookup_In _ _ _ (i_sorted _ _ HI)); auto). congruence.
        + assert (z = y) by (apply (sorted_key E); auto; apply (i_sorted _ _ HI)). subst z. contradiction. }
    exact (G ops (init max v) [] s outs (init_inv max v) eq_refl HO HR HL). }
  assert (HRe : reach s) by (exists max, v, ops, outs; auto).
  destruct (reach_step s (Get r fl ofs cnt del) s' x HRe HF ST) as (_ & [(_ & _ & [])|A]). cbn [s_step] in A. change (s_el (view s)) with (contents s) in A.
  assert (TS : trim_signal (view s) r fl ofs cnt = false) by (unfold trim_signal; cbn [view s_trim]; rewrite TF; reflexivity). rewrite TS in A.
  intros [(d & C)|C]; subst x; destruct (Nat.leb _ _); try discriminate; destruct (s_bad_type _ _); try discriminate; destruct (select _ _ _ _ _); try discriminate.
  destruct del; discriminate.
Qed.
Print Assumptions C19_no_trim_no_signal.

(* Once an insert has reported a dropped element, and as long as the attributes are not changed, the
   flag stays; every query of a non-empty tree whose range begins beyond the dropped end, and that
   is answered ascending from there (or runs to the end of its range when descending), is marked. *)
Lemma raised_run v ops : forall s E s' outs, inv s E -> raised v (absE s E) -> Forall op_ok ops -> Forall no_attr ops -> run s ops = Some (s', outs) -> raised v (view s').
Proof.
  intros s E s' outs HI HRA HO HN HR. eapply (run_keeps (raised v) no_attr); [|exact HI|exact HRA|exact HO|exact HN|exact HR].
  intros a o b x PA _ _ _ QO _ ST. exact (s_step_raised v a o b x PA QO ST).
Qed.

Lemma run_app a b s : run s (a ++ b) = match run s a with Some (s1, xs) => match run s1 b with Some (s2, ys) => Some (s2, xs ++ ys) | None => None end | None => None end.
Proof.
  revert s. induction a as [|o a IH]; intros s; cbn [run app]; [destruct (run s b) as [[? ?]|]; reflexivity|].
  destruct (step s o) as [[s1 x]|]; [|reflexivity]. rewrite IH. destruct (run s1 a) as [[s2 xs]|]; [|reflexivity]. destruct (run s2 b) as [[s3 ys]|]; reflexivity.
Qed.

Lemma trim_raises v ops1 ops2 max e rep sticky mr mem y s outs1 outs2 : v = OvSmallest \/ v = OvLargest ->
  Forall op_ok (ops1 ++ Insert e rep sticky mr mem :: ops2) -> Forall no_attr (ops1 ++ ops2) ->
  run (init max v) (ops1 ++ Insert e rep sticky mr mem :: ops2) = Some (s, outs1 ++ OIns (Some y) :: outs2) -> length outs1 = length ops1 ->
  raised v (view s).
Proof.
  intros HV HO HN HR HL. rewrite run_app in HR. apply Forall_app in HO. destruct HO as (O1 & O2). apply Forall_cons_iff in O2. destruct O2 as (O2 & O3).
  apply Forall_app in HN. destruct HN as (N1 & N2).
  destruct (run (init max v) ops1) as [[s1 xs]|] eqn:R1; [|discriminate]. cbn [run] in HR. destruct (step s1 _) as [[s2 x]|] eqn:ST; [|discriminate].
  destruct (run s2 ops2) as [[s3 ys]|] eqn:R2; [|discriminate]. injection HR as HR1 HR2. subst s3.
  assert (LX : length xs = length outs1).
  { rewrite HL. clear -R1. revert R1. generalize (init max v). revert xs. induction ops1 as [|o ops IH]; intros xs t R1; cbn [run] in R1; [injection R1 as _ <-; reflexivity|].
    destruct (step t o) as [[t1 z]|]; [|discriminate]. destruct (run t1 ops) as [[t2 zs]|] eqn:E; [|discriminate]. injection R1 as -> <-. cbn. rewrite (IH zs t1 E). reflexivity. }
  assert (XE : x = OIns (Some y)).
  { clear -HR2 LX. revert outs1 HR2 LX. induction xs as [|a xs IH]; intros [|b outs1] H L; cbn in *; try lia; [congruence|]. injection H as _ H. eapply IH; [exact H|lia]. }
  subst x. assert (HR1' : reach s1) by (exists max, v, ops1, xs; auto).
  assert (K : forall a o b z, s_ovf a = v /\ s_range a = None -> sorted (s_el a) -> Forall (fun e => typed (s_type a) (bk e)) (s_el a) -> (forall r, s_range a = Some r -> typed (s_type a) r) ->
     no_attr o -> op_ok o -> s_step a o = (b, z) -> s_ovf b = v /\ s_range b = None).
  { intros a o b z (P1 & P2) _ _ _ NA _ H. eapply s_step_attrs in H; [|exact NA|exact P2]. destruct H as (-> & ->). auto. }
  pose proof (run_keeps _ _ K ops1 (init max v) s1 xs [] (init_inv max v) (conj eq_refl eq_refl) O1 N1 R1) as (V1 & V2).
  destruct (reach_step s1 (Insert e rep sticky mr mem) s2 (OIns (Some y)) HR1' O2 ST) as (I2 & [(C & _)|A]); [discriminate|].
  assert (RA : raised v (view s2)).
  { cbn [s_step] in A. destruct (_ && _); [discriminate|]. destruct (lookup _ _); [destruct rep; discriminate|].
    pose proof (s_new_raises v (view s1) e y V1 V2 HV) as SR. destruct (s_new (view s1) e) as [q w]. destruct q; try discriminate. apply pair_eq in A. destruct A as (A1 & A2). injection A2 as ->.
    rewrite <- A1. apply SR. reflexivity. }
  rewrite <- (inv_view _ _ I2) in RA. exact (raised_run v ops2 s2 _ s ys I2 RA O3 N2 R2).
Qed.

Theorem C19_smallest_trim_signalled : forall max ops1 ops2 e rep sticky mr mem y s outs1 outs2 r fl ofs cnt,
  Forall op_ok (ops1 ++ Insert e rep sticky mr mem :: ops2) -> Forall no_attr (ops1 ++ ops2) -> length outs1 = length ops1 ->
  run (init max OvSmallest) (ops1 ++ Insert e rep sticky mr mem :: ops2) = Some (s, outs1 ++ OIns (Some y) :: outs2) ->
  ofilter_ok fl -> ofs < length (contents s) -> s_bad_type (view s) (r_from r) = false ->
  (forall x, In x (contents s) -> klt (lo_of r) (bk x) = true) ->
  (desc r = false \/ cnt = 0) ->
  exists s' x, step s (Get r fl ofs cnt false) = Some (s', x) /\ signalled x.
Proof.
  intros max ops1 ops2 e rep sticky mr mem y s outs1 outs2 r fl ofs cnt HO HN HL HR HF OF BT LOW DIR.
  destruct (trim_raises OvSmallest _ _ _ _ _ _ _ _ _ _ _ _ (or_introl eq_refl) HO HN HR HL) as (T1 & T2 & T3).
  assert (HRe : reach s) by (eexists _, _, _, _; eauto).
  destruct (answered s (Get r fl ofs cnt false) HRe HF) as (s' & ST & _); [exact (fun H => H)|exact (fun H => H)|].
  eexists s', _. split; [exact ST|]. cbn [s_step]. change (s_el (view s)) with (contents s). apply Nat.leb_gt in OF. rewrite OF, BT.
  assert (TS : trim_signal (view s) r fl ofs cnt = true).
  { unfold trim_signal. rewrite T1, T2. cbn [andb]. change (s_el (view s)) with (contents s).
    assert (LO : low_out r (contents s) = true).
    { unfold low_out, s_first. destruct (contents s) as [|z l]; [cbn in OF; discriminate|]. cbn. apply LOW. left. reflexivity. }
    rewrite LO. destruct DIR as [->| ->]; [reflexivity|]. destruct (desc r); reflexivity. }
  rewrite TS. destruct (select _ _ _ _ _); cbn [snd]; [right; reflexivity|left; eauto].
Qed.
Print Assumptions C19_smallest_trim_signalled.

Theorem C19_largest_trim_signalled : forall max ops1 ops2 e rep sticky mr mem y s outs1 outs2 r fl ofs cnt,
  Forall op_ok (ops1 ++ Insert e rep sticky mr mem :: ops2) -> Forall no_attr (ops1 ++ ops2) -> length outs1 = length ops1 ->
  run (init max OvLargest) (ops1 ++ Insert e rep sticky mr mem :: ops2) = Some (s, outs1 ++ OIns (Some y) :: outs2) ->
  ofilter_ok fl -> ofs < length (contents s) -> s_bad_type (view s) (r_from r) = false ->
  (forall x, In x (contents s) -> klt (bk x) (hi_of r) = true) ->
  (desc r = true \/ single r = true \/ cnt = 0) ->
  exists s' x, step s (Get r fl ofs cnt false) = Some (s', x) /\ signalled x.
Proof.
  intros max ops1 ops2 e rep sticky mr mem y s outs1 outs2 r fl ofs cnt HO HN HL HR HF OF BT LOW DIR.
  destruct (trim_raises OvLargest _ _ _ _ _ _ _ _ _ _ _ _ (or_intror eq_refl) HO HN HR HL) as (T1 & T2 & T3).
  assert (HRe : reach s) by (eexists _, _, _, _; eauto).
  destruct (answered s (Get r fl ofs cnt false) HRe HF) as (s' & ST & _); [exact (fun H => H)|exact (fun H => H)|].
  eexists s', _. split; [exact ST|]. cbn [s_step]. change (s_el (view s)) with (contents s). apply Nat.leb_gt in OF. rewrite OF, BT.
  assert (TS : trim_signal (view s) r fl ofs cnt = true).
  { unfold trim_signal. rewrite T1, T2. cbn [andb]. change (s_el (view s)) with (contents s).
    assert (LO : high_out r (contents s) = true).
    { unfold high_out. destruct (s_last (contents s)) as [z|] eqn:EL.
      - apply LOW. apply last_in. exact EL.
      - unfold s_last in EL. destruct (rev (contents s)) as [|w l] eqn:R; [|discriminate]. apply (f_equal (@rev _)) in R. rewrite rev_involutive in R. cbn in R. rewrite R in OF. discriminate. }
    rewrite LO. destruct DIR as [->|[->| ->]]; [reflexivity|rewrite orb_true_r; reflexivity|]. destruct (desc r || single r); reflexivity. }
  rewrite TS. destruct (select _ _ _ _ _); cbn [snd]; [right; reflexivity|left; eauto].
Qed.
Print Assumptions C19_largest_trim_signalled.

Example C19_case : let ops1 := [num1 1; num1 2; num1 3] in let ops2 := [num1 5; Delete (mkR (U64 5) None) None 0] in
  option_map snd (run (init 3 OvSmallest) (ops1 ++ num1 4 :: ops2 ++ [Get (mkR (U64 0) (Some (U64 3))) None 0 0 false; Get (mkR (U64 0) (Some (U64 1))) None 0 0 false; Get (mkR (U64 3) (Some (U64 9))) None 0 0 false])) =
  Some [OIns None; OIns None; OIns None; OIns (Some (mkE (U64 1) [] [13; 10]%N)); OIns (Some (mkE (U64 2) [] [13; 10]%N)); OCnt 1;
        OElems [mkE (U64 3) [] [13; 10]%N] true; ORc EBKEYOOR; OElems (map (fun k => mkE (U64 k) [] [13; 10]%N) [3; 4]%N) false].
Proof. vm_compute. reflexivity. Qed.

(* Not every drop is signalled: elements dropped because of maxbkeyrange leave no trace, and clear
   the mark of earlier drops. *)
Theorem C19_range_trim_refuted : exists ops s outs, Forall op_ok ops /\ run (init 3 OvSmallest) ops = Some (s, outs) /\
  In (OIns (Some (mkE (U64 1) [] [13; 10]%N))) outs /\
  (exists s', step s (Get (mkR (U64 0) (Some (U64 200))) None 0 0 false) = Some (s', OElems (contents s) false)).
Proof.
  exists [num1 1; num1 2; num1 3; num1 4; SetAttr (ARange (Some (U64 50))); num1 100]. eexists _, _.
  split; [repeat constructor|]. split; [vm_compute; reflexivity|]. split; [cbn; tauto|]. eexists. vm_compute. reflexivity.
Qed.
Print Assumptions C19_range_trim_refuted.

(* And a query that only touches the outermost element may be marked although its range does not
   reach beyond it. *)
Theorem C19_spurious_refuted : exists ops s outs, Forall op_ok ops /\ run (init 3 OvSmallest) ops = Some (s, outs) /\
  contents s = map (fun k => mkE (U64 k) [] [13; 10]%N) [20; 30; 40]%N /\
  (exists s', step s (Get (mkR (U64 25) (Some (U64 20))) None 0 0 false) = Some (s', OElems [mkE (U64 20) [] [13; 10]%N] true)).
Proof.
  exists [num1 10; num1 20; num1 30; num1 40]. eexists _, _.
  split; [repeat constructor|]. split; [vm_compute; reflexivity|]. split; [reflexivity|]. eexists. vm_compute. reflexivity.
Qed.
Print Assumptions C19_spurious_refuted.

(* ===== a larger history: splits, merges, three levels ===== *)

Definition key_no (i : nat) : N := N.of_nat (7 * i mod 1201).
Definition grow : list op := map (fun i => num1 (key_no i)) (seq 0 1200).
Definition shrink : list op := map (fun i => Delete (mkR (U64 (N.of_nat (40 * i))) (Some (U64 (N.of_nat (40 * i + 35))))) None 0) (seq 0 29).

Example C12_case :
  match run (init 4000 OvError) (grow ++ shrink) with
  | Some (s, outs) => length (b_T s) = 2 /\ length (contents s) = 156 /\ length outs = 1229
  | None => False
  end /\
  match run (init 4000 OvError) grow with
  | Some (s, outs) => length (b_T s) = 3 /\ length (contents s) = 1200
  | None => False
  end.
Proof. vm_compute. repeat split. Qed.

Example C12_case_ok : Forall op_ok (grow ++ shrink).
Proof.
  apply Forall_app. split; apply Forall_forall; intros o HO; apply in_map_iff in HO; destruct HO as (i & <- & _); exact I.
Qed.

Example C14_case : match run (init 4000 OvError) (grow ++ shrink) with
  | Some (s, _) => option_map snd (step s (Get (mkR (U64 200) (Some (U64 30))) None 2 4 false)) =
                   Some (OElems (map (fun k => mkE (U64 k) [] [13; 10]%N) [197; 196; 159; 158]%N) false)
  | None => False
  end.
Proof. vm_compute. reflexivity. Qed.
