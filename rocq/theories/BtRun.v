(* Histories of commands on one B+tree *)
From Verif Require Import Base UtilModel BtModel BtSpec BtOrder BtLevel BtFind BtSplit BtMerge BtMerge2 BtWalk BtGet BtGet2 BtOps BtKeys BtIns BtRefine.
Local Open Scope nat_scope.

(* the elements in the leaves, from left to right *)
Definition contents (s : bt) : list elem :=
  flat_map (fun x => match x with El (Some e) => [e] | _ => [] end) (concat (hd [] (b_T s))).
Definition view (s : bt) : sp := mkSp (contents s) (b_max s) (b_ovf s) (b_trim s) (b_type s) (b_range s).

Lemma inv_contents s E : inv s E -> contents s = E.
Proof.
  intros HI. unfold contents. destruct (inv_cases s E HI) as [(A1 & A2 & _)|(A1 & _ & A3 & _)].
  - rewrite A1. subst E. reflexivity.
  - destruct (b_T s) as [|L Us]; [congruence|]. destruct A1 as (_ & HC). change (lev (L :: Us) 0) with L in HC. cbn [hd]. rewrite HC.
    clear. induction E as [|x E IH]; [reflexivity|]. cbn [map flat_map app full]. f_equal. exact IH.
Qed.

Lemma inv_view s E : inv s E -> absE s E = view s.
Proof. intros H. unfold absE, view. rewrite (inv_contents s E H). reflexivity. Qed.

(* what a history may look like: every answer as the specification says, except that a command that
   finds no memory may answer ENOMEM and change nothing *)
Inductive allowed : sp -> list op -> list out -> sp -> Prop :=
| al_nil a : allowed a [] [] a
| al_step a o b x os xs c : s_step a o = (b, x) -> allowed b os xs c -> allowed a (o :: os) (x :: xs) c
| al_nomem a o os xs c : short_mem o -> allowed a os xs c -> allowed a (o :: os) (ORc ENOMEM :: xs) c.

Lemma run_inv ops : forall s E, inv s E -> Forall op_ok ops ->
  match run s ops with
  | Some (s', outs) => inv s' (contents s') /\ allowed (absE s E) ops outs (view s')
  | None => exists ops1 o ops2 s1 outs, ops = ops1 ++ o :: ops2 /\ run s ops1 = Some (s1, outs) /\ inv s1 (contents s1) /\
              step s1 o = None /\ length (b_T s1) = MAX_DEPTH /\ grows o
  end.
Proof.
  induction ops as [|o ops IH]; intros s E HI HO; cbn [run].
  { rewrite (inv_contents s E HI). split; [exact HI|]. rewrite (inv_view s E HI). constructor. }
  apply Forall_cons_iff in HO. destruct HO as (HO & HOs). pose proof (step_refines s E o HI HO) as SR. unfold step_post in SR.
  destruct (step s o) as [[s1 x]|] eqn:ES.
  2:{ exists [], o, ops, s, []. rewrite (inv_contents s E HI). cbn. tauto. }
  destruct SR as (E1 & I1 & ALT). specialize (IH s1 E1 I1 HOs). destruct (run s1 ops) as [[s2 xs]|] eqn:ER.
  - destruct IH as (J1 & J2). split; [exact J1|]. destruct ALT as [(-> & A2 & A3)|A1].
    + apply al_nomem; [exact A3|]. rewrite <- A2. exact J2.
    + eapply al_step; [exact A1|exact J2].
  - destruct IH as (ops1 & o2 & ops2 & s3 & outs & -> & R & J). exists (o :: ops1), o2, ops2, s3, (x :: outs). split; [reflexivity|]. split; [|exact J].
    cbn [run]. rewrite ES, R. reflexivity.
Qed.

(* states a history leads to *)
Definition reach (s : bt) : Prop := exists max o ops outs, Forall op_ok ops /\ run (init max o) ops = Some (s, outs).

Lemma reach_inv s : reach s -> inv s (contents s).
Proof.
  intros (max & o & ops & outs & HO & HR). pose proof (run_inv ops (init max o) [] (init_inv max o) HO) as H. rewrite HR in H. tauto.
Qed.

Lemma reach_step s o s' x : reach s -> op_ok o -> step s o = Some (s', x) ->
  inv s' (contents s') /\ (x = ORc ENOMEM /\ view s' = view s /\ short_mem o \/ s_step (view s) o = (view s', x)).
Proof.
  intros HR HO HS. pose proof (reach_inv s HR) as HI. pose proof (step_refines s _ o HI HO) as SR. rewrite HS in SR. destruct SR as (E' & I' & ALT).
  rewrite (inv_contents s' E' I') in *. split; [exact I'|]. rewrite <- !(inv_view _ _ HI), <- (inv_view _ _ I'). exact ALT.
Qed.

(* ---------- the counts of the tree, declaratively ---------- *)

(* the number of elements below node k of level d (level 0: the leaves); the children of node k are
   the nodes that follow those of the nodes before it *)
Fixpoint below_node (T : list level) (d k : nat) : nat :=
  match d with
  | O => length (nth k (nth 0 T []) [])
  | S d' => list_sum (map (fun i => below_node T d' (length (concat (firstn k (nth d T []))) + i)) (seq 0 (length (nth k (nth d T []) []))))
  end.

Lemma map_nth_seq (l : list nat) (f : nat -> nat) : (forall i, i < length l -> nth i l 0 = f i) -> l = map f (seq 0 (length l)).
Proof.
  intros H. apply (nth_ext _ _ 0 0); [rewrite map_length, seq_length; reflexivity|]. intros n HN. rewrite H by exact HN.
  rewrite (nth_indep _ 0 (f 0)) by (rewrite map_length, seq_length; exact HN). rewrite map_nth, seq_nth by exact HN. reflexivity.
Qed.

Lemma below_sum T E : tree T E -> forall d, d < length T -> forall k, k < length (lev T d) -> below_node T d k = sum_wt (nd (lev T d) k).
Proof.
  intros HT. induction d as [|d IH]; intros D k K.
  - rewrite (leaf_sum T E HT). reflexivity.
  - cbn [below_node]. change (nth (S d) T []) with (lev T (S d)). change (nth k (lev T (S d)) []) with (nd (lev T (S d)) k).
    set (n := nd (lev T (S d)) k). rewrite sum_wt_list. f_equal.
    transitivity (map (fun i => sum_wt (nd (lev T d) (flat (lev T (S d)) k i))) (seq 0 (length n))).
    + apply map_ext_in. intros i HI. apply in_seq in HI. change (length (concat (firstn k (lev T (S d)))) + i) with (flat (lev T (S d)) k i).
      apply IH; [lia|]. apply (child_lt T E HT); [exact D|]. unfold used. fold n. lia.
    + symmetry. rewrite <- (map_length wt n). apply map_nth_seq. intros i HI. rewrite map_length in HI.
      destruct (tree_link T E HT d D) as (LK & _). rewrite <- sums_nth, <- LK. rewrite <- slot_wt_nth by exact HI. unfold slot_wt. fold n.
      rewrite (nth_error_nth' n (El None)) by exact HI. rewrite (nth_indep _ 0 (wt (El None))) by (rewrite map_length; exact HI). rewrite map_nth. reflexivity.
Qed.

(* ---------- map laws on lists ---------- *)

Lemma lookup_In E k x : sorted E -> (lookup k E = Some x <-> In x E /\ bk x = k).
Proof.
  intros HS. split.
  - unfold lookup. intros H. apply find_some in H. destruct H as (H1 & H2). apply keq_eq in H2. auto.
  - intros (H1 & <-). apply In_nth_error in H1. destruct H1 as (r & H1). eapply lookup_at; eassumption.
Qed.

Lemma lookup_ext E E' k : sorted E -> sorted E' -> (forall x, bk x = k -> (In x E <-> In x E')) -> lookup k E = lookup k E'.
Proof.
  intros HS HS' H. destruct (lookup k E) as [x|] eqn:L.
  - apply (lookup_In E k x HS) in L. destruct L as (L1 & L2). symmetry. apply lookup_In; [exact HS'|]. split; [apply H; assumption|exact L2].
  - destruct (lookup k E') as [x|] eqn:L'; [|reflexivity]. apply (lookup_In E' k x HS') in L'. destruct L' as (L1 & L2).
    assert (Z : lookup k E = Some x) by (apply lookup_In; [exact HS|]; split; [apply H; assumption|exact L2]). congruence.
Qed.

Lemma lookup_none_key E k : lookup k E = None <-> has_key k E = false.
Proof.
  unfold lookup, has_key. induction E as [|x E IH]; cbn; [tauto|]. destruct (keq k (bk x)); cbn; [split; discriminate|exact IH].
Qed.

Lemma lookup_ins E e k : sorted E -> lookup (bk e) E = None -> lookup k (ins e E) = if keq k (bk e) then Some e else lookup k E.
Proof.
  intros HS HN. pose proof (ins_sorted e E HS (proj1 (lookup_none_key _ _) HN)) as HS'. destruct (keq k (bk e)) eqn:K.
  - apply keq_eq in K. subst k. apply lookup_In; [exact HS'|]. split; [apply ins_In; auto|reflexivity].
  - apply lookup_ext; auto. intros x <-. rewrite ins_In. split; [|auto]. intros [->|H]; [rewrite keq_refl in K; discriminate|exact H].
Qed.

Lemma lookup_put E e k x : sorted E -> lookup (bk e) E = Some x -> lookup k (put e E) = if keq k (bk e) then Some e else lookup k E.
Proof.
  intros HS HL. pose proof (sorted_keys E (put e E) (eq_sym (put_keys e E)) HS) as HS'. apply (lookup_In _ _ _ HS) in HL. destruct HL as (L1 & L2).
  destruct (keq k (bk e)) eqn:K.
  - apply keq_eq in K. subst k. apply lookup_In; [exact HS'|]. split; [|reflexivity]. unfold put. apply in_map_iff. exists x. rewrite L2, keq_refl. auto.
  - apply lookup_ext; auto. intros y <-. unfold put. rewrite in_map_iff. split.
    + intros (z & Z1 & Z2). destruct (keq (bk e) (bk z)) eqn:KZ; [subst y; rewrite keq_refl in K; discriminate|]. subst y. exact Z2.
    + intros HY. exists y. rewrite keq_sym, K. auto.
Qed.

Lemma lookup_without E D k : sorted E -> lookup k (without D E) = if has_key k D then None else lookup k E.
Proof.
  intros HS. assert (HS' : sorted (without D E)) by (apply sorted_filter; exact HS). destruct (has_key k D) eqn:K.
  - destruct (lookup k (without D E)) as [x|] eqn:L; [|reflexivity]. apply (lookup_In _ _ _ HS') in L. destruct L as (L1 & L2). unfold without in L1.
    apply filter_In in L1. destruct L1 as (_ & L1). rewrite L2, K in L1. discriminate.
  - apply lookup_ext; auto. intros x <-. unfold without. rewrite filter_In, K. tauto.
Qed.

Lemma select_single k fl E : sorted E -> select (mkR k None) fl 0 0 E = match lookup k E with Some x => if matches fl x then [x] else [] | None => [] end.
Proof.
  intros HS. unfold select, hits. cbn [skipn take desc r_to]. 
  assert (F : filter (fun e => in_rg (mkR k None) e && matches fl e) E = filter (fun e => keq (bk e) k && matches fl e) E).
  { apply filter_ext. intros x. f_equal. unfold in_rg, inside, lo_of, hi_of, keq. cbn [r_to r_from]. apply andb_comm. }
  rewrite F. destruct (lookup k E) as [x|] eqn:L.
  - apply (lookup_In _ _ _ HS) in L. destruct L as (L1 & <-). apply filter_key; assumption.
  - apply lookup_none_key in L. apply filter_none. intros x HX. destruct (keq (bk x) k) eqn:K; [|reflexivity]. exfalso.
    assert (Z : has_key k E = true) by (apply has_key_In; exists x; split; [exact HX|apply keq_eq; exact K]). congruence.
Qed.

(* ---------- maxcount ---------- *)

(* maxcount is positive: 0 is replaced by the default before it is stored *)
Definition count_ok (o : op) : Prop := match o with SetAttr (AMaxCount n) => 0 < n | _ => True end.

Lemma without_le D E : length (without D E) <= length E.
Proof. unfold without. pose proof (filter_split_len (fun e => has_key (bk e) D) E). lia. Qed.

Lemma filter_le {A} (f : A -> bool) l : length (filter f l) <= length l.
Proof. induction l as [|x l IH]; cbn; [lia|]. destruct (f x); cbn; lia. Qed.

Lemma put_length e E : length (put e E) = length E.
Proof. unfold put. apply map_length. Qed.

Definition bounded (a : sp) : Prop := 0 < s_max a /\ length (s_el a) <= s_max a.

Lemma drop_lt P e E : sorted E -> has_key (bk e) E = false -> P e = false -> (exists w, In w E /\ P w = true) ->
  length (filter (fun x => negb (P x)) (ins e E)) <= length E.
Proof.
  intros HS HK PE (w & W1 & W2). pose proof (filter_split_len P (ins e E)) as FS. rewrite ins_length in FS.
  assert (Z : 0 < length (filter P (ins e E))).
  { assert (IN : In w (filter P (ins e E))) by (apply filter_In; split; [apply ins_In; auto|exact W2]). destruct (filter P (ins e E)); [contradiction|cbn; lia]. }
  lia.
Qed.

Lemma verdict_hit a k x y : range_verdict a k = RDrop x y -> exists w, In w (s_el a) /\ (bk w = x \/ bk w = y).
Proof.
  unfold range_verdict. destruct (s_range a) as [r|]; [|discriminate]. destruct (s_first (s_el a)) as [mn|] eqn:F; [|discriminate]. destruct (s_last (s_el a)) as [mx|] eqn:L; [|discriminate].
  destruct (_ && _).
  - destruct (drops_high _); [|discriminate]. intros [= <- <-]. exists mx. split; [apply last_in; exact L|auto].
  - destruct (_ && _); [|discriminate]. destruct (drops_low _); [|discriminate]. intros [= <- <-]. exists mn. split; [apply hd_in; exact F|auto].
Qed.

Lemma s_new_bounded a e : bounded a -> sorted (s_el a) -> has_key (bk e) (s_el a) = false -> bounded (snd (s_new a e)).
Proof.
  intros (B1 & B2) HS HK. unfold s_new. destruct (s_el a) as [|z l] eqn:EL.
  { split; cbn; lia. }
  rewrite <- EL in *. clear z l EL. pose proof (ins_length e (s_el a)) as IL.
  destruct (range_verdict a (bk e)) as [| |x y] eqn:RV.
  - destruct (Nat.ltb_spec (length (s_el a)) (s_max a)) as [C|C]; [split; cbn; lia|].
    assert (MK : forall b q, bounded q -> bounded (if b : bool then with_trim q true else q)) by (intros b q H; destruct b; exact H).
    destruct (drops_low (s_ovf a)); [destruct (s_first (s_el a)) as [mn|]; [destruct (klt (bk e) (bk mn)); cbn [snd]; apply MK; split; auto|split; auto]|].
    + cbn. destruct (ins e (s_el a)); cbn in *; lia.
    + destruct (drops_high (s_ovf a)); [|split; auto]. destruct (s_last (s_el a)) as [mx|]; [destruct (klt (bk mx) (bk e)); cbn [snd]; apply MK; split; auto|split; auto].
      cbn. rewrite removelast_length. lia.
  - split; auto.
  - split; cbn [snd s_max s_el]; [exact B1|]. destruct (verdict_hit _ _ _ _ RV) as (w & W1 & W2).
    destruct (in_rg (mkR x (Some y)) e) eqn:PE.
    + pose proof (filter_split_len (in_rg (mkR x (Some y))) (ins e (s_el a))) as FS. rewrite IL in FS.
      assert (Z : 0 < length (filter (in_rg (mkR x (Some y))) (ins e (s_el a)))).
      { assert (IN : In e (filter (in_rg (mkR x (Some y))) (ins e (s_el a)))) by (apply filter_In; split; [apply ins_In; auto|exact PE]).
        destruct (filter (in_rg (mkR x (Some y))) (ins e (s_el a))); [contradiction|cbn; lia]. }
      lia.
    + etransitivity; [|exact B2]. apply drop_lt; auto. exists w. split; [exact W1|]. apply in_rg_ends. exact W2.
Qed.

Lemma s_step_bounded a o b x : bounded a -> sorted (s_el a) -> count_ok o -> s_step a o = (b, x) -> bounded b.
Proof.
  intros HB HS HC H. assert (SAME : forall y z : out, (a, y) = (b, z) -> bounded b) by (intros y z [= <- _]; exact HB).
  assert (WOUT : forall d (y z : out), (with_el a (without d (s_el a)), y) = (b, z) -> bounded b).
  { intros d y z [= <- _]. destruct HB as (B1 & B2). split; cbn; [exact B1|]. pose proof (without_le d (s_el a)). lia. }
  assert (PUT : forall d (y z : out), (with_el a (put d (s_el a)), y) = (b, z) -> bounded b).
  { intros d y z [= <- _]. destruct HB as (B1 & B2). split; cbn; [exact B1|]. rewrite put_length. exact B2. }
  destruct o; cbn [s_step] in H.
  - destruct (_ && _); [eauto|]. destruct (lookup (bk e) (s_el a)) eqn:L; [destruct rep; eauto|].
    pose proof (s_new_bounded a e HB HS (proj1 (lookup_none_key _ _) L)) as NB. destruct (s_new a e) as [r q]. cbn in NB. destruct r; injection H as <- _; exact NB.
  - destruct (s_el a) eqn:EL; [eauto|]. rewrite <- EL in *. destruct (s_bad_type a b0); [eauto|]. destruct (lookup b0 (s_el a)); [|eauto]. destruct (s_eflag u (ef e0)); eauto.
  - destruct (s_el a) eqn:EL; [eauto|]. rewrite <- EL in *. destruct (s_bad_type a (r_from r)); [eauto|]. destruct (select r fl 0 count (s_el a)); eauto.
  - destruct (_ && _); [eauto|]. destruct (lookup b0 (s_el a)) eqn:L.
    + destruct (safe_strtoull _); [|eauto]. destruct (Nat.eqb _ _); eauto.
    + destruct create; [|eauto]. pose proof (s_new_bounded a (mkE b0 f (s_num initial)) HB HS (proj1 (lookup_none_key _ _) L)) as NB.
      destruct (s_new a (mkE b0 f (s_num initial))) as [r q]. cbn in NB. destruct r; injection H as <- _; exact NB.
  - destruct (Nat.leb _ _); [eauto|]. destruct (s_bad_type _ _); [eauto|]. destruct (select r fl ofs count (s_el a)); [eauto|]. destruct del; eauto.
  - destruct (s_bad_type _ _); eauto.
  - destruct (s_el a); [eauto|]. destruct (s_bad_type _ _); [eauto|]. destruct (lookup _ _); eauto.
  - destruct (s_el a); [eauto|]. destruct (s_bad_type _ _); [eauto|]. destruct (lookup _ _); eauto.
  - destruct (_ && _); eauto.
  - destruct HB as (B1 & B2). destruct a0 as [n|o|[r|]].
    + destruct (Nat.ltb_spec n (length (s_el a))); injection H as <- _; [split; assumption|]. split; cbn in *; lia.
    + injection H as <- _. split; assumption.
    + destruct (s_first (s_el a)), (s_last (s_el a)); try (injection H as <- _; split; assumption).
      destruct (s_bad_type a r); [injection H as <- _; split; assumption|]. destruct (_ && _); injection H as <- _; split; assumption.
    + injection H as <- _. split; assumption.
  - eauto.
  - eauto.
Qed.

Lemma run_keeps (P : sp -> Prop) (Q : op -> Prop) :
  (forall a o b x, P a -> sorted (s_el a) -> Forall (fun e => typed (s_type a) (bk e)) (s_el a) -> (forall r, s_range a = Some r -> typed (s_type a) r) ->
     Q o -> op_ok o -> s_step a o = (b, x) -> P b) ->
  forall ops s s' outs E, inv s E -> P (absE s E) -> Forall op_ok ops -> Forall Q ops -> run s ops = Some (s', outs) -> P (view s').
Proof.
  intros HP. induction ops as [|o ops IH]; intros s s' outs E HI PA HO HQ HR; cbn [run] in HR.
  { injection HR as <- _. rewrite <- (inv_view s E HI). exact PA. }
  apply Forall_cons_iff in HO. destruct HO as (O1 & O2). apply Forall_cons_iff in HQ. destruct HQ as (Q1 & Q2).
  pose proof (step_refines s E o HI O1) as SR. destruct (step s o) as [[s1 x]|]; [|discriminate]. destruct SR as (E1 & I1 & ALT).
  destruct (run s1 ops) as [[s2 xs]|] eqn:ER; [|discriminate]. injection HR as <- _. eapply IH; try eassumption.
  destruct ALT as [(_ & A2 & _)|A1]; [rewrite A2; exact PA|].
  eapply HP; try exact A1; try eassumption; apply HI.
Qed.
