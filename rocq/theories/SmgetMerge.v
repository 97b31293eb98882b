(* First phase of smget: the sort array keeps everything the answer needs *)
From Coq Require Import Sorting.Sorted Sorting.Permutation.
From Verif Require Import Base UtilModel BtModel BtSpec BtOrder BtLevel BtFind BtSplit BtMerge BtMerge2 BtWalk BtGet BtGet2
  BtOps BtKeys BtIns BtRefine BtRun SmgetModel SmgetSpec SmgetScan SmgetList.
Local Open Scope nat_scope.

Lemma bsearch_gen cmp : forall fuel lo hi, lo <= hi -> hi - lo <= fuel ->
  (forall i, lo <= i < hi -> exists c, cmp i = Some c) ->
  (forall i j, lo <= i -> i < j -> j < hi -> cmp j = Some Gt -> cmp i = Some Gt) ->
  (forall i j, lo <= i -> i < j -> j < hi -> cmp i = Some Lt -> cmp j = Some Lt) ->
  (exists m, bsearch fuel cmp lo hi = Some (inl m) /\ lo <= m < hi /\ cmp m = Some Eq) \/
  (exists p, bsearch fuel cmp lo hi = Some (inr p) /\ lo <= p <= hi /\ (forall i, lo <= i < p -> cmp i = Some Gt) /\ (forall i, p <= i < hi -> cmp i = Some Lt)).
Proof.
  induction fuel as [|fuel IH]; intros lo hi LH HF HD HG HL; cbn [bsearch].
  - destruct (Nat.ltb_spec lo hi); [lia|]. right. exists lo. split; [reflexivity|]. split; [lia|]. split; intros; lia.
  - destruct (Nat.ltb_spec lo hi) as [C|C].
    2: { right. exists lo. split; [reflexivity|]. split; [lia|]. split; intros; lia. }
    set (mid := Nat.div (lo + (hi - 1)) 2).
    assert (ML : lo <= mid /\ mid < hi).
    { unfold mid. split; [apply Nat.div_le_lower_bound; lia|]. apply Nat.div_lt_upper_bound; lia. }
    destruct (HD mid ltac:(lia)) as (c & HC). rewrite HC. destruct c.
    + left. exists mid. split; [reflexivity|]. split; [lia|exact HC].
    + destruct (IH lo mid) as [(m & M1 & M2 & M3)|(p & P1 & P2 & P3 & P4)]; try lia.
      * intros i Hi. apply HD. lia.
      * intros i j H1 H2 H3. apply HG; lia.
      * intros i j H1 H2 H3. apply HL; lia.
      * left. exists m. split; [exact M1|]. split; [lia|exact M3].
      * right. exists p. split; [exact P1|]. split; [lia|]. split; [exact P3|]. intros i Hi. destruct (Nat.ltb_spec i mid); [apply P4; lia|].
        destruct (Nat.eq_dec mid i) as [<-|]; [exact HC|]. apply (HL mid i); try lia. exact HC.
    + destruct (IH (S mid) hi) as [(m & M1 & M2 & M3)|(p & P1 & P2 & P3 & P4)]; try lia.
      * intros i Hi. apply HD. lia.
      * intros i j H1 H2 H3. apply HG; lia.
      * intros i j H1 H2 H3. apply HL; lia.
      * left. exists m. split; [exact M1|]. split; [lia|exact M3].
      * right. exists p. split; [exact P1|]. split; [lia|]. split; [|exact P4]. intros i Hi. destruct (Nat.ltb_spec mid i); [apply P3; lia|].
        destruct (Nat.eq_dec i mid) as [->|]; [exact HC|]. apply (HG i mid); try lia. exact HC.
Qed.

Definition idn (c : scan) : scan := set_ps c (mkPosi None 0 false).
Definition good (t : bt) : Prop := btree (b_T t) (contents t) /\ sorted (contents t).

Section Phase.
Variables (g : range) (fl : option efilter) (req : nat) (unique : bool).
Hypothesis OKF : ofilter_ok fl.
Hypothesis REQ : 0 < req.
Notation dsc := (desc g).
Notation rt := (range_type g).
Notation bef := (before dsc).
Notation kb := (kbef dsc).

(* scan c stands at e, R follows *)
Definition cur (c : scan) (e : elem) (R : list elem) : Prop := good (c_t c) /\ at_elem (c_t c) (contents (c_t c)) g (c_ps c) e R.
Definition walk (c : scan) : list elem := walk_of g (contents (c_t c)).
Definition endkey (c : scan) : bkey := match rev (walk c) with x :: _ => bk x | [] => U64 0 end.
Definition cutb (c : scan) : bool := cut (view (c_t c)) g.

Definition hitof (c : scan) (e : elem) : hit := mkHit e (c_ix c) (c_flags c) (c_key c).
Definition pend (c : scan) (L : list elem) : list hit := map (hitof c) (filter (matches fl) L).

Lemma cur_elem c e R : cur c e R -> c_elem c = Some e.
Proof.
  intros ((HB & HS) & D & k & i & HW & HP & HI & HN & HR). unfold c_elem. rewrite HP. cbn [pn px].
  destruct (elem_at_spec (b_T (c_t c)) (contents (c_t c)) (btree_tree _ _ HB) k i HI) as (EA & _). congruence.
Qed.

Lemma cur_next c e R : cur c e R ->
  match R with
  | [] => exists ps, scan_next c rt g = Some (None, ps) /\ ran_into_trim (c_t c) ps rt = cutb c
  | e' :: R' => exists ps, scan_next c rt g = Some (Some e', ps) /\ cur (set_ps c ps) e' R'
  end.
Proof.
  intros ((HB & HS) & HA). pose proof (scan_step (c_t c) (contents (c_t c)) g HB HS (c_ps c) e R HA) as ST.
  assert (EQ : scan_next c rt g = scan_next (mkSc [] 0%N (c_t c) (c_ps c) 0) rt g) by reflexivity. rewrite EQ.
  destruct R as [|e' R'].
  - exact ST.
  - destruct ST as (ps & S1 & S2). exists ps. split; [exact S1|]. split; [split; assumption|exact S2].
Qed.

Lemma cur_suffix c e R : cur c e R -> exists D, walk c = D ++ e :: R.
Proof. intros (_ & D & k & i & HW & _). exists D. exact HW. Qed.

Lemma walk_mono t : good t -> mono (negb dsc) (walk_of g (contents t)).
Proof.
  intros (_ & HS). unfold walk_of. destruct dsc; cbn [negb].
  - apply mono_rev. apply mono_sorted. apply mono_filter. apply mono_sorted. exact HS.
  - apply mono_filter. apply mono_sorted. exact HS.
Qed.

Lemma mono_app f a b : mono f (a ++ b) -> mono f b /\ forall x y, In x a -> In y b -> lt_dir f (bk x) (bk y) = true.
Proof.
  induction a as [|z a IH]; cbn [app]; intros H; [split; [exact H|intros ? ? []]|]. destruct H as (H1 & H2). destruct (IH H2) as (I1 & I2).
  split; [exact I1|]. intros x y [<-|HX] HY; [apply H1; apply in_app_iff; auto|]. auto.
Qed.

Lemma kb_lt a b : kb a b = lt_dir (negb dsc) a b.
Proof. unfold kbef, lt_dir. destruct dsc; reflexivity. Qed.

Lemma cur_mono c e R : cur c e R -> forall x, In x R -> kb (bk e) (bk x) = true.
Proof.
  intros HC x HX. destruct (cur_suffix c e R HC) as (D & HW). pose proof (walk_mono _ (proj1 HC)) as M. unfold walk in HW. rewrite HW in M.
  destruct (mono_app _ _ _ M) as ((M1 & _) & _). rewrite kb_lt. apply M1. exact HX.
Qed.

Lemma last_in {A} (l : list A) x l' : rev l = x :: l' -> In x l.
Proof. intros H. apply in_rev. rewrite H. left. reflexivity. Qed.

Lemma cur_end c e R : cur c e R -> match rev (e :: R) with x :: _ => endkey c = bk x | [] => False end.
Proof.
  intros HC. destruct (cur_suffix c e R HC) as (D & HW). unfold endkey. rewrite HW, rev_app_distr.
  destruct (rev (e :: R)) as [|x l] eqn:E; [cbn in E; destruct (rev R); discriminate|]. reflexivity.
Qed.

(* the elements still to come do not lie behind the last one *)
Lemma cur_le_end c e R : cur c e R -> kb (endkey c) (bk e) = false.
Proof.
  intros HC. pose proof (cur_end c e R HC) as HE. destruct (rev (e :: R)) as [|x l] eqn:E; [contradiction|]. rewrite HE.
  pose proof (last_in _ _ _ E) as HI. destruct HI as [<-|HI]; [apply kbef_irrefl|].
  pose proof (cur_mono c e R HC x HI) as K. destruct (kb (bk x) (bk e)) eqn:C; [|reflexivity].
  pose proof (kbef_trans _ _ _ _ K C) as X. rewrite kbef_irrefl in X. discriminate.
Qed.

(* ---------- the sort array ---------- *)

Notation ent := (scan * (elem * list elem))%type.
Definition e_scan (a : ent) : scan := fst a.
Definition hh (a : ent) : hit := hitof (fst a) (fst (snd a)).
Definition okent (a : ent) : Prop := cur (fst a) (fst (snd a)) (snd (snd a)) /\ matches fl (fst (snd a)) = true.
Definition kept (A : list ent) : list hit := flat_map (fun a => pend (fst a) (fst (snd a) :: snd (snd a))) A.
Definition okarr (A : list ent) : Prop :=
  Forall okent A /\ ssorted dsc (map hh A) /\ (unique = true -> NoDup (map (fun a => bk (h_e (hh a))) A)) /\
  NoDup (map (fun a => c_key (fst a)) A) /\ Forall (fun a => nul_free (c_key (fst a))) A.

Lemma pend_head c e R : matches fl e = true -> pend c (e :: R) = hitof c e :: pend c R.
Proof. intros H. unfold pend. cbn [filter]. rewrite H. reflexivity. Qed.
Lemma hh_kept A a : Forall okent A -> In a A -> In (hh a) (kept A).
Proof.
  intros HO HA. rewrite Forall_forall in HO. unfold kept. apply in_flat_map. exists a. split; [exact HA|].
  destruct a as (c & e & R). cbn [fst snd]. rewrite pend_head by apply (HO _ HA). left. reflexivity.
Qed.
Lemma pend_in c L x : In x (pend c L) -> exists e, In e L /\ matches fl e = true /\ x = hitof c e.
Proof. intros H. apply in_map_iff in H. destruct H as (e & <- & H). apply filter_In in H. exists e. tauto. Qed.

(* hits that the array has given up *)
Definition lost (A : list ent) (x : hit) : Prop :=
  (unique = true /\ exists a, In a A /\ bk (h_e (hh a)) = bk (h_e x) /\ bef (hh a) x = true) \/
  (length A = req /\ forall a, In a A -> bef (hh a) x = true).
(* a bkey not before any of the req heads *)
Definition low (A : list ent) (b : bkey) : Prop := length A = req /\ forall a, In a A -> kb b (bk (h_e (hh a))) = false.

(* comparison of a new element with an entry *)
Definition ord (c : scan) (e : elem) (a : ent) : comparison := oriented (negb dsc) (both (bcomp (bk e) (bk (fst (snd a))), comp_hkey (c_key c) (c_key (fst a)))).

Lemma ord_spec c e a : nul_free (c_key c) -> nul_free (c_key (fst a)) ->
  match ord c e a with
  | Lt => bef (hitof c e) (hh a) = true
  | Gt => bef (hh a) (hitof c e) = true
  | Eq => c_key c = c_key (fst a)
  end.
Proof.
  intros N1 N2. destruct a as (d & x & R). unfold ord, hh. cbn [fst snd]. rewrite comp_hkey_spec by assumption. unfold before, hitof. cbn [h_e h_key].
  destruct (bcomp (bk e) (bk x)) eqn:B; cbn [both].
  - apply bcomp_eq in B. rewrite B, keq_refl. destruct (bin_comp (c_key c) (c_key d)) eqn:K.
    + apply bin_comp_eq in K. unfold oriented. destruct (negb dsc); exact K.
    + apply bin_comp_lt in K. unfold oriented. destruct dsc; cbn [negb CompOpp]; exact K.
    + apply bin_comp_gt in K. unfold oriented. destruct dsc; cbn [negb CompOpp]; exact K.
  - apply bcomp_lt in B. rewrite (keq_sym (bk x)), (klt_neq _ _ B). unfold oriented. destruct dsc; cbn [negb CompOpp]; exact B.
  - apply bcomp_gt in B. rewrite (keq_sym (bk x)), (klt_neq' _ _ B). unfold oriented. destruct dsc; cbn [negb CompOpp]; exact B.
Qed.

Lemma comp_scan_ent c e a : okent a -> comp_scan (c_key c) e (fst a) = Some (bcomp (bk e) (bk (fst (snd a))), comp_hkey (c_key c) (c_key (fst a))).
Proof. intros (H & _). unfold comp_scan. rewrite (cur_elem _ _ _ H). reflexivity. Qed.

Lemma ssorted_nth A i j a b : ssorted dsc (map hh A) -> i < j -> nth_error A i = Some a -> nth_error A j = Some b -> bef (hh a) (hh b) = true.
Proof.
  revert i j. induction A as [|z A IH]; intros i j HS IJ HA HB; [destruct i; discriminate|]. inversion HS as [|? ? S1 S2]; subst.
  destruct j as [|j]; [lia|]. cbn in HB. destruct i as [|i]; cbn in HA.
  - injection HA as <-. rewrite Forall_forall in S2. apply S2. apply in_map. eapply nth_error_In. exact HB.
  - eapply (IH i j); eauto. lia.
Qed.

(* the comparison used by the search of the first phase *)
Definition cm1 (c : scan) (e : elem) (a : ent) : comparison :=
  match bcomp (bk e) (bk (fst (snd a))) with Eq => if unique then Eq else ord c e a | _ => ord c e a end.
Lemma cmp1_ent c e A i a : Forall okent A -> nth_error A i = Some a ->
  cmp1 rt unique (c_key c) e (map fst A) i = Some (cm1 c e a).
Proof.
  intros HO HN. unfold cmp1. rewrite nth_error_map. rewrite HN. cbn [option_map]. rewrite Forall_forall in HO.
  rewrite (comp_scan_ent c e a (HO a (nth_error_In _ _ HN))). unfold cm1, ord. rewrite asc_of.
  destruct (bcomp (bk e) (bk (fst (snd a)))); cbn [both]; try reflexivity. destruct unique; reflexivity.
Qed.

Lemma cm1_Lt c e a : nul_free (c_key c) -> nul_free (c_key (fst a)) -> c_key c <> c_key (fst a) ->
  (cm1 c e a = Lt <-> bef (hitof c e) (hh a) = true /\ (unique = true -> bk e <> bk (fst (snd a)))) /\
  (cm1 c e a = Gt <-> bef (hh a) (hitof c e) = true /\ (unique = true -> bk e <> bk (fst (snd a)))) /\
  (cm1 c e a = Eq -> unique = true /\ bk e = bk (fst (snd a))).
Proof.
  intros N1 N2 NK. pose proof (ord_spec c e a N1 N2) as OS. unfold cm1.
  assert (AS : forall x y, bef x y = true -> bef y x = true -> False).
  { intros x y H1 H2. apply before_asym in H1. congruence. }
  destruct (bcomp (bk e) (bk (fst (snd a)))) eqn:B.
  - apply bcomp_eq in B. destruct unique.
    + split; [split; [discriminate|intros (_ & H); exfalso; apply H; auto]|]. split; [split; [discriminate|intros (_ & H); exfalso; apply H; auto]|]. auto.
    + destruct (ord c e a); [congruence| |].
      * split; [split; [intros _; split; [exact OS|discriminate]|reflexivity]|]. split; [split; [discriminate|intros (H & _); exfalso; eapply AS; eassumption]|discriminate].
      * split; [split; [discriminate|intros (H & _); exfalso; eapply AS; eassumption]|]. split; [split; [intros _; split; [exact OS|discriminate]|reflexivity]|discriminate].
  - assert (NE : bk e <> bk (fst (snd a))) by (intros E; rewrite E in B; rewrite (proj2 (bcomp_eq _ _) eq_refl) in B; discriminate).
    destruct (ord c e a); [congruence| |].
    + split; [split; [intros _; split; [exact OS|auto]|reflexivity]|]. split; [split; [discriminate|intros (H & _); exfalso; eapply AS; eassumption]|discriminate].
    + split; [split; [discriminate|intros (H & _); exfalso; eapply AS; eassumption]|]. split; [split; [intros _; split; [exact OS|auto]|reflexivity]|discriminate].
  - assert (NE : bk e <> bk (fst (snd a))) by (intros E; rewrite E in B; rewrite (proj2 (bcomp_eq _ _) eq_refl) in B; discriminate).
    destruct (ord c e a); [congruence| |].
    + split; [split; [intros _; split; [exact OS|auto]|reflexivity]|]. split; [split; [discriminate|intros (H & _); exfalso; eapply AS; eassumption]|discriminate].
    + split; [split; [discriminate|intros (H & _); exfalso; eapply AS; eassumption]|]. split; [split; [intros _; split; [exact OS|auto]|reflexivity]|discriminate].
Qed.

Lemma nth_key A : Forall (fun a : ent => nul_free (c_key (fst a))) A -> forall i a, nth_error A i = Some a -> nul_free (c_key (fst a)).
Proof. intros H i a HN. rewrite Forall_forall in H. apply H. eapply nth_error_In. exact HN. Qed.

(* the result of the search *)
Lemma search1 c e A : okarr A -> nul_free (c_key c) -> ~ In (c_key c) (map (fun a => c_key (fst a)) A) ->
  (exists m a, bsearch (length A) (cmp1 rt unique (c_key c) e (map fst A)) 0 (length A) = Some (inl m) /\ nth_error A m = Some a /\ unique = true /\ bk e = bk (fst (snd a))) \/
  (exists p, bsearch (length A) (cmp1 rt unique (c_key c) e (map fst A)) 0 (length A) = Some (inr p) /\ p <= length A /\
     (forall a, In a (firstn p A) -> bef (hh a) (hitof c e) = true) /\ (forall a, In a (skipn p A) -> bef (hitof c e) (hh a) = true) /\
     (unique = true -> forall a, In a A -> bk (h_e (hh a)) <> bk e)).
Proof.
  intros (O1 & O2 & O3 & O4 & O5) NF NK.
  assert (NE : forall i a, nth_error A i = Some a -> c_key c <> c_key (fst a)).
  { intros i a HN E. apply NK. rewrite E. apply (in_map (fun a => c_key (fst a))). eapply nth_error_In. exact HN. }
  assert (EX : forall i, i < length A -> exists a, nth_error A i = Some a).
  { intros i Hi. destruct (nth_error A i) as [a|] eqn:E; [eauto|]. apply nth_error_None in E. lia. }
  assert (CM : forall i a, nth_error A i = Some a -> cmp1 rt unique (c_key c) e (map fst A) i = Some (cm1 c e a)).
  { intros i a HN. apply cmp1_ent; assumption. }
  assert (KEYS : forall i j a b, i < j -> nth_error A i = Some a -> nth_error A j = Some b -> unique = true ->
     kb (bk (h_e (hh a))) (bk (h_e (hh b))) = true).
  { intros i j a b IJ HA HB U. specialize (O3 U). pose proof (ssorted_nth A i j a b O2 IJ HA HB) as HBE. destruct (before_key _ _ _ HBE) as [E|E]; [|exact E].
    exfalso. assert (i = j); [|lia]. eapply NoDup_nth_error; [exact O3|rewrite map_length; apply nth_error_Some; congruence|].
    rewrite !nth_error_map, HA, HB. cbn. f_equal. exact E. }
  assert (SEP : forall i j a b, i < j -> nth_error A i = Some a -> nth_error A j = Some b -> forall x, bef x (hh a) = true -> bef x (hh b) = true).
  { intros i j a b IJ HA HB x HX. eapply before_trans; [exact HX|]. exact (ssorted_nth A i j a b O2 IJ HA HB). }
  destruct (bsearch_gen (cmp1 rt unique (c_key c) e (map fst A)) (length A) 0 (length A)) as [(m & M1 & M2 & M3)|(p & P1 & P2 & P3 & P4)]; try lia.
  - intros i Hi. destruct (EX i ltac:(lia)) as (a & HA). rewrite (CM i a HA). eauto.
  - intros i j _ IJ HJ HG. destruct (EX i ltac:(lia)) as (a & HA). destruct (EX j ltac:(lia)) as (b & HB). rewrite (CM j b HB) in HG. injection HG as HG.
    rewrite (CM i a HA). f_equal. destruct (cm1_Lt c e b NF (nth_key A O5 j b HB) (NE j b HB)) as (_ & (G1 & _) & _). destruct (G1 HG) as (G2 & G3).
    destruct (cm1_Lt c e a NF (nth_key A O5 i a HA) (NE i a HA)) as (_ & (_ & G4) & _). apply G4. split.
    + eapply before_trans; [|exact G2]. exact (ssorted_nth A i j a b O2 IJ HA HB).
    + intros U E. pose proof (KEYS i j a b IJ HA HB U) as K. destruct (before_key _ _ _ G2) as [E2|E2].
      * apply (G3 U). symmetry. exact E2.
      * pose proof (kbef_trans _ _ _ _ K E2) as X. unfold hh, hitof in X. cbn [h_e] in X. rewrite E, kbef_irrefl in X. discriminate.
  - intros i j _ IJ HJ HG. destruct (EX i ltac:(lia)) as (a & HA). destruct (EX j ltac:(lia)) as (b & HB). rewrite (CM i a HA) in HG. injection HG as HG.
    rewrite (CM j b HB). f_equal. destruct (cm1_Lt c e a NF (nth_key A O5 i a HA) (NE i a HA)) as ((G1 & _) & _). destruct (G1 HG) as (G2 & G3).
    destruct (cm1_Lt c e b NF (nth_key A O5 j b HB) (NE j b HB)) as ((_ & G4) & _). apply G4. split.
    + eapply before_trans; [exact G2|]. exact (ssorted_nth A i j a b O2 IJ HA HB).
    + intros U E. pose proof (KEYS i j a b IJ HA HB U) as K. destruct (before_key _ _ _ G2) as [E2|E2].
      * apply (G3 U). exact E2.
      * pose proof (kbef_trans _ _ _ _ E2 K) as X. unfold hh, hitof in X. cbn [h_e] in X. rewrite E, kbef_irrefl in X. discriminate.
  - left. destruct (EX m ltac:(lia)) as (a & HA). exists m, a. split; [exact M1|]. split; [exact HA|]. rewrite (CM m a HA) in M3. injection M3 as M3.
    destruct (cm1_Lt c e a NF (nth_key A O5 m a HA) (NE m a HA)) as (_ & _ & G). apply G. exact M3.
  - right. exists p. split; [exact P1|]. split; [lia|]. split; [|split].
    + intros a HA. apply In_firstn_nth in HA. destruct HA as (j & J1 & J2). specialize (P3 j ltac:(lia)). rewrite (CM j a J2) in P3. injection P3 as P3.
      destruct (cm1_Lt c e a NF (nth_key A O5 j a J2) (NE j a J2)) as (_ & (G & _) & _). apply G. exact P3.
    + intros a HA. apply In_skipn_nth in HA. destruct HA as (j & J1 & J2). assert (JL : j < length A) by (apply nth_error_Some; congruence).
      specialize (P4 j ltac:(lia)). rewrite (CM j a J2) in P4. injection P4 as P4.
      destruct (cm1_Lt c e a NF (nth_key A O5 j a J2) (NE j a J2)) as ((G & _) & _ & _). apply G. exact P4.
    + intros U a HA. apply In_nth_error in HA. destruct HA as (j & J2). assert (JL : j < length A) by (apply nth_error_Some; congruence).
      destruct (cm1_Lt c e a NF (nth_key A O5 j a J2) (NE j a J2)) as ((G1 & _) & (G2 & _) & _).
      destruct (Nat.ltb_spec j p) as [C|C].
      * specialize (P3 j ltac:(lia)). rewrite (CM j a J2) in P3. injection P3 as P3. destruct (G2 P3) as (_ & H). intros E. apply (H U). symmetry. exact E.
      * specialize (P4 j ltac:(lia)). rewrite (CM j a J2) in P4. injection P4 as P4. destruct (G1 P4) as (_ & H). intros E. apply (H U). symmetry. exact E.
Qed.

(* ---------- arrays with an entry taken out or put in ---------- *)

Lemma in_mid {X} (B C : list X) a x : In x (B ++ a :: C) <-> x = a \/ In x (B ++ C).
Proof. rewrite !in_app_iff. cbn [In]. intuition congruence. Qed.

Lemma kept_mid B a C x : In x (kept (B ++ a :: C)) <-> In x (pend (fst a) (fst (snd a) :: snd (snd a))) \/ In x (kept (B ++ C)).
Proof. unfold kept. rewrite !flat_map_app. cbn [flat_map]. rewrite !in_app_iff. tauto. Qed.

Lemma nodup_mid {X} (B C : list X) a : NoDup (B ++ a :: C) <-> NoDup (B ++ C) /\ ~ In a (B ++ C).
Proof.
  split; [intros H; split; [eapply NoDup_remove_1; exact H|eapply NoDup_remove_2; exact H]|]. intros (H1 & H2). apply (Permutation_NoDup (l := a :: B ++ C)).
  - apply Permutation_middle.
  - constructor; assumption.
Qed.

Lemma okarr_mid B a C : okarr (B ++ a :: C) <->
  okarr (B ++ C) /\ okent a /\ nul_free (c_key (fst a)) /\ (forall b, In b B -> bef (hh b) (hh a) = true) /\ (forall b, In b C -> bef (hh a) (hh b) = true) /\
  (unique = true -> forall b, In b (B ++ C) -> bk (h_e (hh b)) <> bk (h_e (hh a))) /\ ~ In (c_key (fst a)) (map (fun a => c_key (fst a)) (B ++ C)).
Proof.
  assert (SS : ssorted dsc (map hh (B ++ a :: C)) <-> ssorted dsc (map hh (B ++ C)) /\ (forall b, In b B -> bef (hh b) (hh a) = true) /\ (forall b, In b C -> bef (hh a) (hh b) = true)).
  { rewrite !map_app, !ssorted_app. cbn [map]. split.
    - intros (H1 & H2 & H3). inversion H2 as [|? ? H4 H5]; subst. split; [split; [exact H1|split; [exact H4|]]|split].
      + intros x y Hx Hy. apply H3; [exact Hx|right; exact Hy].
      + intros b Hb. apply H3; [apply in_map; exact Hb|left; reflexivity].
      + intros b Hb. rewrite Forall_forall in H5. apply H5. apply in_map. exact Hb.
    - intros ((H1 & H2 & H3) & H4 & H5). split; [exact H1|]. split.
      + constructor; [exact H2|]. rewrite Forall_forall. intros x Hx. apply in_map_iff in Hx. destruct Hx as (b & <- & Hb). auto.
      + intros x y Hx [<-|Hy]; [apply in_map_iff in Hx; destruct Hx as (b & <- & Hb); auto|auto]. }
  unfold okarr. rewrite SS. rewrite !Forall_app, !Forall_cons_iff. rewrite !map_app. cbn [map]. rewrite !nodup_mid.
  assert (U : ~ In (bk (h_e (hh a))) (map (fun a0 : ent => bk (h_e (hh a0))) B ++ map (fun a0 : ent => bk (h_e (hh a0))) C) <->
              forall b, In b (B ++ C) -> bk (h_e (hh b)) <> bk (h_e (hh a))).
  { rewrite <- map_app. split.
    - intros H b Hb E. apply H. rewrite <- E. apply (in_map (fun a0 : ent => bk (h_e (hh a0)))). exact Hb.
    - intros H HI. apply in_map_iff in HI. destruct HI as (b & E & Hb). eapply H; eassumption. }
  rewrite U. rewrite <- !map_app. tauto.
Qed.

Lemma nth_mid {X} (l : list X) m a : nth_error l m = Some a -> l = firstn m l ++ a :: skipn (S m) l.
Proof. revert m. induction l as [|x l IH]; intros m H; [destruct m; discriminate|]. destruct m as [|m]; cbn in *; [injection H as <-; reflexivity|]. f_equal. apply IH. exact H. Qed.

Lemma last_split {X} (l : list X) : l <> [] -> exists z, nth_error l (length l - 1) = Some z /\ l = firstn (length l - 1) l ++ [z].
Proof.
  intros H. destruct (nth_error l (length l - 1)) as [z|] eqn:E.
  - exists z. split; [reflexivity|]. rewrite (nth_mid l _ z E) at 1. f_equal. f_equal. apply skipn_all2. destruct l; [congruence|]. cbn [length]. lia.
  - apply nth_error_None in E. destruct l; [congruence|]. cbn [length] in E. lia.
Qed.

Lemma pend_after c e R x : cur c e R -> In x (pend c (e :: R)) -> x = hitof c e \/ bef (hitof c e) x = true.
Proof.
  intros HC HX. apply pend_in in HX. destruct HX as (y & [<-|HY] & HM & ->); [left; reflexivity|]. right. apply kbef_before. cbn [hitof h_e]. apply (cur_mono c e R HC). exact HY.
Qed.

(* everything of an entry is given up once all heads lie before its head *)
Lemma lost_after A c e R x : length A = req -> (forall a, In a A -> bef (hh a) (hitof c e) = true) -> cur c e R -> In x (pend c (e :: R)) -> lost A x.
Proof.
  intros HL HB HC HX. right. split; [exact HL|]. intros a HA. destruct (pend_after c e R x HC HX) as [->|H]; [auto|]. eapply before_trans; [apply HB; exact HA|exact H].
Qed.
Lemma low_after A c e R : length A = req -> (forall a, In a A -> bef (hh a) (hitof c e) = true) -> cur c e R -> low A (endkey c).
Proof.
  intros HL HB HC. split; [exact HL|]. intros a HA. pose proof (cur_le_end c e R HC) as LE. destruct (kb (endkey c) (bk (h_e (hh a)))) eqn:K; [|reflexivity].
  destruct (before_key _ _ _ (HB a HA)) as [E|E]; cbn [hitof h_e] in E.
  - rewrite E in K. cbn [hitof h_e] in K. congruence.
  - pose proof (kbef_trans _ _ _ _ K E). congruence.
Qed.

(* ---------- what placing a scan does ---------- *)

Definition post (X : list hit) (I : list scan) (A A' : list ent) (F : list scan) : Prop :=
  okarr A' /\ length A' <= req /\
  (forall x, In x (kept A') -> In x X) /\
  (forall x, In x X -> In x (kept A') \/ lost A' x) /\
  (forall x, lost A x -> lost A' x) /\
  (forall b, low A b -> low A' b) /\
  NoDup (map c_key (map fst A' ++ F)) /\
  incl (map idn (map fst A' ++ F)) I /\
  (forall s, In s I -> In s (map idn (map fst A' ++ F)) \/ low A' (endkey s)).

Lemma post_pre X X1 I I1 A A1 A' F : post X1 I1 A1 A' F ->
  (forall x, In x X1 -> In x X) -> (forall x, In x X -> In x X1 \/ lost A1 x) -> (forall x, lost A x -> lost A1 x) -> (forall b, low A b -> low A1 b) ->
  incl I1 I -> (forall s, In s I -> In s I1 \/ low A1 (endkey s)) -> post X I A A' F.
Proof.
  intros (P1 & P2 & P3 & P4 & P5 & P6 & P7 & P8 & P9) H1 H2 H3 H4 H5 H6. unfold post. split; [exact P1|]. split; [exact P2|]. split; [auto|].
  split; [intros x HX; destruct (H2 x HX); auto|]. split; [auto|]. split; [auto|]. split; [exact P7|]. split; [intros s HS; auto|].
  intros s HS. destruct (H6 s HS); auto.
Qed.

Lemma okarr_keys A : okarr A -> NoDup (map c_key (map fst A)).
Proof. intros (_ & _ & _ & H & _). rewrite map_map. exact H. Qed.

Definition rem (A : list ent) : nat := list_sum (map (fun a : ent => length (snd (snd a))) A).
Lemma rem_mid B a C : rem (B ++ a :: C) = length (snd (snd a)) + rem (B ++ C).
Proof. unfold rem. rewrite !map_app, !list_sum_app. cbn [map]. change (list_sum (?x :: ?y)) with (x + list_sum y). lia. Qed.

(* insertion into an array with room *)
Lemma post_insert B C c e R : okarr (B ++ (c, (e, R)) :: C) -> length (B ++ C) < req ->
  post (pend c (e :: R) ++ kept (B ++ C)) (map idn (c :: map fst (B ++ C))) (B ++ C) (B ++ (c, (e, R)) :: C) [].
Proof.
  intros HO HL. assert (LE : length (B ++ (c, (e, R)) :: C) = S (length (B ++ C))) by (rewrite !app_length; cbn [length]; lia).
  unfold post. split; [exact HO|]. split; [lia|].
  split; [intros x HX; apply kept_mid in HX; cbn [fst snd] in HX; rewrite in_app_iff; tauto|].
  split; [intros x HX; rewrite in_app_iff in HX; left; apply kept_mid; cbn [fst snd]; tauto|].
  split.
  { intros x [(U & a & HA & HX)|(HE & _)]; [|lia]. left. split; [exact U|]. exists a. split; [apply in_mid; auto|exact HX]. }
  split; [intros b (HE & _); lia|]. rewrite app_nil_r. split; [apply okarr_keys; exact HO|].
  assert (IN : forall s, In s (map idn (map fst (B ++ (c, (e, R)) :: C))) <-> In s (map idn (c :: map fst (B ++ C)))).
  { intros s. rewrite !map_app. cbn [map fst]. rewrite !map_app. cbn [map In]. rewrite !in_app_iff. cbn [In]. tauto. }
  split; [intros s HS; apply IN; exact HS|]. intros s HS. left. apply IN. exact HS.
Qed.

Lemma place_spec : forall fuel c e e' R A (first : bool) r,
  cur c e R -> bk e' = bk e -> (first = true -> e' = e) ->
  okarr A -> length A <= req -> nul_free (c_key c) -> ~ In (c_key c) (map (fun a => c_key (fst a)) A) ->
  length (if first then e :: R else R) + rem A < fuel ->
  exists A' F tr,
    place rt g fl req unique fuel c e' first (map fst A) r = Some (Ok1 (map fst A') (mkRes (r_el r) (r_miss r) (r_trim r ++ tr) (r_dup r))) /\
    map (fun p => (bk (fst p), snd p)) tr = map (fun s => (endkey s, c_ix s)) (filter cutb F) /\
    post (pend c (if first then e :: R else R) ++ kept A) (map idn (c :: map fst A)) A A' F.
Proof.
  induction fuel as [|fuel IH]; intros c e e' R A first r HC BE FE HO HL NF NK HF; [lia|].
  assert (RR : forall r : smres, r = mkRes (r_el r) (r_miss r) (r_trim r ++ []) (r_dup r)) by (intros r1; rewrite app_nil_r; destruct r1; reflexivity).
  assert (PF : forall e, passes fl e = matches fl e) by (intros; apply passes_spec; exact OKF).
  (* the part behind scan_next *)
  pose (cont := fun (c : scan) (e : elem) =>
        if negb (passes fl e) then place rt g fl req unique fuel c e false (map fst A) r
        else
          match map fst A with
          | [] => Some (Ok1 [c] r)
          | _ =>
              let q := map fst A in
              let full := Nat.leb req (length q) in
              match past_last rt req (c_key c) e q with
              | None => None
              | Some (inl x) => Some (Err1 x)
              | Some (inr true) => Some (Ok1 q r)
              | Some (inr false) =>
                  match bsearch (length q) (cmp1 rt unique (c_key c) e q) 0 (length q) with
                  | None => None
                  | Some (inl mid) =>
                      match nth_error q mid with
                      | None => None
                      | Some d =>
                          match comp_hkey (c_key c) (c_key d) with
                          | Eq => Some (Err1 EBadValue)
                          | h =>
                              if negb unique then None
                              else if (match oriented (ascending rt) h with Lt => true | _ => false end)
                              then place rt g fl req unique fuel d e false (firstn mid q ++ c :: skipn (S mid) q) r
                              else place rt g fl req unique fuel c e false q r
                          end
                      end
                  | Some (inr i) =>
                      let q' := if full then firstn (length q - 1) q else q in
                      Some (Ok1 (firstn i q' ++ c :: skipn i q') r)
                  end
              end
          end).
  assert (CONT : forall c e R, cur c e R -> nul_free (c_key c) -> ~ In (c_key c) (map (fun a => c_key (fst a)) A) -> length R + rem A < fuel ->
    exists A' F tr, cont c e = Some (Ok1 (map fst A') (mkRes (r_el r) (r_miss r) (r_trim r ++ tr) (r_dup r))) /\
    map (fun p => (bk (fst p), snd p)) tr = map (fun s => (endkey s, c_ix s)) (filter cutb F) /\
    post (pend c (e :: R) ++ kept A) (map idn (c :: map fst A)) A A' F).
  { clear c e e' R HC BE FE NF NK HF first. intros c e R HC NF NK HF. unfold cont. clear cont. rewrite PF. destruct (matches fl e) eqn:ME; cbn [negb].
    2: { destruct (IH c e e R A false r HC eq_refl ltac:(discriminate) HO HL NF NK HF) as (A' & F & tr & E1 & E2 & E3).
         exists A', F, tr. split; [exact E1|]. split; [exact E2|]. unfold pend in *. cbn [filter]. rewrite ME. exact E3. }
    assert (OE : okent (c, (e, R))) by (split; assumption).
    destruct A as [|a0 A0] eqn:EA.
    { cbn [map]. exists [(c, (e, R))], [], []. split; [rewrite <- RR; reflexivity|]. split; [reflexivity|].
      apply (post_insert [] [] c e R); [|cbn; lia].
      apply (okarr_mid [] (c, (e, R)) []). cbn [app]. split; [exact HO|]. split; [exact OE|]. split; [exact NF|]. split; [intros ? []|]. split; [intros ? []|]. split; [intros _ ? []|exact NK]. }
    rewrite <- EA in *. assert (NN : A <> []) by (rewrite EA; discriminate).
    assert (QS : forall X (u v : X), match map fst A with [] => u | _ => v end = v) by (intros; rewrite EA; reflexivity).
    rewrite QS. clear QS. cbv zeta. rewrite map_length. clear a0 A0 EA.
    destruct (last_split A NN) as (z & HZ & EZ). set (A0 := firstn (length A - 1) A) in *.
    assert (LA : 0 < length A) by (destruct A; [congruence|cbn; lia]).
    assert (LA0 : length A0 = length A - 1) by (unfold A0; rewrite firstn_length; lia).
    pose proof HO as HO'. rewrite EZ in HO'. apply okarr_mid in HO'. rewrite app_nil_r in HO'. destruct HO' as (Z1 & Z2 & Z3 & Z4 & Z5 & Z6 & Z7).
    assert (ZK : c_key c <> c_key (fst z)).
    { intros E. apply NK. rewrite E. apply (in_map (fun a => c_key (fst a))). eapply nth_error_In. exact HZ. }
    pose proof (ord_spec c e z NF Z3) as OZ.
    assert (PAST : past_last rt req (c_key c) e (map fst A) = Some (inr ((req <=? length A) && match ord c e z with Gt => true | _ => false end))).
    { unfold past_last. rewrite map_length, nth_error_map, HZ. cbn [option_map]. rewrite (comp_scan_ent c e z Z2).
      unfold ord in *. rewrite asc_of. destruct (req <=? length A); cbn [andb]; [|reflexivity].
      destruct (bcomp (bk e) (bk (fst (snd z)))) eqn:B1; destruct (comp_hkey (c_key c) (c_key (fst z))) eqn:B2; cbn [both] in *; try reflexivity.
      exfalso. apply ZK. unfold oriented in OZ. destruct (negb dsc); exact OZ. }
    rewrite PAST. clear PAST.
    destruct ((req <=? length A) && match ord c e z with Gt => true | _ => false end) eqn:PA.
    - (* behind the last entry of a full array *)
      apply andb_true_iff in PA. destruct PA as (FU & OG). apply Nat.leb_le in FU. assert (LR : length A = req) by lia.
      destruct (ord c e z); try discriminate.
      assert (ALL : forall a, In a A -> bef (hh a) (hitof c e) = true).
      { intros a HA. rewrite EZ in HA. apply in_app_iff in HA. destruct HA as [HA|[<-|[]]]; [|exact OZ]. eapply before_trans; [apply Z4; exact HA|exact OZ]. }
      exists A, [], []. split; [rewrite <- RR; reflexivity|]. split; [reflexivity|].
      unfold post. split; [exact HO|]. split; [exact HL|]. split; [intros x HX; apply in_app_iff; auto|].
      split; [intros x HX; apply in_app_iff in HX; destruct HX as [HX|HX]; [right; eapply lost_after; eassumption|left; exact HX]|].
      split; [auto|]. split; [auto|]. rewrite app_nil_r. split; [apply okarr_keys; exact HO|].
      split; [intros s HS; right; exact HS|]. intros s [<-|HS]; [right; change (low A (endkey c)); eapply low_after; eassumption|left; exact HS].
    - destruct (search1 c e A HO NF NK) as [(m & a & M1 & M2 & M3 & M4)|(p & P1 & P2 & P3 & P4 & P5)].
      + (* an entry with the same bkey *)
        rewrite M1, nth_error_map, M2. cbn [option_map]. destruct a as (d & x & Rd). cbn [fst snd] in M4. cbn [fst].
        pose proof (nth_mid A m _ M2) as EM. set (B := firstn m A) in *. set (C := skipn (S m) A) in *.
        pose proof HO as HO'. rewrite EM in HO'. apply okarr_mid in HO'. cbn [fst snd] in HO'. destruct HO' as (D1 & D2 & D3 & D4 & D5 & D6 & D7).
        assert (DK : c_key c <> c_key d).
        { intros E. apply NK. rewrite E. apply (in_map (fun a : ent => c_key (fst a)) A (d, (x, Rd))). eapply nth_error_In. exact M2. }
        pose proof (ord_spec c e (d, (x, Rd)) NF D3) as OD. unfold ord in OD. cbn [fst snd] in OD.
        assert (BC : bcomp (bk e) (bk x) = Eq) by (apply bcomp_eq; exact M4). rewrite BC in OD. cbn [both] in OD.
        rewrite asc_of. rewrite M3. cbn [negb].
        assert (SW : forall (X : Type) (u v w : X), match comp_hkey (c_key c) (c_key d) with Eq => u | _ => (if match oriented (negb dsc) (comp_hkey (c_key c) (c_key d)) with Lt => true | _ => false end then v else w) end =
                 if bef (hitof c e) (hitof d x) then v else w).
        { intros X u v w. destruct (comp_hkey (c_key c) (c_key d)) eqn:CH.
          - exfalso. apply DK. unfold oriented in OD. destruct (negb dsc); exact OD.
          - unfold oriented in *. destruct dsc; cbn [negb CompOpp] in *.
            + change (hh (d, (x, Rd))) with (hitof d x) in OD. rewrite (before_asym _ _ _ OD). reflexivity.
            + change (hh (d, (x, Rd))) with (hitof d x) in OD. rewrite OD. reflexivity.
          - unfold oriented in *. destruct dsc; cbn [negb CompOpp] in *.
            + change (hh (d, (x, Rd))) with (hitof d x) in OD. rewrite OD. reflexivity.
            + change (hh (d, (x, Rd))) with (hitof d x) in OD. rewrite (before_asym _ _ _ OD). reflexivity. }
        assert (SW2 : match comp_hkey (c_key c) (c_key d) with
                      | Eq => Some (Err1 EBadValue)
                      | h => if match oriented (negb dsc) h with Lt => true | _ => false end
                             then place rt g fl req unique fuel d e false (firstn m (map fst A) ++ c :: skipn (S m) (map fst A)) r
                             else place rt g fl req unique fuel c e false (map fst A) r end =
                 if bef (hitof c e) (hitof d x) then place rt g fl req unique fuel d e false (firstn m (map fst A) ++ c :: skipn (S m) (map fst A)) r
                 else place rt g fl req unique fuel c e false (map fst A) r).
        { rewrite <- (SW _ (Some (Err1 EBadValue))). destruct (comp_hkey (c_key c) (c_key d)); reflexivity. }
        rewrite M3 in SW2. rewrite SW2. clear SW SW2. rewrite <- M3.
        destruct (bef (hitof c e) (hitof d x)) eqn:BF.
        * (* the new one takes its place *)
          set (A1 := B ++ (c, (e, R)) :: C).
          assert (Q1 : firstn m (map fst A) ++ c :: skipn (S m) (map fst A) = map fst A1).
          { unfold A1, B, C. rewrite firstn_map, skipn_map, map_app. reflexivity. }
          rewrite Q1.
          assert (OB : okarr A1).
          { apply okarr_mid. cbn [fst snd]. split; [exact D1|]. split; [exact OE|]. split; [exact NF|]. split; [|split; [|split]].
            - intros b Hb. change (hh (c, (e, R))) with (hitof c e). pose proof (D4 b Hb) as Q. destruct (before_key _ _ _ Q) as [E|E].
              + exfalso. eapply (D6 M3 b); [apply in_app_iff; left; exact Hb|]. exact E.
              + apply kbef_before. cbn [hitof h_e]. rewrite M4. exact E.
            - intros b Hb. change (hh (c, (e, R))) with (hitof c e). eapply before_trans; [exact BF|]. apply D5. exact Hb.
            - intros _ b Hb. change (bk (h_e (hh (c, (e, R))))) with (bk e). rewrite M4. apply (D6 M3 b Hb).
            - intros HI. apply NK. rewrite EM, map_app. cbn [map]. rewrite map_app in HI. apply in_app_iff in HI. apply in_app_iff. cbn [In]. tauto. }
          assert (LEN : length A1 = length A) by (unfold A1; rewrite EM at 1; rewrite !app_length; reflexivity).
          assert (LO1 : forall y, lost A y -> lost A1 y).
          { assert (T : forall y, bef (hitof d x) y = true -> bef (hitof c e) y = true) by (intros y Hy; eapply before_trans; eassumption).
            intros y [(U & a & HA & HX & HB)|(HE & HB)].
            - left. split; [exact U|]. rewrite EM in HA. apply in_mid in HA. destruct HA as [->|HA].
              + exists (c, (e, R)). split; [apply in_mid; left; reflexivity|]. split; [change (bk e = bk (h_e y)); rewrite M4; exact HX|apply T; exact HB].
              + exists a. split; [apply in_mid; right; exact HA|]. auto.
            - right. split; [lia|]. intros a HA. apply in_mid in HA. destruct HA as [->|HA].
              + apply T. apply (HB (d, (x, Rd))). eapply nth_error_In. exact M2.
              + apply HB. rewrite EM. apply in_mid. right. exact HA. }
          assert (LW1 : forall b, low A b -> low A1 b).
          { intros b (HE & HB). split; [lia|]. intros a HA. apply in_mid in HA. destruct HA as [->|HA].
            - change (kb b (bk e) = false). rewrite M4. apply (HB (d, (x, Rd))). eapply nth_error_In. exact M2.
            - apply HB. rewrite EM. apply in_mid. right. exact HA. }
          destruct D2 as (CD & MD). cbn [fst snd] in CD, MD.
          assert (KD : ~ In (c_key d) (map (fun a : ent => c_key (fst a)) A1)).
          { unfold A1. rewrite map_app. cbn [map fst]. rewrite in_app_iff. cbn [In]. rewrite map_app, in_app_iff in D7. intuition congruence. }
          destruct (IH d x e Rd A1 false r CD M4 ltac:(discriminate) OB ltac:(lia) D3 KD) as (A' & F & tr & E1 & E2 & E3).
          { unfold A1. rewrite rem_mid. rewrite EM, rem_mid in HF. cbn [fst snd length] in *. lia. }
          exists A', F, tr. split; [exact E1|]. split; [exact E2|]. eapply post_pre; [exact E3| | |exact LO1|exact LW1| |].
          -- intros y HY. apply in_app_iff in HY. apply in_app_iff. destruct HY as [HY|HY].
             ++ right. rewrite EM. apply kept_mid. left. cbn [fst snd]. rewrite pend_head by exact MD. right. exact HY.
             ++ apply kept_mid in HY. cbn [fst snd] in HY. destruct HY as [HY|HY]; [left; exact HY|]. right. rewrite EM. apply kept_mid. right. exact HY.
          -- intros y HY. apply in_app_iff in HY. destruct HY as [HY|HY].
             ++ left. apply in_app_iff. right. apply kept_mid. left. exact HY.
             ++ rewrite EM in HY. apply kept_mid in HY. cbn [fst snd] in HY. destruct HY as [HY|HY].
                ** rewrite pend_head in HY by exact MD. destruct HY as [<-|HY]; [|left; apply in_app_iff; left; exact HY].
                   right. left. split; [exact M3|]. exists (c, (e, R)). split; [apply in_mid; left; reflexivity|]. split; [exact M4|exact BF].
                ** left. apply in_app_iff. right. apply kept_mid. right. exact HY.
          -- intros s HS. cbn [map In] in *. rewrite EM. unfold A1 in HS. rewrite !map_app in *. cbn [map fst] in *. rewrite in_app_iff in *. cbn [In] in *. tauto.
          -- intros s HS. left. cbn [map In] in *. rewrite EM in HS. unfold A1. rewrite !map_app in *. cbn [map fst] in *. rewrite in_app_iff in *. cbn [In] in *. tauto.
        * (* it stays, the new scan goes on *)
          assert (BG : bef (hitof d x) (hitof c e) = true).
          { destruct (bef (hitof d x) (hitof c e)) eqn:BG; [reflexivity|]. destruct (before_total _ _ _ BF BG) as (_ & K). cbn in K. congruence. }
          destruct (IH c e e R A false r HC eq_refl ltac:(discriminate) HO HL NF NK HF) as (A' & F & tr & E1 & E2 & E3).
          exists A', F, tr. split; [exact E1|]. split; [exact E2|]. eapply post_pre; [exact E3| | |auto|auto|apply incl_refl|auto].
          -- intros y HY. apply in_app_iff in HY. apply in_app_iff. destruct HY as [HY|HY]; [|auto]. left. rewrite pend_head by exact ME. right. exact HY.
          -- intros y HY. apply in_app_iff in HY. rewrite in_app_iff. destruct HY as [HY|HY]; [|auto]. rewrite pend_head in HY by exact ME. destruct HY as [<-|HY]; [|auto].
             right. left. split; [exact M3|]. exists (d, (x, Rd)). split; [eapply nth_error_In; exact M2|]. split; [symmetry; exact M4|exact BG].
      + (* a place of its own *)
        rewrite P1. destruct (req <=? length A) eqn:FU.
        * cbn [andb] in PA. apply Nat.leb_le in FU. assert (LR : length A = req) by lia.
          assert (BZ : bef (hitof c e) (hh z) = true) by (destruct (ord c e z); [congruence|exact OZ|discriminate]).
          assert (PL : p <= length A0).
          { destruct (Nat.leb_spec p (length A0)); [assumption|]. exfalso. assert (IZ : In z (firstn p A)).
            { rewrite firstn_all2 by lia. eapply nth_error_In. exact HZ. }
            apply P3 in IZ. apply before_asym in IZ. congruence. }
          assert (FE : firstn p A0 = firstn p A) by (unfold A0; rewrite firstn_firstn; f_equal; lia).
          assert (SE : skipn p A = skipn p A0 ++ [z]).
          { rewrite EZ at 1. rewrite skipn_app. f_equal. replace (p - length A0) with 0 by lia. reflexivity. }
          set (A1 := firstn p A0 ++ (c, (e, R)) :: skipn p A0).
          assert (S0 : firstn p A0 ++ skipn p A0 = A0) by apply firstn_skipn.
          assert (INA : forall a, In a A0 -> In a A) by (intros a Ha; rewrite EZ; apply in_app_iff; left; exact Ha).
          assert (OB : okarr A1).
          { apply okarr_mid. cbn [fst snd]. rewrite S0. split; [exact Z1|]. split; [exact OE|]. split; [exact NF|]. split; [|split; [|split]].
            - intros b Hb. apply P3. rewrite <- FE. exact Hb.
            - intros b Hb. apply P4. rewrite SE. apply in_app_iff. left. exact Hb.
            - intros U b Hb. apply (P5 U). apply INA. exact Hb.
            - intros HI. apply NK. rewrite EZ, map_app. apply in_app_iff. left. exact HI. }
          assert (L1 : length A1 = req).
          { unfold A1. rewrite app_length. cbn [length]. pose proof (f_equal (@length _) S0) as Q. rewrite app_length in Q. lia. }
          assert (IN1 : forall a, In a A1 <-> a = (c, (e, R)) \/ In a A0) by (intros a; unfold A1; rewrite in_mid, S0; tauto).
          assert (AZ : forall a, In a A1 -> bef (hh a) (hh z) = true).
          { intros a HA. apply IN1 in HA. destruct HA as [->|HA]; [exact BZ|apply Z4; exact HA]. }
          assert (K1 : forall y, In y (kept A1) <-> In y (pend c (e :: R)) \/ In y (kept A0)) by (intros y; unfold A1; rewrite kept_mid, S0; tauto).
          assert (KA : forall y, In y (kept A) <-> In y (pend (fst z) (fst (snd z) :: snd (snd z))) \/ In y (kept A0)).
          { intros y. rewrite EZ. unfold kept. rewrite flat_map_app. cbn [flat_map]. rewrite app_nil_r, in_app_iff. tauto. }
          destruct z as (dz & ez & Rz). destruct Z2 as (CZ & MZ). cbn [fst snd] in *. change (hh (dz, (ez, Rz))) with (hitof dz ez) in *.
          exists A1, [], []. split.
          { rewrite <- RR. unfold A1, A0. rewrite map_app. cbn [map fst]. rewrite !firstn_map, !skipn_map. reflexivity. }
          split; [reflexivity|]. unfold post. split; [exact OB|]. split; [lia|].
          split; [intros y HY; apply K1 in HY; rewrite in_app_iff, KA; tauto|]. split.
          { intros y HY. rewrite in_app_iff, KA in HY. rewrite K1. destruct HY as [HY|[HY|HY]]; auto. right. eapply lost_after; eassumption. }
          split.
          { intros y [(U & a & HA & HX & HB)|(HE & HB)].
            - rewrite EZ in HA. apply in_app_iff in HA. destruct HA as [HA|[<-|[]]].
              + left. split; [exact U|]. exists a. split; [apply IN1; auto|auto].
              + right. split; [exact L1|]. intros a HA. eapply before_trans; [apply AZ; exact HA|exact HB].
            - right. split; [exact L1|]. intros a HA. eapply before_trans; [apply AZ; exact HA|]. apply (HB (dz, (ez, Rz))). eapply nth_error_In. exact HZ. }
          split.
          { intros b (HE & HB). split; [exact L1|]. intros a HA. pose proof (HB _ (nth_error_In _ _ HZ)) as QZ. destruct (kb b (bk (h_e (hh a)))) eqn:KB; [|reflexivity].
            destruct (before_key _ _ _ (AZ a HA)) as [E|E].
            - rewrite E in KB. cbn [hh hitof fst snd h_e] in *. unfold hh, hitof in QZ. cbn [fst snd h_e] in QZ. congruence.
            - pose proof (kbef_trans _ _ _ _ KB E) as KT. unfold hh, hitof in QZ. cbn [fst snd h_e] in QZ. unfold hitof in KT. cbn [h_e] in KT. congruence. }
          rewrite app_nil_r. split; [apply okarr_keys; exact OB|].
          assert (II : forall s, In s (map idn (map fst A1)) <-> s = idn c \/ In s (map idn (map fst A0))).
          { intros s. rewrite !map_map. unfold A1. rewrite map_app. cbn [map fst]. rewrite in_mid, <- map_app, S0. tauto. }
          split.
          -- intros s HS. apply II in HS. cbn [map In]. destruct HS as [->|HS]; [left; reflexivity|right]. rewrite EZ, !map_app. apply in_app_iff. left. exact HS.
          -- intros s HS. rewrite II. cbn [map In] in HS. destruct HS as [<-|HS]; [left; left; reflexivity|]. rewrite EZ, !map_app, in_app_iff in HS. destruct HS as [HS|[<-|[]]]; [left; right; exact HS|].
             right. change (low A1 (endkey dz)). eapply low_after; eassumption.
        * apply Nat.leb_gt in FU. assert (S0 : firstn p A ++ skipn p A = A) by apply firstn_skipn.
          exists (firstn p A ++ (c, (e, R)) :: skipn p A), [], []. split.
          { rewrite <- RR. rewrite map_app. cbn [map fst]. rewrite firstn_map, skipn_map. reflexivity. }
          split; [reflexivity|]. rewrite <- S0 at 1 2 3. apply post_insert; [|rewrite S0; exact FU].
          apply okarr_mid. cbn [fst snd]. rewrite S0. split; [exact HO|]. split; [exact OE|]. split; [exact NF|]. split; [exact P3|]. split; [exact P4|]. split; [exact P5|exact NK]. }
  cbn [place]. fold cont. destruct first.
  - rewrite (FE eq_refl). change (exists A' F tr, cont c e = Some (Ok1 (map fst A') (mkRes (r_el r) (r_miss r) (r_trim r ++ tr) (r_dup r))) /\
    map (fun p => (bk (fst p), snd p)) tr = map (fun s => (endkey s, c_ix s)) (filter cutb F) /\
    post (pend c (e :: R) ++ kept A) (map idn (c :: map fst A)) A A' F). apply CONT; try assumption. cbn [length] in HF. lia.
  - pose proof (cur_next c e R HC) as NX. destruct R as [|e1 R1].
    + destruct NX as (ps & N1 & N2). rewrite N1, N2. exists A, [c].
      exists (if cutb c then [(e', c_ix c)] else []). split.
      { destruct (cutb c); [reflexivity|rewrite <- RR; reflexivity]. }
      split.
      { cbn [filter]. destruct (cutb c); [|reflexivity]. cbn [map fst snd]. pose proof (cur_end c e [] HC) as CE. cbn in CE. rewrite CE, BE. reflexivity. }
      unfold post. split; [exact HO|]. split; [exact HL|]. split; [intros x HX; apply in_app_iff; auto|]. split; [intros x HX; left; exact HX|].
      split; [auto|]. split; [auto|].
      assert (PM : Permutation (map fst A ++ [c]) (c :: map fst A)) by (symmetry; apply Permutation_cons_append).
      split; [|split].
      * apply (Permutation_NoDup (l := map c_key (c :: map fst A))); [apply Permutation_map; symmetry; exact PM|]. cbn [map]. constructor.
        -- rewrite map_map. exact NK.
        -- apply okarr_keys. exact HO.
      * intros s HS. eapply Permutation_in; [apply Permutation_map; exact PM|exact HS].
      * intros s HS. left. eapply Permutation_in; [apply Permutation_map; symmetry; exact PM|exact HS].
    + destruct NX as (ps & N1 & N2). rewrite N1. 
      destruct (CONT (set_ps c ps) e1 R1 N2 NF NK ltac:(cbn [length] in HF; lia)) as (A' & F & tr & E1 & E2 & E3).
      exists A', F, tr. split; [exact E1|]. split; [exact E2|exact E3].
Qed.
End Phase.
