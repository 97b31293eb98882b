(* First phase of smget over all the keys *)
From Coq Require Import Sorting.Sorted Sorting.Permutation.
From Verif Require Import Base UtilModel BtModel BtSpec BtOrder BtLevel BtFind BtSplit BtMerge BtMerge2 BtWalk BtGet BtGet2
  BtOps BtKeys BtIns BtRefine BtRun SmgetModel SmgetSpec SmgetScan SmgetList SmgetMerge.
Local Open Scope nat_scope.

(* what the users see of an entry of the hash table *)
Definition content_of (en : entry) : content :=
  match en with
  | Absent => NoKey
  | Other => Foreign
  | Tree readable f t => if readable then Elements f (view t) else Unreadable
  end.

Definition key_ok (st : bytes -> entry) (k : bytes) : Prop := nul_free k /\ match st k with Tree _ _ t => reach t | _ => True end.

Lemma nodup_sum {X} (f : X -> nat) : forall l m : list X, NoDup l -> incl l m -> list_sum (map f l) <= list_sum (map f m).
Proof.
  induction l as [|x l IH]; intros m ND HI; [cbn; lia|]. inversion ND as [|? ? N1 N2]; subst.
  destruct (in_split x m (HI x (or_introl eq_refl))) as (m1 & m2 & ->).
  assert (HI2 : incl l (m1 ++ m2)).
  { intros y HY. specialize (HI y (or_intror HY)). apply in_app_iff in HI. apply in_app_iff. destruct HI as [HI|[<-|HI]]; auto. contradiction. }
  specialize (IH _ N2 HI2). rewrite !map_app, !list_sum_app in *. cbn [map]. change (list_sum (?a :: ?b)) with (a + list_sum b). lia.
Qed.

Lemma filter_short {X} (f : X -> bool) l : length (filter f l) <= length l.
Proof. induction l as [|x l IH]; [cbn; lia|]. cbn [filter]. destruct (f x); cbn [length]; lia. Qed.
Lemma nodup_app {X} (a b : list X) : NoDup (a ++ b) <-> NoDup a /\ NoDup b /\ forall x, In x a -> In x b -> False.
Proof.
  induction a as [|x a IH]; cbn [app].
  - split; [intros H; split; [constructor|]; split; [exact H|intros ? []]|tauto].
  - rewrite !NoDup_cons_iff, IH, in_app_iff. cbn [In]. split.
    + intros (H1 & H2 & H3 & H4). split; [tauto|]. split; [exact H3|]. intros y [<-|HY] HB; [tauto|eauto].
    + intros ((H1 & H2) & H3 & H4). split; [intros [Q|Q]; [tauto|eapply H4; eauto]|]. split; [exact H2|]. split; [exact H3|]. intros y HA HB. eapply H4; eauto.
Qed.
Lemma filter_rev' {X} (f : X -> bool) l : filter f (rev l) = rev (filter f l).
Proof. induction l as [|x l IH]; [reflexivity|]. cbn [rev filter]. rewrite filter_app, IH. cbn [filter]. destruct (f x); cbn [rev]; [reflexivity|apply app_nil_r]. Qed.
Lemma filter_and {X} (f h : X -> bool) l : filter f (filter h l) = filter (fun x => h x && f x) l.
Proof. induction l as [|x l IH]; [reflexivity|]. cbn [filter]. destruct (h x); cbn [filter andb]; [destruct (f x); rewrite IH; reflexivity|exact IH]. Qed.

Lemma hits_walk g fl E : hits g fl E = filter (matches fl) (walk_of g E).
Proof. unfold hits, walk_of. cbv zeta. destruct (desc g); [rewrite filter_rev', filter_and; reflexivity|rewrite filter_and; reflexivity]. Qed.

Section Keys.
Variables (g : range) (fl : option efilter) (req : nat) (unique : bool) (st : bytes -> entry).
Hypothesis OKF : ofilter_ok fl.
Hypothesis REQ : 0 < req.
Notation dsc := (desc g).
Notation rt := (range_type g).
Definition sv (k : bytes) : content := content_of (st k).

(* the scans that take part *)
Definition src (ix : nat) (k : bytes) (en : entry) : list scan :=
  match en with
  | Tree true f t => if out_of_range (view t) g then [] else match walk_of g (contents t) with [] => [] | _ => [mkSc k f t (mkPosi None 0 false) ix] end
  | _ => []
  end.
Fixpoint srcs (ix : nat) (ks : list bytes) : list scan := match ks with [] => [] | k :: r => src ix k (st k) ++ srcs (S ix) r end.

Definition wl (s : scan) : nat := length (walk g s).

Lemma src_size ix k : key_ok st k -> list_sum (map wl (src ix k (st k))) <= size_of (st k).
Proof.
  intros (_ & HK). unfold src, size_of. destruct (st k) as [| |rd f t]; try (cbn; lia). destruct rd; [|cbn; lia]. destruct (out_of_range (view t) g); [cbn; lia|].
  destruct (walk_of g (contents t)) as [|x w] eqn:E; [cbn; lia|]. cbn [map]. change (list_sum [?x]) with (x + 0). unfold wl, walk. cbn [c_t]. rewrite Nat.add_0_r.
  transitivity (length (contents t)).
  - unfold walk_of. destruct dsc; rewrite ?rev_length; apply filter_short.
  - destruct (inv_cases _ _ (reach_inv t HK)) as [(_ & E2 & _)|(HB & _)]; [rewrite E2; cbn; lia|].
    rewrite (tree_total _ _ (btree_tree _ _ HB)). lia.
Qed.

Lemma src_key ix k s : In s (src ix k (st k)) -> c_key s = k /\ c_ix s = ix /\ idn s = s.
Proof.
  unfold src. destruct (st k) as [| |rd f t]; try (intros []). destruct rd; [|intros []]. destruct (out_of_range (view t) g); [intros []|].
  destruct (walk_of g (contents t)); [intros []|]. intros [<-|[]]. auto.
Qed.

Definition inv1 (X : list hit) (S : list scan) (A : list (scan * (elem * list elem))) (F : list scan) : Prop :=
  okarr g fl unique A /\ length A <= req /\
  (forall x, In x (kept fl A) -> In x X) /\
  (forall x, In x X -> In x (kept fl A) \/ lost g req unique A x) /\
  NoDup (map c_key (map fst A ++ F)) /\
  incl (map idn (map fst A ++ F)) S /\
  (forall s, In s S -> In s (map idn (map fst A ++ F)) \/ low g req A (endkey g s)).

Lemma key_idn l : map c_key (map idn l) = map c_key l.
Proof. rewrite map_map. reflexivity. Qed.

(* a scan placed *)
Lemma inv1_place X S A F c L A' F' : inv1 X S A F -> ~ In (c_key c) (map c_key S) ->
  post g fl req unique (pend fl c L ++ kept fl A) (map idn (c :: map fst A)) A A' F' ->
  inv1 (X ++ pend fl c L) (S ++ [idn c]) A' (F ++ F').
Proof.
  intros (H1 & H2 & H3 & H4 & H5 & H6 & H7) NK (P1 & P2 & P3 & P4 & P5 & P6 & P7 & P8 & P9). unfold inv1.
  assert (KS : forall s, In s (map fst A ++ F) -> In (c_key s) (map c_key S)).
  { intros s HS. rewrite <- key_idn in *. change (c_key s) with (c_key (idn (idn s))). rewrite map_map. apply (in_map (fun s => c_key (idn s)) S (idn s)). apply H6. apply in_map. exact HS. }
  assert (FK : forall s, In s (map fst A' ++ F') -> exists s0, In s0 (c :: map fst A) /\ idn s0 = idn s).
  { intros s HS. pose proof (P8 (idn s) (in_map idn _ _ HS)) as Q. apply in_map_iff in Q. destruct Q as (s0 & E & HS0). exists s0. auto. }
  split; [exact P1|]. split; [exact P2|].
  split; [intros x HX; apply P3 in HX; apply in_app_iff in HX; apply in_app_iff; destruct HX as [HX|HX]; auto|].
  split.
  { intros x HX. apply in_app_iff in HX. destruct HX as [HX|HX].
    - destruct (H4 x HX) as [Q|Q]; [|right; apply P5; exact Q]. apply P4. apply in_app_iff. auto.
    - apply P4. apply in_app_iff. auto. }
  split.
  { apply (Permutation_NoDup (l := map c_key (map fst A' ++ F') ++ map c_key F)).
    - rewrite <- map_app. apply Permutation_map. rewrite <- app_assoc. apply Permutation_app_head. apply Permutation_app_comm.
    - apply nodup_app. split; [exact P7|]. split.
      + rewrite map_app in H5. apply nodup_app in H5. tauto.
      + intros k HK HF. apply in_map_iff in HK. destruct HK as (s & <- & HS). destruct (FK s HS) as (s0 & [<-|HS0] & E).
        * apply NK. assert (EK : c_key c = c_key s) by (change (c_key (idn c) = c_key (idn s)); congruence). rewrite EK. apply in_map_iff in HF. destruct HF as (f & <- & HF).
          apply KS. apply in_app_iff. auto.
        * assert (EK : c_key s0 = c_key s) by (change (c_key (idn s0) = c_key (idn s)); congruence). rewrite <- EK in HF. rewrite map_app in H5. apply nodup_app in H5. destruct H5 as (_ & _ & H5).
          apply (H5 (c_key s0)); [apply in_map; exact HS0|exact HF]. }
  split.
  { intros s HS. rewrite !map_app, !in_app_iff in HS. apply in_app_iff. destruct HS as [HS|[HS|HS]].
    - assert (Q : In s (map idn (map fst A' ++ F'))) by (rewrite map_app; apply in_app_iff; auto). apply P8 in Q. cbn [map In] in Q. destruct Q as [Q|Q]; [right; left; exact Q|].
      left. apply H6. rewrite map_app. apply in_app_iff. auto.
    - left. apply H6. rewrite map_app. apply in_app_iff. auto.
    - assert (Q : In s (map idn (map fst A' ++ F'))) by (rewrite map_app; apply in_app_iff; auto). apply P8 in Q. cbn [map In] in Q. destruct Q as [Q|Q]; [right; left; exact Q|].
      left. apply H6. rewrite map_app. apply in_app_iff. auto. }
  assert (SUB : forall s, In s (map idn (map fst A' ++ F')) -> In s (map idn (map fst A' ++ F ++ F'))).
  { intros s HS. rewrite !map_app, !in_app_iff in *. tauto. }
  intros s HS. apply in_app_iff in HS. destruct HS as [HS|[<-|[]]].
  - destruct (H7 s HS) as [Q|Q]; [|right; apply P6; exact Q]. rewrite map_app in Q. apply in_app_iff in Q. destruct Q as [Q|Q].
    + destruct (P9 s) as [W|W]; [right; exact Q|left; apply SUB; exact W|right; exact W].
    + left. rewrite !map_app, !in_app_iff. auto.
  - destruct (P9 (idn c)) as [W|W]; [left; reflexivity|left; apply SUB; exact W|right; exact W].
Qed.

Lemma inv1_more X S A F : inv1 X S A F -> inv1 (X ++ []) (S ++ []) A (F ++ []).
Proof. rewrite !app_nil_r. auto. Qed.

Lemma good_reach t : reach t -> b_n t <> 0 -> good t.
Proof.
  intros HR HN. pose proof (reach_inv t HR) as HI. destruct (inv_cases _ _ HI) as [(_ & _ & E)|(HB & _)]; [congruence|]. split; [exact HB|]. apply (i_sorted _ _ HI).
Qed.

Definition tr_of (F : list scan) : list (bkey * nat) := map (fun s => (endkey g s, c_ix s)) (filter (cutb g) F).
Definition pairs (tr : list (elem * nat)) : list (bkey * nat) := map (fun p => (bk (fst p), snd p)) tr.

Lemma rem_le A : Forall (okent g fl) A -> rem A + length A <= list_sum (map wl (map fst A)).
Proof.
  induction A as [|a A IH]; intros HA; [cbn; lia|]. apply Forall_cons_iff in HA. destruct HA as ((HC & _) & HA). specialize (IH HA).
  destruct a as (c & e & R). cbn [fst snd map length] in *. unfold rem in *. cbn [map fst snd]. change (list_sum (?x :: ?y)) with (x + list_sum y).
  destruct (cur_suffix g c e R HC) as (D & HW). assert (Q : S (length R) <= wl c) by (unfold wl; rewrite HW, app_length; cbn [length]; lia). lia.
Qed.

Lemma inv1_rem X S A F : inv1 X S A F -> rem A + length A <= list_sum (map wl S).
Proof.
  intros (H1 & _ & _ & _ & H5 & H6 & _). transitivity (list_sum (map wl (map idn (map fst A)))).
  - rewrite (map_map idn). apply rem_le. apply H1.
  - apply nodup_sum.
    + rewrite map_app in H5. apply nodup_app in H5. destruct H5 as (H5 & _). rewrite <- (key_idn (map fst A)) in H5. eapply NoDup_map_inv. exact H5.
    + intros s HS. apply H6. rewrite map_app. apply in_app_iff. auto.
Qed.

Lemma one_key_spec fuel ix k A F X S r : key_ok st k -> inv1 X S A F -> ~ In k (map c_key S) -> list_sum (map wl S) + size_of (st k) < fuel ->
  match key_error g (sv k) with
  | Some e => one_key rt g fl req unique fuel ix k (st k) (map fst A) r = Some (Err1 e)
  | None => exists A' F' tr,
      one_key rt g fl req unique fuel ix k (st k) (map fst A) r =
        Some (Ok1 (map fst A') (mkRes (r_el r) (r_miss r ++ key_miss g ix (sv k)) (r_trim r ++ tr) (r_dup r))) /\
      pairs tr = tr_of F' /\ inv1 (X ++ key_hits g fl ix k (sv k)) (S ++ src ix k (st k)) A' (F ++ F')
  end.
Proof.
  intros HK HI NK HF.
  assert (RR : forall r : smres, r = mkRes (r_el r) (r_miss r ++ []) (r_trim r ++ []) (r_dup r)) by (intros r1; rewrite !app_nil_r; destruct r1; reflexivity).
  pose proof (src_size ix k HK) as SZ. destruct HK as (NF & HK). unfold sv, one_key in *. destruct (st k) as [| |rd f t]; cbn [content_of key_error] in *.
  - exists A, [], []. split; [unfold add_miss; cbn [key_miss]; rewrite app_nil_r; reflexivity|]. split; [reflexivity|]. cbn [key_hits src]. apply inv1_more. exact HI.
  - reflexivity.
  - destruct rd; cbn [negb content_of key_error].
    2: { exists A, [], []. split; [unfold add_miss; cbn [key_miss]; rewrite app_nil_r; reflexivity|]. split; [reflexivity|]. cbn [key_hits src]. apply inv1_more. exact HI. }
    pose proof (reach_inv t HK) as IV. change (s_el (view t)) with (contents t). change (s_bad_type (view t) (r_from g)) with (s_bad_type (absE t (contents t)) (r_from g)). rewrite <- bad_type_spec.
    destruct (Nat.eqb_spec (b_n t) 0) as [Z|Z].
    { destruct (inv_cases _ _ IV) as [(_ & E & _)|(_ & _ & _ & E)]; [|lia]. rewrite E. exists A, [], [].
      assert (OR : out_of_range (view t) g = false).
      { unfold out_of_range. change (s_el (view t)) with (contents t). rewrite E. unfold low_out, high_out, s_first, s_last. cbn. destruct (b_trim t); [|reflexivity]. cbn [andb].
        destruct (b_ovf t); try reflexivity; apply andb_false_r. }
      cbn [key_miss key_hits src]. rewrite OR. change (s_el (view t)) with (contents t). rewrite E.
      split; [rewrite <- RR; reflexivity|]. split; [reflexivity|]. unfold hits, walk_of. cbn. destruct dsc; cbn; apply inv1_more; exact HI. }
    pose proof (good_reach t HK Z) as GT. destruct (inv_cases _ _ IV) as [(_ & _ & E)|(HB & NE & _)]; [congruence|].
    destruct (contents t) as [|x0 l0] eqn:EC; [congruence|]. rewrite <- EC in *. clear x0 l0 EC.
    destruct (bad_type t (r_from g)); [reflexivity|].
    destruct GT as (_ & HS). destruct (scan_first t (contents t) g HB HS) as (o & ps & p & FF & SF). rewrite FF.
    cbn [key_miss key_hits]. change (s_el (view t)) with (contents t). rewrite hits_walk.
    change (mkSp (contents t) (b_max t) (b_ovf t) (b_trim t) (b_type t) (b_range t)) with (view t) in SF.
    destruct o as [e|].
    + destruct SF as (O1 & R & W1 & W2). rewrite O1. cbn [src] in *. destruct (out_of_range (view t) g) eqn:OR.
      * exists A, [], []. split; [unfold add_miss; rewrite app_nil_r; reflexivity|]. split; [reflexivity|]. apply inv1_more. exact HI.
      * rewrite W1 in *. set (c := mkSc k f t (mkPosi (pn ps) (px ps) false) ix).
        assert (CC : cur g c e R) by (split; [split; assumption|exact W2]).
        assert (NA : ~ In (c_key c) (map (fun a : scan * (elem * list elem) => c_key (fst a)) A)).
        { intros Q. apply NK. apply in_map_iff in Q. destruct Q as (a & E & HA). change k with (c_key c). rewrite <- E. change (c_key (fst a)) with (c_key (idn (fst a))). apply in_map.
          destruct HI as (_ & _ & _ & _ & _ & H6 & _). apply H6. apply in_map. apply in_app_iff. left. apply in_map. exact HA. }
        pose proof (inv1_rem _ _ _ _ HI) as RM.
        assert (WS : 1 + length R <= size_of (Tree true f t)).
        { etransitivity; [|exact SZ]. cbn [map]. change (list_sum [?x]) with (x + 0). unfold wl, walk. cbn [c_t]. rewrite W1. cbn [length]. lia. }
        destruct (place_spec g fl req unique OKF REQ fuel c e e R A true r CC eq_refl (fun _ => eq_refl)) as (A' & F' & tr & E1 & E2 & E3).
        { apply HI. } { apply HI. } { exact NF. } { exact NA. } { cbn [length]. lia. }
        exists A', F', tr. split; [rewrite app_nil_r; exact E1|]. split; [exact E2|]. exact (inv1_place X S A F c (e :: R) A' F' HI NK E3).
    + destruct SF as (W1 & W2). rewrite W2. cbn [src] in *. rewrite W1 in *. cbn [filter map]. destruct (out_of_range (view t) g) eqn:OR.
      * exists A, [], []. split; [unfold add_miss; rewrite app_nil_r; reflexivity|]. split; [reflexivity|]. apply inv1_more. exact HI.
      * exists A, [], []. split; [rewrite <- RR; reflexivity|]. split; [reflexivity|]. apply inv1_more. exact HI.
Qed.

Lemma pairs_app a b : pairs (a ++ b) = pairs a ++ pairs b.
Proof. unfold pairs. apply map_app. Qed.
Lemma tr_of_app a b : tr_of (a ++ b) = tr_of a ++ tr_of b.
Proof. unfold tr_of. rewrite filter_app, map_app. reflexivity. Qed.

Lemma keys1_spec fuel : forall ks ix A F X S r, Forall (key_ok st) ks -> NoDup ks -> inv1 X S A F -> (forall k, In k ks -> ~ In k (map c_key S)) ->
  list_sum (map wl S) + list_sum (map (fun k => size_of (st k)) ks) < fuel ->
  match first_error sv g ks with
  | Some e => keys1 rt g fl req unique fuel st ix ks (map fst A) r = Some (Err1 e)
  | None => exists A' F' tr,
      keys1 rt g fl req unique fuel st ix ks (map fst A) r =
        Some (Ok1 (map fst A') (mkRes (r_el r) (r_miss r ++ misses sv g ix ks) (r_trim r ++ tr) (r_dup r))) /\
      pairs tr = tr_of F' /\ inv1 (X ++ all_hits sv g fl ix ks) (S ++ srcs ix ks) A' (F ++ F')
  end.
Proof.
  induction ks as [|k ks IH]; intros ix A F X S r HO ND HI NK HF; cbn [first_error keys1].
  - exists A, [], []. split; [cbn [misses]; rewrite !app_nil_r; destruct r; reflexivity|]. split; [reflexivity|]. cbn [all_hits srcs]. apply inv1_more. exact HI.
  - apply Forall_cons_iff in HO. destruct HO as (HK & HO). inversion ND as [|? ? N1 N2]; subst. cbn [map] in HF. change (list_sum (?x :: ?y)) with (x + list_sum y) in HF.
    pose proof (one_key_spec fuel ix k A F X S r HK HI (NK k (or_introl eq_refl)) ltac:(lia)) as OK1.
    destruct (key_error g (sv k)) as [e|]; [rewrite OK1; reflexivity|]. destruct OK1 as (A1 & F1 & tr1 & E1 & T1 & I1). rewrite E1.
    assert (NK1 : forall k', In k' ks -> ~ In k' (map c_key (S ++ src ix k (st k)))).
    { intros k' HK' Q. rewrite map_app in Q. apply in_app_iff in Q. destruct Q as [Q|Q]; [eapply NK; [right; exact HK'|exact Q]|].
      apply in_map_iff in Q. destruct Q as (s & E & HS). apply src_key in HS. destruct HS as (HS & _). apply N1. congruence. }
    pose proof (src_size ix k HK) as SZ.
    specialize (IH (1 + ix) A1 (F ++ F1) _ _ (mkRes (r_el r) (r_miss r ++ key_miss g ix (sv k)) (r_trim r ++ tr1) (r_dup r)) HO N2 I1 NK1).
    rewrite map_app, list_sum_app in IH. specialize (IH ltac:(lia)).
    change (Datatypes.S ix) with (1 + ix). destruct (first_error sv g ks) as [e|]; [exact IH|]. destruct IH as (A2 & F2 & tr2 & E2 & T2 & I2).
    exists A2, (F1 ++ F2), (tr1 ++ tr2). cbn [r_el r_miss r_trim r_dup] in E2. split; [|split].
    + rewrite E2. cbn [misses]. change (Datatypes.S ix) with (1 + ix). rewrite <- !app_assoc. reflexivity.
    + rewrite pairs_app, tr_of_app, T1, T2. reflexivity.
    + cbn [all_hits srcs]. change (Datatypes.S ix) with (1 + ix). rewrite !app_assoc. exact I2.
Qed.

Lemma keys1_start : inv1 [] [] [] [].
Proof.
  unfold inv1, okarr, kept. cbn. split; [split; [constructor|]; split; [constructor|]; split; [constructor|]; split; constructor|].
  split; [lia|]. split; [intros ? []|]. split; [intros ? []|]. split; [constructor|]. split; [apply incl_refl|intros ? []].
Qed.
End Keys.
