(* What a range query selects, deletes and signals *)
From Verif Require Import Base UtilModel BtModel BtSpec BtOrder BtLevel BtFind BtSplit BtMerge BtMerge2 BtWalk.
Local Open Scope nat_scope.

(* ---------- the walk over a plain list ---------- *)

Section Aw.
Variables (fw : bool) (rg : option range) (fl : option efilter) (ofs cnt : nat).
Notation aw := (aw fw rg fl ofs cnt).
Notation beyond := (beyond fw rg).
Notation at_end := (at_end rg).

(* later elements are further away *)
Fixpoint away (V : list elem) : Prop :=
  match V with
  | [] => True
  | e :: V' => ((beyond e = true \/ at_end e = true) -> forall x, In x V' -> beyond x = true) /\ away V'
  end.

Definition got (skip : nat) (acc V : list elem) : list elem :=
  let h := skipn (ofs - skip) (filter (fun e => negb (beyond e) && passes fl e) V) in
  acc ++ (if Nat.eqb cnt 0 then h else firstn (cnt - length acc) h).
Definition ran_out (eq : bool) (skip : nat) (acc V : list elem) : bool :=
  (Nat.eqb cnt 0 || Nat.ltb (length acc + length (skipn (ofs - skip) (filter (fun e => negb (beyond e) && passes fl e) V))) cnt) &&
  forallb (fun e => negb (beyond e)) V &&
  match V with [] => true | [_] => negb eq | _ => negb (match rev V with x :: _ => at_end x | [] => false end) end.

Lemma filter_none {A} (f : A -> bool) l : (forall x, In x l -> f x = false) -> filter f l = [].
Proof. induction l as [|x l IH]; intros H; [reflexivity|]. cbn [filter]. rewrite (H x (or_introl eq_refl)). apply IH. intros y HY. apply H. right. exact HY. Qed.

Lemma rev_last_cons {A B} (x y : A) V (f : A -> B) d : match rev (x :: y :: V) with z :: _ => f z | [] => d end = match rev (y :: V) with z :: _ => f z | [] => d end.
Proof. cbn [rev]. destruct (rev V ++ [y]) eqn:E; [destruct (rev V); discriminate|]. reflexivity. Qed.

Lemma aw_spec : forall V eq skip acc, away V -> (forall e, hd_error V = Some e -> beyond e = false /\ (eq = true -> at_end e = true)) ->
  V <> [] -> skip <= ofs -> (skip < ofs -> acc = []) -> (cnt = 0 \/ length acc < cnt) ->
  aw V eq skip acc = (got skip acc V, ran_out eq skip acc V).
Proof.
  induction V as [|e V IH]; intros eq skip acc HA HH NE HS HSA HC; [congruence|]. cbn [away] in HA. destruct HA as (HA1 & HA2).
  destruct (HH e eq_refl) as (HB & HE). cbn [BtWalk.aw].
  set (hit := passes fl e). set (tk := hit && negb (skip <? ofs)).
  set (acc1 := if tk then acc ++ [e] else acc). set (skip1 := if tk then skip else if hit then S skip else skip).
  (* the selection after this element *)
  assert (STEP : forall W, tk && (0 <? cnt) && (cnt <=? length acc1) = false ->
     skip1 <= ofs /\ (skip1 < ofs -> acc1 = []) /\ (cnt = 0 \/ length acc1 < cnt) /\ got skip acc (e :: W) = got skip1 acc1 W /\
     (Nat.eqb cnt 0 || Nat.ltb (length acc + length (skipn (ofs - skip) (filter (fun e => negb (beyond e) && passes fl e) (e :: W)))) cnt) =
     (Nat.eqb cnt 0 || Nat.ltb (length acc1 + length (skipn (ofs - skip1) (filter (fun e => negb (beyond e) && passes fl e) W))) cnt)).
  { intros W HN. unfold got. cbn [filter]. rewrite HB. cbn [negb andb]. fold hit. clear IH HH. subst tk acc1 skip1. clearbody hit. destruct hit; cbn [andb] in *; cbv iota in *.
    - destruct (Nat.ltb_spec skip ofs) as [C|C]; cbn [negb] in *; cbv iota in *.
      + split; [lia|]. split; [auto|]. split; [exact HC|]. replace (ofs - skip) with (S (ofs - S skip)) by lia. cbn [skipn]. auto.
      + split; [lia|]. split; [lia|]. replace (ofs - skip) with 0 by lia. cbn [skipn]. rewrite app_length in *. cbn [length] in *.
        assert (HC' : cnt = 0 \/ length acc + 1 < cnt).
        { destruct cnt as [|c]; [auto|]. right. change (0 <? S c) with true in HN. cbn [andb] in HN. apply Nat.leb_gt in HN. lia. }
        split; [exact HC'|]. split.
        * rewrite <- app_assoc. f_equal. cbn [app]. destruct (Nat.eqb_spec cnt 0) as [Z|Z]; [reflexivity|].
          replace (cnt - length acc) with (S (cnt - (length acc + 1))) by lia. reflexivity.
        * f_equal. f_equal. lia.
    - cbv iota in *. auto. }
  destruct (tk && (0 <? cnt) && (cnt <=? length acc1)) eqn:EC.
  { unfold tk in EC. destruct hit eqn:EH; [|discriminate]. destruct (Nat.ltb_spec skip ofs) as [C|C]; [discriminate|]. cbn [negb andb] in EC.
    apply andb_true_iff in EC. destruct EC as (C1 & C2). apply Nat.ltb_lt in C1. apply Nat.leb_le in C2.
    unfold acc1 in *. unfold tk in *. replace (skip <? ofs) with false in * by (symmetry; apply Nat.ltb_ge; lia). cbn [negb andb] in *.
    rewrite app_length in C2. cbn [length] in C2. destruct HC as [HC|HC]; [lia|].
    unfold got, ran_out. cbn [filter]. rewrite HB. fold hit. rewrite EH. cbn [negb andb]. replace (ofs - skip) with 0 by lia. cbn [skipn length].
    assert (CZ : Nat.eqb cnt 0 = false) by (apply Nat.eqb_neq; lia). rewrite CZ. cbn [orb].
    replace (cnt - length acc) with 1 by lia. cbn [firstn].
    match goal with |- context [?a <? cnt] => replace (a <? cnt) with false by (symmetry; apply Nat.ltb_ge; lia) end. reflexivity. }
  assert (EMP : (beyond e = true \/ at_end e = true) -> got skip acc (e :: V) = acc1).
  { intros HX. specialize (HA1 HX). destruct (STEP V eq_refl) as (_ & _ & _ & G & _). rewrite G. unfold got.
    rewrite filter_none, skipn_nil, firstn_nil; [destruct (Nat.eqb cnt 0); apply app_nil_r|]. intros x HI. rewrite (HA1 x HI). reflexivity. }
  destruct eq eqn:EQ.
  { specialize (HE eq_refl). rewrite EMP by auto. f_equal. unfold ran_out. destruct V as [|y V]; [rewrite andb_false_r; reflexivity|].
    cbn [forallb]. rewrite (HA1 (or_intror HE) y (or_introl eq_refl)). cbn [negb andb]. rewrite andb_false_r, andb_false_r. reflexivity. }
  destruct V as [|y V].
  { destruct (STEP [] eq_refl) as (G1 & G2 & G3 & G4 & G5). rewrite G4. unfold got, ran_out. rewrite G5. cbn [filter forallb negb]. rewrite HB.
    rewrite skipn_nil, firstn_nil. cbn [length negb andb]. f_equal; [destruct (Nat.eqb cnt 0); symmetry; apply app_nil_r|].
    rewrite !andb_true_r. destruct G3 as [->|G3]; [reflexivity|]. rewrite Nat.add_0_r. symmetry. apply orb_true_iff. right. apply Nat.ltb_lt. exact G3. }
  destruct (STEP (y :: V) eq_refl) as (G1 & G2 & G3 & G4 & G5). destruct (beyond y) eqn:EY.
  - rewrite G4. f_equal.
    + unfold got. assert (F : filter (fun e => negb (beyond e) && passes fl e) (y :: V) = []).
      { apply filter_none. intros x HI. destruct HI as [<-|HI]; [rewrite EY; reflexivity|]. cbn [away] in HA2.
        rewrite (proj1 HA2 (or_introl EY) x HI). reflexivity. }
      rewrite F, skipn_nil, firstn_nil. destruct (Nat.eqb cnt 0); symmetry; apply app_nil_r.
    + unfold ran_out. cbn [forallb]. rewrite EY. cbn [negb andb]. rewrite andb_false_r, andb_false_r. reflexivity.
  - rewrite IH; [|exact HA2| |discriminate|exact G1|exact G2|exact G3].
    + rewrite G4. f_equal. unfold ran_out. rewrite G5.
      assert (FB : forallb (fun e => negb (beyond e)) (e :: y :: V) = forallb (fun e => negb (beyond e)) (y :: V)) by (cbn [forallb]; rewrite HB; reflexivity).
      rewrite FB. f_equal. destruct V as [|z V]; [reflexivity|]. f_equal. symmetry. exact (rev_last_cons e y (z :: V) (BtWalk.at_end rg) false).
    + intros x HX. cbn in HX. injection HX as <-. split; [exact EY|]. auto.
Qed.
End Aw.

(* ---------- elements in walking order ---------- *)

Definition lt_dir (fw : bool) (a b : bkey) : bool := if fw then klt a b else klt b a.
Fixpoint mono (fw : bool) (V : list elem) : Prop :=
  match V with [] => True | e :: V' => (forall x, In x V' -> lt_dir fw (bk e) (bk x) = true) /\ mono fw V' end.

Lemma sorted_app_iff a b : sorted (a ++ b) <-> sorted a /\ sorted b /\ forall x y, In x a -> In y b -> klt (bk x) (bk y) = true.
Proof.
  induction a as [|e a IH]; cbn [app sorted].
  - split; [intros H; repeat split; auto; intros x y []|tauto].
  - rewrite IH. split.
    + intros (H1 & H2 & H3 & H4). repeat split; auto.
      * intros x HX. apply H1. apply in_app_iff. auto.
      * intros x y [<-|HX] HY; [apply H1; apply in_app_iff; auto|]. apply H4; assumption.
    + intros ((H1 & H2) & H3 & H4). repeat split; auto.
      * intros x HX. apply in_app_iff in HX. destruct HX as [HX|HX]; [auto|]. apply H4; [left; reflexivity|exact HX].
      * intros x y HX HY. apply H4; [right; exact HX|exact HY].
Qed.

Lemma mono_sorted V : mono true V <-> sorted V.
Proof. induction V as [|e V IH]; cbn; [tauto|]. rewrite IH. tauto. Qed.

Lemma mono_rev V : sorted V -> mono false (rev V).
Proof.
  induction V as [|e V IH] using rev_ind; intros H; [exact I|]. rewrite rev_app_distr. cbn [rev app mono].
  apply sorted_app_iff in H. destruct H as (H1 & _ & H2). split; [|apply IH; exact H1].
  intros x HX. apply in_rev in HX. cbn. apply H2; [exact HX|left; reflexivity].
Qed.

Lemma sorted_firstn r E : sorted E -> sorted (firstn r E) /\ sorted (skipn r E).
Proof. intros H. rewrite <- (firstn_skipn r E) in H. apply sorted_app_iff in H. tauto. Qed.

Lemma dirlist_mono E fw r : sorted E -> mono fw (dirlist E fw r).
Proof. intros H. unfold dirlist. destruct fw; [apply mono_sorted|apply mono_rev]; apply sorted_firstn; exact H. Qed.

Lemma mono_away fw rg V : mono fw V -> away fw rg V.
Proof.
  induction V as [|e V IH]; intros H; [exact I|]. destruct H as (H1 & H2). split; [|apply IH; exact H2].
  intros HB x HX. specialize (H1 x HX). unfold lt_dir, beyond, at_end in *. destruct rg as [g|]; [|destruct HB; discriminate].
  destruct fw.
  - destruct HB as [HB|HB]; [eapply klt_trans; eassumption|]. apply keq_eq in HB. rewrite <- HB. exact H1.
  - destruct HB as [HB|HB]; [eapply klt_trans; eassumption|]. apply keq_eq in HB. rewrite <- HB. exact H1.
Qed.

(* ---------- the end of the walk ---------- *)

Definition lone (to from : bkey) (l : list elem) (mx : elem) : bool :=
  match l with [x] => keq (bk x) to && keq (bk mx) to && negb (keq (bk x) from) | _ => false end.

Lemma end_of_walk fw g V mx : mono fw (V ++ [mx]) -> lt_dir fw (r_from g) (r_end g) = true ->
  let b := beyond fw (Some g) in let W := V ++ [mx] in
  forallb (fun e => negb (b e)) W && match W with [] => true | [_] => negb false | _ => negb (match rev W with x :: _ => at_end (Some g) x | [] => false end) end =
  lt_dir fw (bk mx) (r_end g) || lone (r_end g) (r_from g) (filter (fun e => negb (b e)) W) mx.
Proof.
  intros HM HL b W.
  assert (BE : forall e, b e = lt_dir fw (r_end g) (bk e)) by (intros e; unfold b, beyond, lt_dir; destruct fw; reflexivity).
  assert (MX : forall x, In x V -> lt_dir fw (bk x) (bk mx) = true).
  { clear - HM. induction V as [|e V IH]; intros x HX; [contradiction|]. destruct HM as (H1 & H2). destruct HX as [<-|HX].
    - apply H1. apply in_app_iff. right. left. reflexivity.
    - apply IH; assumption. }
  assert (TRI : lt_dir fw (r_end g) (bk mx) = true \/ bk mx = r_end g \/ lt_dir fw (bk mx) (r_end g) = true).
  { unfold lt_dir. destruct (klt (r_end g) (bk mx)) eqn:C1; [destruct fw; auto|]. destruct (klt (bk mx) (r_end g)) eqn:C2; [destruct fw; auto|].
    right. left. apply klt_total; assumption. }
  assert (ASY : forall a c, lt_dir fw a c = true -> lt_dir fw c a = false).
  { intros a c H. unfold lt_dir in *. destruct fw; apply klt_asym; exact H. }
  assert (IRR : forall a, lt_dir fw a a = false) by (intros a; unfold lt_dir; destruct fw; apply klt_irrefl).
  assert (TRN : forall a c d, lt_dir fw a c = true -> lt_dir fw c d = true -> lt_dir fw a d = true).
  { intros a c d H1 H2. unfold lt_dir in *. destruct fw; eapply klt_trans; eassumption. }
  assert (KF : forall e, at_end (Some g) e = keq (bk e) (r_end g)) by reflexivity.
  destruct TRI as [C|[C|C]].
  - (* the last element is beyond the range *)
    rewrite (ASY _ _ C). assert (FF : forallb (fun e => negb (b e)) W = false).
    { unfold W. rewrite forallb_app. cbn [forallb]. rewrite BE, C. cbn [negb andb]. apply andb_false_r. }
    rewrite FF. cbn [andb orb]. unfold lone. destruct (filter (fun e => negb (b e)) W) as [|x [|]]; try reflexivity.
    assert (NK : keq (bk mx) (r_end g) = false).
    { destruct (keq (bk mx) (r_end g)) eqn:EK; [|reflexivity]. apply keq_eq in EK. rewrite EK, IRR in C. discriminate. }
    rewrite NK. cbn [andb]. rewrite andb_false_r. reflexivity.
  - (* it is the end of the range *)
    rewrite <- C, IRR. cbn [orb].
    assert (NB : forall x, In x W -> negb (b x) = true).
    { intros x HX. apply negb_true_iff. rewrite BE, <- C. unfold W in HX. apply in_app_iff in HX.
      destruct HX as [HX|[<-|[]]]; [apply ASY; apply MX; exact HX|apply IRR]. }
    assert (FF : forallb (fun e => negb (b e)) W = true) by (apply forallb_forall; exact NB).
    rewrite FF. cbn [andb]. assert (FE : filter (fun e => negb (b e)) W = W).
    { clear - NB. induction W as [|x W IH]; [reflexivity|]. cbn [filter]. rewrite (NB x (or_introl eq_refl)). f_equal. apply IH.
      intros y HY. apply NB. right. exact HY. }
    rewrite FE. unfold W. destruct V as [|x V].
    + cbn [app lone]. rewrite keq_refl. cbn [andb]. destruct (keq (bk mx) (r_from g)) eqn:EK; [|reflexivity].
      apply keq_eq in EK. rewrite EK in C. rewrite C, IRR in HL. discriminate.
    + destruct V as [|y V]; cbn [app lone rev].
      * rewrite KF, C, keq_refl. reflexivity.
      * rewrite rev_app_distr. cbn [rev app]. rewrite KF, C, keq_refl. reflexivity.
  - (* it lies before the end of the range *)
    rewrite C. cbn [orb].
    assert (NB : forall x, In x W -> negb (b x) = true).
    { intros x HX. apply negb_true_iff. rewrite BE. unfold W in HX. apply in_app_iff in HX.
      destruct HX as [HX|[<-|[]]]; [|apply ASY; exact C]. apply ASY. eapply TRN; [apply MX; exact HX|exact C]. }
    assert (FF : forallb (fun e => negb (b e)) W = true) by (apply forallb_forall; exact NB).
    rewrite FF. cbn [andb].
    assert (NK : at_end (Some g) mx = false).
    { rewrite KF. destruct (keq (bk mx) (r_end g)) eqn:EK; [|reflexivity]. apply keq_eq in EK. rewrite EK, IRR in C. discriminate. }
    unfold W. destruct V as [|x V]; [reflexivity|]. destruct V as [|y V]; cbn [app rev]; [rewrite NK; reflexivity|].
    rewrite rev_app_distr. cbn [rev app]. rewrite NK. reflexivity.
Qed.

(* ---------- selections ---------- *)

Lemma filter_rev' {A} (f : A -> bool) l : filter f (rev l) = rev (filter f l).
Proof.
  induction l as [|x l IH]; [reflexivity|]. cbn [rev filter]. rewrite filter_app, IH. cbn [filter]. destruct (f x); cbn [rev]; [reflexivity|apply app_nil_r].
Qed.

Lemma In_firstn_nth {A} (l : list A) r x : In x (firstn r l) -> exists j, j < r /\ nth_error l j = Some x.
Proof.
  intros H. apply In_nth_error in H. destruct H as [j HJ]. assert (JL : j < length (firstn r l)) by (apply nth_error_Some; rewrite HJ; discriminate).
  rewrite firstn_length in JL. rewrite nth_error_firstn in HJ by lia. exists j. split; [lia|exact HJ].
Qed.
Lemma In_skipn_nth {A} (l : list A) r x : In x (skipn r l) -> exists j, r <= j /\ nth_error l j = Some x.
Proof. intros H. apply In_nth_error in H. destruct H as [j HJ]. rewrite nth_error_skipn in HJ. exists (r + j). split; [lia|exact HJ]. Qed.

Section Sel.
Variables (E : list elem) (g : range) (P : elem -> bool).

Lemma sel_asc r : klt (r_from g) (r_end g) = true -> (forall j x, j < r -> nth_error E j = Some x -> klt (bk x) (r_from g) = true) ->
  (forall j x, r <= j -> nth_error E j = Some x -> kle (r_from g) (bk x) = true) ->
  filter (fun e => in_rg g e && P e) E = filter (fun e => negb (beyond true (Some g) e) && P e) (skipn r E).
Proof.
  intros HL HB HA. rewrite <- (firstn_skipn r E) at 1. rewrite filter_app, filter_none.
  - cbn [app]. apply filter_ext_in. intros x HX. apply In_skipn_nth in HX. destruct HX as (j & J1 & J2).
    specialize (HA j x J1 J2). f_equal. unfold in_rg, inside, lo_of, hi_of, beyond, r_end in *. destruct (r_to g) as [t|]; [|rewrite klt_irrefl in HL; discriminate].
    rewrite HL, HA. cbn [andb]. reflexivity.
  - intros x HX. apply In_firstn_nth in HX. destruct HX as (j & J1 & J2). specialize (HB j x J1 J2).
    unfold in_rg, inside, lo_of, hi_of, r_end in *. destruct (r_to g) as [t|]; [|rewrite klt_irrefl in HL; discriminate].
    rewrite HL. unfold kle at 1. rewrite HB. reflexivity.
Qed.

Lemma sel_dsc r : klt (r_end g) (r_from g) = true -> (forall j x, j < r -> nth_error E j = Some x -> kle (bk x) (r_from g) = true) ->
  (forall j x, r <= j -> nth_error E j = Some x -> klt (r_from g) (bk x) = true) ->
  rev (filter (fun e => in_rg g e && P e) E) = filter (fun e => negb (beyond false (Some g) e) && P e) (rev (firstn r E)).
Proof.
  intros HL HB HA. rewrite filter_rev'. f_equal. rewrite <- (firstn_skipn r E) at 1. rewrite filter_app. rewrite (filter_none _ (skipn r E)).
  - rewrite app_nil_r. apply filter_ext_in. intros x HX. apply In_firstn_nth in HX. destruct HX as (j & J1 & J2).
    specialize (HB j x J1 J2). f_equal. unfold in_rg, inside, lo_of, hi_of, beyond, r_end in *. destruct (r_to g) as [t|]; [|rewrite klt_irrefl in HL; discriminate].
    rewrite (klt_asym _ _ HL), HB, andb_true_r. reflexivity.
  - intros x HX. apply In_skipn_nth in HX. destruct HX as (j & J1 & J2). specialize (HA j x J1 J2).
    unfold in_rg, inside, lo_of, hi_of, r_end in *. destruct (r_to g) as [t|]; [|rewrite klt_irrefl in HL; discriminate].
    rewrite (klt_asym _ _ HL). unfold kle at 2. rewrite HA. cbn [negb]. rewrite andb_false_r. reflexivity.
Qed.
End Sel.

Lemma prune_concat D (L : list (list slot)) E : concat L = map full E -> concat (map (prune D) L) = map full (without D E).
Proof.
  intros H. replace (concat (map (prune D) L)) with (filter (fun s => negb (sel D s)) (concat L)).
  - rewrite H. clear. induction E as [|e E IH]; [reflexivity|]. cbn [map filter without]. unfold without in *. cbn [filter].
    change (sel D (full e)) with (has_key (bk e) D). destruct (has_key (bk e) D); cbn [negb map]; [exact IH|f_equal; exact IH].
  - clear. induction L as [|n L IH]; [reflexivity|]. cbn [concat map]. rewrite filter_app, IH. reflexivity.
Qed.

Lemma level_ext (L L' : level) : length L = length L' -> (forall x, nd L x = nd L' x) -> L = L'.
Proof.
  intros HL H. apply list_ext. intros i. destruct (Nat.ltb_spec i (length L)) as [C|C].
  - rewrite (nth_error_nth' L [] i C), (nth_error_nth' L' [] i) by lia. f_equal. apply H.
  - transitivity (@None node); [|symmetry]; apply nth_error_None; lia.
Qed.

Lemma dirlist_fuel E fw r : length (dirlist E fw r) <= length E.
Proof. unfold dirlist. destruct fw; [rewrite skipn_length; lia|rewrite rev_length, firstn_length; lia]. Qed.

Lemma run_walk (fw : bool) rg fl ofs cnt del T E k i p e : btree T E -> sorted E -> i < used (lev T 0) k -> nth_error E (flat (lev T 0) k i) = Some e ->
  (del = true -> pvalid (tl T) p k) -> beyond fw rg e = false ->
  let V := dirlist E fw (flat (lev T 0) k i) in
  let D := got fw rg fl ofs cnt 0 [] V in
  exists w w', walk (S (total T)) fw rg fl ofs cnt del (mkW T (mkPosi (Some k) i false) k i p 0 0 1 0 []) e = Some w /\
    leave w fw del = Some w' /\ wacc w' = D /\
    (if ran_out fw rg fl ofs cnt false 0 [] V then wc w' = mkPosi None (if fw then 0 else ITEM_COUNT) false else pn (wc w') <> None) /\
    wtot w' = length D /\
    (del = true -> D <> [] -> exists T', node_merge fw (wnodes w') k (wT w') p = Some T' /\ length T' <= length T /\
        (T' = [] /\ without D E = [] \/ btree T' (without D E))).
Proof.
  intros HB HSo HI HE HP HBE V D. pose proof (btree_tree T E HB) as HT. pose proof (proj1 (sorted_incr E) HSo) as HIN.
  destruct T as [|L0 Us0]; [contradiction|]. change (lev (L0 :: Us0) 0) with L0 in *. cbn [tl] in HP.
  pose proof (tree_total _ _ HT) as TT.
  set (w0 := mkW (L0 :: Us0) (mkPosi (Some k) i false) k i p 0 0 1 0 []).
  assert (W0 : winv fw L0 Us0 del k w0).
  { split; [reflexivity|]. destruct del; [|reflexivity]. exists L0, Us0. cbn [wT wc wsk wsi wup wcur wtot wnodes wskip wacc w0].
    destruct HT as (_ & LK & _).
    assert (Z : forall x, prune [] (nd L0 x) = nd L0 x /\ nullify [] (nd L0 x) = nd L0 x /\ selcnt [] (nd L0 x) = 0).
    { intros x. apply none_sel. intros [[]|] _; reflexivity. }
    repeat match goal with |- _ /\ _ => split end; try reflexivity; auto.
    - intros x _. symmetry. apply Z.
    - symmetry. apply Z.
    - symmetry. apply Z.
    - eapply used_lt; exact HI.
    - lia.
    - destruct fw; lia.
    - intros d []. }
  destruct (walk_spec fw rg fl ofs cnt L0 Us0 E del k HT HIN (S (total (L0 :: Us0))) w0 i false (flat L0 k i) e W0) as (w & R1 & R2 & R3 & R4);
    try reflexivity; auto.
  { intros d []. }
  { rewrite TT. pose proof (dirlist_fuel E fw (flat L0 k i)). lia. }
  fold V in R3, R4. cbn [wskip wacc w0] in R3, R4.
  assert (HA : aw fw rg fl ofs cnt V false 0 [] = (D, ran_out fw rg fl ofs cnt false 0 [] V)).
  { destruct (dirlist_cons E fw (flat L0 k i) e HE) as (V' & EV & _). apply aw_spec.
    - apply mono_away. apply dirlist_mono. exact HSo.
    - unfold V. rewrite EV. cbn. intros x HX. injection HX as <-. split; [exact HBE|discriminate].
    - unfold V. rewrite EV. discriminate.
    - lia.
    - auto.
    - cbn. lia. }
  rewrite HA in R3, R4. cbn [fst snd] in R3, R4. exists w.
  destruct del eqn:DL.
  - destruct (leave_spec fw L0 Us0 E true k HT HIN w eq_refl R2) as (w' & L1 & L2 & L3 & L4 & L5 & L6 & L7 & L8 & L9 & L & Us & L10 & L11 & L12 & L13 & L14).
    exists w'. split; [exact R1|]. split; [exact L1|]. split; [congruence|]. split; [rewrite L2; exact R4|]. split; [congruence|].
    intros _ DN. rewrite L5, L10. rewrite R3 in *.
    destruct R2 as (_ & L' & Us' & _ & _ & _ & _ & _ & _ & _ & S1 & _ & _ & S2 & S3 & S4). rewrite R3 in S4.
    assert (EL : L = map (prune D) L0).
    { apply level_ext; [rewrite map_length; exact L13|]. intros x. rewrite L14. unfold nd. change (@nil slot) with (prune D []) at 2. rewrite map_nth. reflexivity. }
    assert (EC : concat L = map full (without D E)) by (rewrite EL; apply prune_concat; exact (proj2 HB)).
    destruct HB as ((HLK & HNE & HCP) & HLF). inversion HNE as [|a b NL NU]; subst a b. inversion HCP as [|a b CL CU]; subst a b.
    assert (PV : pvalid Us p k) by (eapply pvalid_shapes; [symmetry; exact L11|apply HP; reflexivity]).
    destruct (node_merge_spec fw (wnodes w) k L Us p) as (T' & M1 & M2 & M3).
    + eapply full_live; exact EC.
    + exact L12.
    + eapply shapes_nonempty; [symmetry; exact L11|exact NU].
    + intros x. unfold used. rewrite L14. destruct (solid_prune D (nd L0 x) (leaf_solid L0 Us0 E HT x)) as (_ & Q). pose proof (CL x) as CX. unfold used in CX. lia.
    + eapply shapes_capped; [symmetry; exact L11|exact CU].
    + exact PV.
    + intros x XL U0. unfold used in U0. rewrite L14 in U0. rewrite L13 in XL.
      destruct (solid_prune D (nd L0 x) (leaf_solid L0 Us0 E HT x)) as (_ & Q). pose proof (NL x XL) as NX. unfold used in NX.
      (* something was selected in this leaf *)
      assert (SX : exists d y, In d D /\ nth_error (nd L0 x) y = Some (full d)).
      { assert (0 < selcnt D (nd L0 x)) as SP by lia. unfold selcnt in SP. destruct (filter (sel D) (nd L0 x)) as [|s r] eqn:EF; [cbn in SP; lia|].
        assert (IN : In s (filter (sel D) (nd L0 x))) by (rewrite EF; left; reflexivity). apply filter_In in IN. destruct IN as (I1 & I2).
        destruct s as [[z|]|]; cbn in I2; try discriminate. apply has_key_In in I2. destruct I2 as (d & I3 & I4).
        apply In_nth_error in I1. destruct I1 as [y I1]. exists d, y. split; [exact I3|]. rewrite I1.
        destruct (S4 d I3) as (a & b & B1 & B2 & _). destruct (key_place L0 Us0 E HT HIN _ _ _ _ _ _ B2 I1 I4) as (-> & ->). congruence. }
      destruct SX as (d & y & I3 & I1). destruct (S4 d I3) as (a & b & B1 & B2 & B3).
      destruct (key_place L0 Us0 E HT HIN _ _ _ _ _ _ B2 I1 eq_refl) as (-> & _). unfold todo. destruct fw; lia.
    + rewrite L13. destruct fw; lia.
    + exists T'. split; [exact M1|]. split.
      { cbn [length] in *. pose proof (shapes_len _ _ L11). lia. }
      destruct M3 as [(M3 & M4)|(M3 & M4)].
      * left. split; [exact M3|]. rewrite EC in M4. destruct (without D E); [reflexivity|discriminate].
      * right. split; [exact M3|]. rewrite M4. exact EC.
  - assert (LV : exists w', leave w fw false = Some w' /\ wc w' = wc w /\ wacc w' = wacc w /\ wtot w' = wtot w + wcur w).
    { unfold leave. destruct (Nat.ltb_spec 0 (wcur w)); eexists; (split; [reflexivity|]); cbn; repeat split; lia. }
    destruct LV as (w' & E1 & E2 & E3 & E4). exists w'. split; [exact R1|]. split; [exact E1|]. split; [congruence|].
    split; [rewrite E2; exact R4|]. split; [|discriminate]. rewrite E4. destruct R2 as (R2 & _). rewrite R2, R3. reflexivity.
Qed.
