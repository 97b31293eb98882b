(* Second phase of smget: the merge *)
From Coq Require Import Sorting.Sorted Sorting.Permutation.
From Verif Require Import Base UtilModel BtModel BtSpec BtOrder BtLevel BtFind BtSplit BtMerge BtMerge2 BtWalk BtGet BtGet2
  BtOps BtKeys BtIns BtRefine BtRun SmgetModel SmgetSpec SmgetScan SmgetList SmgetMerge SmgetKeys.
Local Open Scope nat_scope.

Lemma bsearch_ext c1 c2 : forall fuel lo hi, (forall i, lo <= i < hi -> c1 i = c2 i) -> bsearch fuel c1 lo hi = bsearch fuel c2 lo hi.
Proof.
  induction fuel as [|fuel IH]; intros lo hi H; cbn [bsearch]; [reflexivity|]. destruct (Nat.ltb_spec lo hi) as [C|C]; [|reflexivity].
  set (mid := Nat.div (lo + (hi - 1)) 2).
  assert (ML : lo <= mid /\ mid < hi).
  { unfold mid. split; [apply Nat.div_le_lower_bound; lia|]. apply Nat.div_lt_upper_bound; lia. }
  rewrite (H mid ltac:(lia)). destruct (c2 mid) as [[| |]|]; try reflexivity; apply IH; intros i Hi; apply H; lia.
Qed.

(* neighbours with the same bkey, with the bkey before the list *)
Fixpoint dbl (p : option bkey) (l : list hit) : bool :=
  match l with
  | [] => false
  | x :: r => match p with Some b => keq b (bk (h_e x)) | None => false end || dbl (Some (bk (h_e x))) r
  end.
Lemma dbl_doubled l : dbl None l = doubled l.
Proof.
  assert (G : forall l x, dbl (Some (bk (h_e x))) l = doubled (x :: l)).
  { induction l0 as [|y l0 IH]; intros x; [reflexivity|]. cbn [dbl]. rewrite IH. reflexivity. }
  destruct l as [|x l]; [reflexivity|]. cbn [dbl orb]. apply G.
Qed.

Definition trip (h : hit) : elem * nat * N := (h_e h, h_ix h, h_fl h).

Section Sort.
Variables (g : range) (fl : option efilter) (unique : bool) (ofs cnt : nat).
Hypothesis OKF : ofilter_ok fl.
Hypothesis CNT : 0 < cnt.
Notation dsc := (desc g).
Notation rt := (range_type g).
Notation bef := (before dsc).
Notation kb := (kbef dsc).
Notation ent := (scan * (elem * list elem))%type.
Notation arr := (okarr g fl false).

Lemma arr_head a B : arr (a :: B) <-> arr B /\ okent g fl a /\ nul_free (c_key (fst a)) /\ (forall b, In b B -> bef (hh a) (hh b) = true) /\ ~ In (c_key (fst a)) (map (fun a => c_key (fst a)) B).
Proof.
  pose proof (okarr_mid g fl false [] a B) as M. cbn [app] in M. rewrite M. split.
  - intros (H1 & H2 & H3 & _ & H5 & _ & H7). tauto.
  - intros (H1 & H2 & H3 & H4 & H5). split; [exact H1|]. split; [exact H2|]. split; [exact H3|]. split; [intros ? []|]. split; [exact H4|]. split; [discriminate|exact H5].
Qed.

(* all that is kept lies behind the first head *)
Lemma kept_after a B x : arr (a :: B) -> In x (pend fl (fst a) (snd (snd a)) ++ kept fl B) -> bef (hh a) x = true.
Proof.
  intros HO HX. apply arr_head in HO. destruct HO as (H1 & (HC & HM) & _ & H4 & _). destruct a as (c & e & R). cbn [fst snd] in *. apply in_app_iff in HX. destruct HX as [HX|HX].
  - apply pend_in in HX. destruct HX as (y & HY & _ & ->). apply kbef_before. apply (cur_mono g c e R HC). exact HY.
  - unfold kept in HX. apply in_flat_map in HX. destruct HX as (b & HB & HX). destruct H1 as (H1 & _). rewrite Forall_forall in H1. destruct (H1 b HB) as (CB & MB).
    specialize (H4 b HB). destruct (pend_after g fl _ _ _ x CB HX) as [->|Q]; [exact H4|]. eapply before_trans; [exact H4|exact Q].
Qed.

Lemma perm_head Ls (x : hit) M : ssorted dsc Ls -> Permutation Ls (x :: M) -> (forall y, In y M -> bef x y = true) -> exists Ls', Ls = x :: Ls' /\ Permutation Ls' M /\ ssorted dsc Ls'.
Proof.
  intros HS HP HB. destruct Ls as [|y Ls]; [apply Permutation_nil in HP; discriminate|]. inversion HS as [|? ? S1 S2]; subst.
  assert (EQ : y = x).
  { assert (IX : In x (y :: Ls)) by (eapply Permutation_in; [symmetry; exact HP|left; reflexivity]). destruct IX as [E|IX]; [exact E|].
    assert (IY : In y (x :: M)) by (eapply Permutation_in; [exact HP|left; reflexivity]). destruct IY as [E|IY]; [congruence|].
    rewrite Forall_forall in S2. specialize (S2 x IX). specialize (HB y IY). apply before_asym in S2. congruence. }
  subst y. exists Ls. split; [reflexivity|]. split; [eapply Permutation_cons_inv; exact HP|exact S1].
Qed.

Lemma advance_spec : forall afuel c e R r, cur g c e R -> length R < afuel ->
  (exists c1 e1 R1, advance rt g fl afuel c e r = Some (Some (c1, e1), r) /\ cur g c1 e1 R1 /\ matches fl e1 = true /\ idn c1 = idn c /\
     pend fl c1 (e1 :: R1) = pend fl c R /\ length R1 < length R) \/
  (pend fl c R = [] /\ exists tr, advance rt g fl afuel c e r = Some (None, mkRes (r_el r) (r_miss r) (r_trim r ++ tr) (r_dup r)) /\ pairs tr = tr_of g [c]).
Proof.
  induction afuel as [|afuel IH]; intros c e R r HC HL; [lia|]. cbn [advance]. pose proof (cur_next g c e R HC) as NX. destruct R as [|e1 R1].
  - destruct NX as (ps & N1 & N2). rewrite N1, N2. right. split; [reflexivity|]. exists (if cutb g c then [(e, c_ix c)] else []). unfold tr_of. cbn [filter].
    pose proof (cur_end g c e [] HC) as CE. cbn in CE. destruct (cutb g c).
    + split; [reflexivity|]. cbn [pairs map fst snd]. rewrite CE. reflexivity.
    + split; [rewrite app_nil_r; destruct r; reflexivity|reflexivity].
  - destruct NX as (ps & N1 & N2). rewrite N1, passes_spec by exact OKF. cbn [length] in HL. destruct (matches fl e1) eqn:M.
    + left. exists (set_ps c ps), e1, R1. split; [reflexivity|]. split; [exact N2|]. split; [exact M|]. split; [reflexivity|]. split; [reflexivity|cbn [length]; lia].
    + destruct (IH (set_ps c ps) e1 R1 r N2 ltac:(lia)) as [(c1 & e2 & R2 & A1 & A2 & A3 & A4 & A5 & A6)|(A1 & tr & A2 & A3)].
      * left. exists c1, e2, R2. split; [exact A1|]. split; [exact A2|]. split; [exact A3|]. split; [exact A4|]. split; [|cbn [length]; lia].
        rewrite A5. unfold pend. cbn [filter]. rewrite M. reflexivity.
      * right. split; [unfold pend in *; cbn [filter]; rewrite M; exact A1|]. exists tr. split; [exact A2|]. rewrite A3. unfold tr_of. cbn [filter].
        change (cutb g (set_ps c ps)) with (cutb g c). destruct (cutb g c); reflexivity.
Qed.

Lemma search2 c e A : arr A -> nul_free (c_key c) -> ~ In (c_key c) (map (fun a => c_key (fst a)) A) ->
  exists p, bsearch (length (map fst A)) (cmp2 rt (c_key c) e (map fst A)) 0 (length (map fst A)) = Some (inr p) /\ p <= length A /\
     (forall a, In a (firstn p A) -> bef (hh a) (hitof c e) = true) /\ (forall a, In a (skipn p A) -> bef (hitof c e) (hh a) = true).
Proof.
  intros HA NF NK. rewrite map_length.
  assert (EQ : bsearch (length A) (cmp2 rt (c_key c) e (map fst A)) 0 (length A) = bsearch (length A) (cmp1 rt false (c_key c) e (map fst A)) 0 (length A)).
  { apply bsearch_ext. intros i Hi. destruct (nth_error A i) as [a|] eqn:EN; [|apply nth_error_None in EN; lia].
    pose proof HA as (O1 & _ & _ & _ & O5). pose proof (nth_error_In _ _ EN) as IA. rewrite Forall_forall in O1, O5.
    assert (KE : c_key c <> c_key (fst a)) by (intros E; apply NK; rewrite E; apply (in_map (fun a => c_key (fst a))); exact IA).
    unfold cmp1, cmp2. rewrite nth_error_map, EN. cbn [option_map]. rewrite (comp_scan_ent g fl c e a (O1 a IA)). rewrite asc_of.
    rewrite comp_hkey_spec by (first [exact NF|apply O5; exact IA]).
    destruct (bcomp (bk e) (bk (fst (snd a)))); cbn [both]; unfold oriented; destruct (negb dsc); cbn [CompOpp]; try reflexivity;
      destruct (bin_comp (c_key c) (c_key (fst a))) eqn:BC; try reflexivity; apply bin_comp_eq in BC; contradiction. }
  rewrite EQ. destruct (search1 g fl 1 false (le_n 1) c e A HA NF NK) as [(m & a & _ & _ & U & _)|(p & P1 & P2 & P3 & P4 & _)]; [discriminate|]. exists p. auto.
Qed.

Definition ids (A : list ent) : list scan := map idn (map fst A).

Definition tail_ok (A : list ent) (out : list (elem * nat * N)) : Prop :=
  match rev out with
  | (e, _, _) :: _ => forall a, In a A -> kb (endkey g (fst a)) (bk e) = false
  | [] => False
  end.

Lemma dd_cons prev x l : dd prev (x :: l) = if match prev with Some b => keq b (bk (h_e x)) | None => false end then dd prev l else x :: dd (Some (bk (h_e x))) l.
Proof. reflexivity. Qed.

Lemma merge_spec : forall fuel A prev skip r Ls afuel, arr A -> (forall a, In a A -> length (snd (snd a)) < afuel) ->
  rem A + length A <= fuel -> ssorted dsc Ls -> Permutation Ls (kept fl A) -> length (r_el r) < cnt -> (skip < ofs -> r_el r = []) -> (r_el r <> [] -> prev <> None) ->
  let out := firstn (cnt - length (r_el r)) (skipn (ofs - skip) (pick unique prev Ls)) in
  exists A' F tr, merge rt g fl unique fuel afuel ofs cnt (map fst A) prev skip r =
      Some (mkRes (r_el r ++ map trip out) (r_miss r) (r_trim r ++ tr) (r_dup r || dbl (match r_el r with [] => None | _ => prev end) out)) /\
    pairs tr = tr_of g F /\ NoDup (map c_key (map fst A' ++ F)) /\
    (forall s, In s (ids A) <-> In s (ids A') \/ In s (map idn F)) /\
    ((A' = [] /\ length (r_el r ++ map trip out) < cnt) \/ (length (r_el r ++ map trip out) = cnt /\ tail_ok A' (r_el r ++ map trip out))).
Proof.
  induction fuel as [|fuel IH]; intros A prev skip r Ls afuel HO AF HF SL PL LC SK PV out.
  { destruct A as [|a A]; [|cbn [length] in HF; lia]. cbn [kept flat_map] in PL. apply Permutation_sym, Permutation_nil in PL.
    assert (OE : out = []) by (unfold out; rewrite PL; destruct unique; cbn; rewrite skipn_nil, firstn_nil; reflexivity).
    exists [], [], []. rewrite OE. cbn [map dbl merge]. rewrite !app_nil_r, orb_false_r. split; [destruct r; reflexivity|]. split; [reflexivity|]. split; [constructor|].
    split; [cbn; tauto|]. left. auto. }
  destruct A as [|a A].
  { cbn [kept flat_map] in PL. apply Permutation_sym, Permutation_nil in PL.
    assert (OE : out = []) by (unfold out; rewrite PL; destruct unique; cbn; rewrite skipn_nil, firstn_nil; reflexivity).
    exists [], [], []. rewrite OE. cbn [map dbl merge]. rewrite !app_nil_r, orb_false_r. split; [destruct r; reflexivity|]. split; [reflexivity|]. split; [constructor|].
    split; [cbn; tauto|]. left. auto. }
  pose proof (kept_after a A) as KA. pose proof HO as HO'. apply arr_head in HO'. destruct HO' as (H1 & (HC & HM) & NF & HB & NK).
  destruct a as (c & e & R). cbn [fst snd] in *. cbn [map fst].
  assert (PL' : Permutation Ls (hitof c e :: (pend fl c R ++ kept fl A))).
  { rewrite PL. unfold kept. cbn [flat_map fst snd]. rewrite pend_head by exact HM. reflexivity. }
  destruct (perm_head Ls (hitof c e) (pend fl c R ++ kept fl A) SL PL') as (Ls' & EL & PL2 & SL2).
  { intros y HY. exact (KA y HO HY). }
  subst Ls. clear PL PL'.
  cbn [merge]. rewrite (cur_elem g c e R HC).
  assert (DU : match prev with Some b => match bcomp b (bk e) with Eq => true | _ => false end | None => false end = match prev with Some b => keq b (bk e) | None => false end).
  { destruct prev as [b|]; [|reflexivity]. destruct (keq b (bk e)) eqn:K.
    - apply keq_eq in K. rewrite (proj2 (bcomp_eq _ _) K). reflexivity.
    - destruct (bcomp b (bk e)) eqn:B; try reflexivity. apply bcomp_eq in B. rewrite B, keq_refl in K. discriminate. }
  rewrite DU. clear DU. set (dup := match prev with Some b => keq b (bk e) | None => false end) in *.
  set (taken := negb (unique && dup) && negb (skip <? ofs)).
  set (skip' := if negb (unique && dup) && (skip <? ofs) then S skip else skip).
  set (r1 := if taken then mkRes (r_el r ++ [(e, c_ix c, c_flags c)]) (r_miss r) (r_trim r) (r_dup r || (0 <? length (r_el r)) && dup) else r).
  (* the output, one step *)
  assert (OUT : let out' := firstn (cnt - length (r_el r1)) (skipn (ofs - skip') (pick unique (Some (bk e)) Ls')) in
     out = (if taken then hitof c e :: out' else out')).
  { cbv zeta. unfold out, r1, taken, skip'. unfold pick. destruct unique eqn:UQ; cbn [andb].
    - rewrite dd_cons. change (bk (h_e (hitof c e))) with (bk e). fold dup. destruct dup eqn:DU; cbn [negb andb].
      + assert (PE : prev = Some (bk e)) by (unfold dup in DU; destruct prev as [b|]; [apply keq_eq in DU; congruence|discriminate]). rewrite PE. reflexivity.
      + destruct (Nat.ltb_spec skip ofs) as [C|C]; cbn [negb].
        * replace (ofs - skip) with (S (ofs - S skip)) by lia. reflexivity.
        * replace (ofs - skip) with 0 by lia. rewrite !skipn_O. cbn [r_el]. rewrite app_length. cbn [length].
          replace (cnt - length (r_el r)) with (S (cnt - (length (r_el r) + 1))) by lia. reflexivity.
    - cbn [negb andb]. destruct (Nat.ltb_spec skip ofs) as [C|C]; cbn [negb].
      + replace (ofs - skip) with (S (ofs - S skip)) by lia. reflexivity.
      + replace (ofs - skip) with 0 by lia. rewrite !skipn_O. cbn [r_el]. rewrite app_length. cbn [length].
        replace (cnt - length (r_el r)) with (S (cnt - (length (r_el r) + 1))) by lia. reflexivity. }
  cbv zeta in OUT. set (out' := firstn (cnt - length (r_el r1)) (skipn (ofs - skip') (pick unique (Some (bk e)) Ls'))) in *.
  (* the answer in terms of r1 and out' *)
  assert (FIN : mkRes (r_el r ++ map trip out) (r_miss r) (r_trim r) (r_dup r || dbl (match r_el r with [] => None | _ => prev end) out) =
                mkRes (r_el r1 ++ map trip out') (r_miss r) (r_trim r) (r_dup r1 || dbl (match r_el r1 with [] => None | _ => Some (bk e) end) out')).
  { rewrite OUT. unfold r1, taken. destruct (negb (unique && dup)) eqn:GU; cbn [andb].
    - destruct (Nat.ltb_spec skip ofs) as [C|C]; cbn [negb].
      + rewrite (SK C). reflexivity.
      + cbn [r_el r_dup map dbl]. f_equal; [rewrite <- app_assoc; reflexivity|].
        assert (NE : match r_el r ++ [(e, c_ix c, c_flags c)] with [] => None | _ :: _ => Some (bk e) end = Some (bk e)) by (destruct (r_el r); reflexivity). rewrite NE.
        change (bk (h_e (hitof c e))) with (bk e). rewrite <- orb_assoc. f_equal. f_equal.
        destruct (r_el r) as [|t0 l0] eqn:ER; [reflexivity|]. cbn [length Nat.ltb Nat.leb andb]. reflexivity.
    - apply negb_false_iff, andb_true_iff in GU. destruct GU as (_ & GU). unfold dup in GU. destruct prev as [b|]; [|discriminate]. apply keq_eq in GU. subst b. reflexivity. }
  assert (RL : length (r_el r1) <= cnt).
  { unfold r1. destruct taken; [|lia]. cbn [r_el]. rewrite app_length. cbn [length]. lia. }
  assert (RM : r_miss r1 = r_miss r /\ r_trim r1 = r_trim r) by (unfold r1; destruct taken; auto). destruct RM as (RM & RT).
  assert (FIN1 : r_el r ++ map trip out = r_el r1 ++ map trip out') by congruence.
  assert (FIN2 : r_dup r || dbl (match r_el r with [] => None | _ => prev end) out = r_dup r1 || dbl (match r_el r1 with [] => None | _ => Some (bk e) end) out') by congruence.
  rewrite FIN1, FIN2. clear FIN.
  destruct (taken && (cnt <=? length (r_el r1))) eqn:ST.
  { (* the last one *)
    apply andb_true_iff in ST. destruct ST as (TK & CL). apply Nat.leb_le in CL.
    assert (OE : out' = []) by (unfold out'; replace (cnt - length (r_el r1)) with 0 by lia; reflexivity).
    exists ((c, (e, R)) :: A), [], []. rewrite OE. cbn [map dbl]. rewrite !app_nil_r, orb_false_r.
    split; [destruct r1; cbn in *; congruence|]. split; [reflexivity|].
    split; [apply okarr_keys with (1 := HO)|]. split; [cbn; tauto|]. right. split; [lia|].
    unfold tail_ok, r1. rewrite TK. cbn [r_el]. rewrite rev_app_distr. cbn [rev app].
    assert (G : forall d x Q, cur g d x Q -> kb (bk x) (bk e) = false -> kb (endkey g d) (bk e) = false).
    { intros d x Q HD HX. pose proof (cur_le_end g d x Q HD) as LE. destruct (kb (endkey g d) (bk e)) eqn:K; [|reflexivity].
      destruct (kb (bk e) (bk x)) eqn:K2; [rewrite (kbef_trans _ _ _ _ K K2) in LE; discriminate|].
      rewrite (kbef_total _ _ _ HX K2) in LE. congruence. }
    intros a [<-|HA]; cbn [fst].
    - apply (G c e R HC). apply kbef_irrefl.
    - destruct H1 as (H1 & _). rewrite Forall_forall in H1. destruct (H1 a HA) as (CA & _). apply (G _ _ _ CA).
      specialize (HB a HA). destruct (before_key _ _ _ HB) as [E|E]; unfold hh, hitof in E; cbn [fst snd h_e] in E; [rewrite <- E; apply kbef_irrefl|].
      destruct (kb (bk (fst (snd a))) (bk e)) eqn:K; [|reflexivity]. pose proof (kbef_trans _ _ _ _ E K) as KT. rewrite kbef_irrefl in KT. discriminate. }
  assert (LC1 : length (r_el r1) < cnt).
  { unfold r1 in *. destruct taken; [|exact LC]. cbn [andb] in ST. apply Nat.leb_gt in ST. exact ST. }
  assert (SK1 : skip' < ofs -> r_el r1 = []).
  { unfold skip', r1, taken. destruct (negb (unique && dup)) eqn:GU; cbn [andb].
    - destruct (Nat.ltb_spec skip ofs) as [C|C]; cbn [negb]; [intros _; apply SK; exact C|lia].
    - exact SK. }
  assert (PV1 : r_el r1 <> [] -> Some (bk e) <> None) by (intros _; discriminate).
  destruct (advance_spec afuel c e R r1 HC ltac:(exact (AF (c, (e, R)) (or_introl eq_refl)))) as [(c1 & e1 & R1 & A1 & A2 & A3 & A4 & A5 & A6)|(A1 & tr & A2 & A3)].
  - (* on to its next element *)
    rewrite A1. assert (KC : c_key c1 = c_key c) by (change (c_key (idn c1) = c_key (idn c)); congruence).
    destruct (search2 c1 e1 A H1) as (p & P1 & P2 & P3 & P4); [rewrite KC; exact NF|rewrite KC; exact NK|]. rewrite P1.
    set (A0 := firstn p A ++ (c1, (e1, R1)) :: skipn p A).
    assert (S0 : firstn p A ++ skipn p A = A) by apply firstn_skipn.
    assert (Q0 : firstn p (map fst A) ++ c1 :: skipn p (map fst A) = map fst A0) by (unfold A0; rewrite map_app; cbn [map fst]; rewrite firstn_map, skipn_map; reflexivity).
    rewrite Q0.
    assert (OA : arr A0).
    { apply okarr_mid. rewrite S0. cbn [fst snd]. split; [exact H1|]. split; [split; assumption|]. split; [rewrite KC; exact NF|]. split; [exact P3|]. split; [exact P4|]. split; [discriminate|rewrite KC; exact NK]. }
    assert (PK : Permutation Ls' (kept fl A0)).
    { rewrite PL2. unfold A0, kept. rewrite flat_map_app. cbn [flat_map fst snd]. rewrite A5. rewrite <- S0 at 1. rewrite flat_map_app.
      rewrite Permutation_app_swap_app. reflexivity. }
    destruct (IH A0 (Some (bk e)) skip' r1 Ls' afuel OA) as (A' & F & tr & M1 & M2 & M3 & M4 & M5); try assumption.
    + intros a HA. apply in_mid in HA. rewrite S0 in HA. destruct HA as [->|HA]; cbn [fst snd]; [|apply AF; right; exact HA]. pose proof (AF (c, (e, R)) (or_introl eq_refl)) as Q. cbn [fst snd] in Q. lia.
    + unfold A0. rewrite (rem_mid 1 (le_n 1)), S0. cbn [fst snd]. rewrite app_length. cbn [length]. pose proof (f_equal (@length _) S0) as Q. rewrite app_length in Q.
      unfold rem in *. cbn [map fst snd length] in HF. change (list_sum (?x :: ?y)) with (x + list_sum y) in HF. lia.
    + fold out' in M1, M5. exists A', F, tr. rewrite RM, RT in M1. split; [exact M1|]. split; [exact M2|]. split; [exact M3|]. split; [|exact M5].
      intros s. rewrite <- M4. unfold ids, A0. rewrite map_app, map_app. cbn [map fst In]. rewrite in_app_iff. cbn [In]. rewrite A4.
      rewrite <- S0 at 1. rewrite !map_app, in_app_iff. tauto.
  - (* it ends *)
    rewrite A2.
    assert (PK : Permutation Ls' (kept fl A)) by (rewrite PL2, A1; reflexivity).
    destruct (IH A (Some (bk e)) skip' (mkRes (r_el r1) (r_miss r1) (r_trim r1 ++ tr) (r_dup r1)) Ls' afuel H1) as (A' & F & tr2 & M1 & M2 & M3 & M4 & M5); try assumption.
    + intros a HA. apply AF. right. exact HA.
    + unfold rem in *. cbn [map fst snd length] in HF. change (list_sum (?x :: ?y)) with (x + list_sum y) in HF. lia.
    + cbn [r_el r_miss r_trim r_dup] in M1, M5. fold out' in M1, M5. exists A', (c :: F), (tr ++ tr2). rewrite RM, RT in *. split; [rewrite app_assoc; exact M1|].
      split; [rewrite pairs_app, A3, M2; change (c :: F) with ([c] ++ F); rewrite tr_of_app; reflexivity|]. split; [|split; [|exact M5]].
      * apply (Permutation_NoDup (l := map c_key (c :: map fst A' ++ F))).
        -- apply Permutation_map. apply Permutation_middle.
        -- cbn [map]. constructor; [|exact M3]. intros Q. apply NK. apply in_map_iff in Q. destruct Q as (s & E & HS).
           assert (QS : In (idn s) (ids A)). { apply M4. apply in_app_iff in HS. destruct HS as [HS|HS]; [left|right]; apply in_map; exact HS. }
           unfold ids in QS. rewrite map_map in QS. apply in_map_iff in QS. destruct QS as (a & EA & HA). apply in_map_iff. exists a. split; [|exact HA].
           assert (c_key (fst a) = c_key s) by (change (c_key (idn (fst a)) = c_key (idn s)); congruence). congruence.
      * intros s. unfold ids in *. cbn [map fst In]. rewrite M4. tauto.
Qed.
End Sort.
