(* Insert, replace, count and positions *)
From Verif Require Import Base UtilModel BtModel BtSpec BtOrder BtLevel BtFind BtSplit BtMerge BtMerge2 BtWalk BtGet BtGet2.
Local Open Scope nat_scope.

(* ---------- insert ---------- *)

Lemma ins_at E e r : below E (bk e) r -> above E (bk e) r -> r <= length E -> ins e E = firstn r E ++ e :: skipn r E.
Proof.
  revert r. induction E as [|x E IH]; intros r HB HA RL; [destruct r; reflexivity|]. cbn [ins]. destruct r as [|r].
  - rewrite (HA 0 x (Nat.le_0_l _) eq_refl). reflexivity.
  - rewrite (klt_asym _ _ (HB 0 x ltac:(lia) eq_refl)). cbn [firstn skipn app]. f_equal. apply IH.
    + intros j y HJ HY. apply (HB (S j) y); [lia|exact HY].
    + intros j y HJ HY. apply (HA (S j) y); [lia|exact HY].
    + cbn in RL. lia.
Qed.

Lemma ins_In e E x : In x (ins e E) <-> x = e \/ In x E.
Proof.
  induction E as [|y E IH]; cbn [ins].
  - cbn. intuition congruence.
  - destruct (klt (bk e) (bk y)); cbn [In]; [intuition congruence|]. rewrite IH. intuition congruence.
Qed.

Lemma ins_sorted e E : sorted E -> has_key (bk e) E = false -> sorted (ins e E).
Proof.
  induction E as [|x E IH]; intros HS HK; cbn [ins]; [cbn; auto|]. destruct HS as (H1 & H2).
  unfold has_key in HK. cbn [existsb] in HK. apply orb_false_iff in HK. destruct HK as (K1 & K2).
  destruct (klt (bk e) (bk x)) eqn:EK.
  - cbn [sorted]. split; [|split; assumption]. intros y [<-|HY]; [exact EK|]. eapply klt_trans; [exact EK|]. apply H1. exact HY.
  - cbn [sorted]. split; [|apply IH; assumption]. intros y HY. apply ins_In in HY. destruct HY as [->|HY]; [|apply H1; exact HY].
    apply klt_false in EK. destruct (kle_lt_or_eq _ _ EK) as [C|C]; [exact C|]. rewrite C, keq_refl in K1. discriminate.
Qed.

Lemma ins_length e E : length (ins e E) = S (length E).
Proof. induction E as [|x E IH]; cbn [ins]; [reflexivity|]. destruct (klt (bk e) (bk x)); cbn [length]; [reflexivity|]. rewrite IH. reflexivity. Qed.

Lemma rank_no_key E b r : below E b r -> above E b r -> has_key b E = false /\ lookup b E = None.
Proof.
  intros HB HA.
  assert (K : forall x, In x E -> keq b (bk x) = false).
  { intros x HX. apply In_nth_error in HX. destruct HX as [j HX]. destruct (Nat.ltb_spec j r) as [C|C].
    - apply klt_neq'. exact (HB j x C HX).
    - apply klt_neq. exact (HA j x C HX). }
  split.
  - unfold has_key. destruct (existsb _ E) eqn:EX; [|reflexivity]. apply existsb_exists in EX. destruct EX as (x & HX & HK). rewrite (K x HX) in HK. discriminate.
  - unfold lookup. destruct (find _ E) as [x|] eqn:EX; [|reflexivity]. apply find_some in EX. destruct EX as (HX & HK). rewrite (K x HX) in HK. discriminate.
Qed.

Lemma lookup_at E r x : sorted E -> nth_error E r = Some x -> lookup (bk x) E = Some x.
Proof.
  intros HS HX. unfold lookup. destruct (find (fun e => keq (bk x) (bk e)) E) as [y|] eqn:EF.
  - apply find_some in EF. destruct EF as (HY & HK). apply keq_eq in HK. f_equal. symmetry. eapply sorted_key; [exact HS|eapply nth_error_In; exact HX|exact HY|exact HK].
  - exfalso. pose proof (find_none _ _ EF x (nth_error_In _ _ HX)) as K. cbn in K. rewrite keq_refl in K. discriminate.
Qed.

Lemma ins_elem_spec L Us E k i p e : concat L = map full E -> lk (sums L) Us -> Forall nonempty Us -> Forall capped Us -> nonempty L \/ L = [[]] ->
  capped L -> pvalid Us p k -> k < length L -> used L k < ITEM_COUNT -> i <= used L k ->
  btree (ins_elem (L :: Us) k i p e) (firstn (flat L k i) E ++ e :: skipn (flat L k i) E).
Proof.
  intros HC HLK HNU HCU HNE HCP HP KL UL IU. cbn [ins_elem].
  destruct (level_at L k KL) as (A & n & B & EL & LA & N).
  assert (IN : exists n1 n2, n = n1 ++ n2 /\ length n1 = i).
  { exists (firstn i n), (skipn i n). split; [symmetry; apply firstn_skipn|]. rewrite firstn_length. unfold used in IU. rewrite N in IU. lia. }
  destruct IN as (n1 & n2 & EN & LN).
  assert (INS : ins_nth i (El (Some e)) (nd L k) = n1 ++ full e :: n2).
  { rewrite N, EN. unfold ins_nth. rewrite <- LN, firstn_app, skipn_app, Nat.sub_diag, firstn_all, skipn_all. cbn [firstn skipn]. rewrite app_nil_r. reflexivity. }
  rewrite INS. set (L1 := set_nd L k (n1 ++ full e :: n2)).
  assert (EL1 : L1 = A ++ (n1 ++ full e :: n2) :: B) by (unfold L1; rewrite EL, <- LA; apply set_nd_app).
  assert (FL : flat L k i = length (concat A ++ n1)) by (rewrite EL, <- LA, flat_app, app_length; lia).
  assert (CL : concat L = (concat A ++ n1) ++ n2 ++ concat B) by (rewrite EL, EN, concat_app; cbn [concat]; rewrite <- !app_assoc; reflexivity).
  assert (C1 : concat L1 = map full (firstn (flat L k i) E ++ e :: skipn (flat L k i) E)).
  { rewrite map_app. cbn [map]. rewrite <- firstn_map, <- skipn_map, <- HC, CL, FL, firstn_app, skipn_app, Nat.sub_diag, firstn_all, skipn_all. cbn [firstn skipn app].
    rewrite app_nil_r, EL1, concat_app. cbn [concat]. rewrite <- !app_assoc. reflexivity. }
  assert (S1 : sums L1 = upd_nth k (fun n => n + 1) (sums L)).
  { rewrite EL1, EL. unfold sums. rewrite !map_app. cbn [map]. rewrite <- LA, <- (map_length sum_wt A), upd_nth_app. f_equal. f_equal.
    rewrite EN, !sum_wt_app, sum_wt_cons. cbn [wt full]. lia. }
  assert (SE : adj_path Us p S = adj_path Us p (fun n => n + 1)).
  { assert (PE : forall n s, upd_nth n (adj S) s = upd_nth n (adj (fun n => n + 1)) s).
    { intros m s. apply upd_nth_ext. intros [o|q] _; cbn; [reflexivity|]. f_equal. lia. }
    clear - PE. revert p. induction Us as [|U0 U IH]; intros [|[a b] q]; cbn [adj_path]; try reflexivity. unfold set_cnt. rewrite PE, IH. reflexivity. }
  pose proof (adj_path_add Us (sums L) p k 1 HLK HP) as A1. rewrite <- S1 in A1. rewrite SE.
  pose proof (adj_path_shapes Us p (fun n => n + 1)) as SH.
  assert (UK : used L1 k = S (used L k)).
  { unfold used. rewrite N, EN. unfold L1. rewrite nd_set_same by exact KL. rewrite !app_length. cbn [length]. lia. }
  assert (OTH : forall x, x <> k -> used L1 x = used L x) by (intros x X; apply used_set_other; exact X).
  split; [|exact C1]. split; [exact A1|]. split; constructor.
  - intros x X. destruct (Nat.eq_dec x k) as [->|NX]; [lia|]. rewrite OTH by assumption. unfold L1 in X. rewrite set_nd_length in X.
    destruct HNE as [HNE| ->]; [apply HNE; exact X|]. cbn in X, KL. lia.
  - eapply shapes_nonempty; [symmetry; exact SH|exact HNU].
  - intros x. destruct (Nat.eq_dec x k) as [->|NX]; [lia|]. rewrite OTH by assumption. apply HCP.
  - eapply shapes_capped; [symmetry; exact SH|exact HCU].
Qed.

(* ---------- replace ---------- *)

Lemma set_elem_spec T E k i e : btree T E -> i < used (lev T 0) k ->
  btree (set_elem T k i e) (upd_nth (flat (lev T 0) k i) (fun _ => e) E) /\ length (set_elem T k i e) = length T.
Proof.
  intros (HW & HE) HI. destruct T as [|L Us]; [contradiction|]. change (lev (L :: Us) 0) with L in *. cbn [set_elem]. split; [|reflexivity].
  destruct HW as (HLK & HN & HC). pose proof (used_lt _ _ _ HI) as KL.
  set (L1 := set_nd L k (upd_nth i (fun _ => El (Some e)) (nd L k))).
  assert (U1 : forall x, used L1 x = used L x).
  { intros x. unfold L1. destruct (Nat.eq_dec x k) as [->|NX]; [|apply used_set_other; exact NX]. unfold used. rewrite nd_set_same by exact KL. apply upd_nth_length. }
  assert (CC : concat L1 = upd_nth (flat L k i) (fun _ => El (Some e)) (concat L)) by (apply concat_upd; exact HI).
  assert (WT : forall x, sum_wt (nd L1 x) = sum_wt (nd L x)).
  { assert (F : forall n, solid n -> sum_wt n = length n) by exact solid_wt.
    assert (SL : forall M F', concat M = map full F' -> forall x, solid (nd M x)).
    { clear. intros M F' H x. apply Forall_forall. intros s HIN. unfold nd in HIN. destruct (Nat.ltb_spec x (length M)) as [XL|XL].
      - assert (IN : In s (concat M)) by (apply in_concat; exists (nth x M []); split; [apply nth_In; exact XL|exact HIN]).
        rewrite H in IN. apply in_map_iff in IN. destruct IN as (y & <- & _). eauto.
      - rewrite nth_overflow in HIN by exact XL. contradiction. }
    intros x. rewrite !F.
    - exact (U1 x).
    - eapply SL. exact HE.
    - eapply SL with (F' := upd_nth (flat L k i) (fun _ => e) E). rewrite CC, HE. symmetry. apply upd_nth_map. reflexivity. }
  split.
  - split.
    + replace (sums L1) with (sums L); [exact HLK|]. apply list_ext. intros j. destruct (Nat.ltb_spec j (length L)) as [JL|JL].
      * rewrite (nth_error_nth' _ 0) by (rewrite sums_length; exact JL). rewrite (nth_error_nth' (sums L1) 0) by (rewrite sums_length; unfold L1; rewrite set_nd_length; exact JL).
        rewrite !sums_nth, WT. reflexivity.
      * transitivity (@None nat); [|symmetry]; apply nth_error_None; rewrite sums_length; unfold L1; rewrite ?set_nd_length; exact JL.
    + inversion HN as [|a b NL NU]; subst a b. inversion HC as [|a b CL CU]; subst a b. split; constructor; auto.
      * intros x X. rewrite U1. apply NL. unfold L1 in X. rewrite set_nd_length in X. exact X.
      * intros x. rewrite U1. apply CL.
  - change (lev (L1 :: Us) 0) with L1. rewrite CC. change (lev (L :: Us) 0) with L in HE. rewrite HE. symmetry. apply upd_nth_map. reflexivity.
Qed.

Lemma put_at E r x e : sorted E -> nth_error E r = Some x -> bk e = bk x -> put e E = upd_nth r (fun _ => e) E.
Proof.
  intros HS HX HK. destruct (nth_error_split E r HX) as (a & b & -> & <-). rewrite upd_nth_app. unfold put. rewrite map_app. cbn [map].
  apply sorted_app_iff in HS. destruct HS as (_ & (H1 & _) & H2). rewrite HK, keq_refl. f_equal; [|f_equal].
  - rewrite <- (map_id a) at 2. apply map_ext_in. intros y HY. rewrite (klt_neq' _ _ (H2 y x HY (or_introl eq_refl))). reflexivity.
  - rewrite <- (map_id b) at 2. apply map_ext_in. intros y HY. rewrite (klt_neq _ _ (H1 y HY)). reflexivity.
Qed.

Lemma put_keys e E : map bk (put e E) = map bk E.
Proof.
  unfold put. rewrite map_map. apply map_ext. intros x. destruct (keq (bk e) (bk x)) eqn:EK; [|reflexivity]. apply keq_eq in EK. exact EK.
Qed.

Lemma sorted_keys E E' : map bk E = map bk E' -> sorted E -> sorted E'.
Proof.
  revert E'. induction E as [|x E IH]; intros [|x' E'] H HS; cbn in H; try discriminate; [exact I|]. injection H as K1 K2. destruct HS as (H1 & H2).
  split; [|apply IH; assumption]. intros y HY. apply (in_map bk) in HY. rewrite <- K2 in HY. apply in_map_iff in HY. destruct HY as (z & Z1 & Z2).
  rewrite <- K1, <- Z1. apply H1. exact Z2.
Qed.

(* ---------- count ---------- *)

Lemma count_loop_spec T E (fw : bool) g fl : tree T E -> sorted E -> forall fuel k i q r e n,
  i < used (lev T 0) k -> flat (lev T 0) k i = r -> nth_error E r = Some e -> beyond fw (Some g) e = false -> (q = true -> at_end (Some g) e = true) ->
  length (dirlist E fw r) <= fuel ->
  count_loop fuel T fw g fl (mkPosi (Some k) i q) e n = Some (n + length (filter (fun x => negb (beyond fw (Some g) x) && passes fl x) (dirlist E fw r))).
Proof.
  intros HT HS. induction fuel as [|fuel IH]; intros k i q r e n HI HR HE HB HQ HF.
  { destruct (dirlist_cons E fw r e HE) as (V & EV & _). rewrite EV in HF. cbn in HF. lia. }
  destruct (dirlist_cons E fw r e HE) as (V & EV & V1 & V2). pose proof (dirlist_mono E fw r HS) as MO. rewrite EV in *. cbn [length] in HF.
  pose proof (mono_away fw (Some g) _ MO) as AW. destruct AW as (AW1 & AW2).
  cbn [count_loop filter]. rewrite HB. cbn [negb andb]. set (n1 := if passes fl e then S n else n).
  assert (STEP : forall F : list elem, n + length (if passes fl e then e :: F else F) = n1 + length F) by (intros F; unfold n1; destruct (passes fl e); cbn [length]; lia).
  rewrite STEP. cbn [peq]. destruct q.
  { rewrite filter_none; [cbn [length]; rewrite Nat.add_0_r; reflexivity|]. intros x HX. rewrite (AW1 (or_intror (HQ eq_refl)) x HX). reflexivity. }
  pose proof (find_step_spec fw (Some g) T E k i false HT HI) as FS. cbv zeta in FS. rewrite HR in FS.
  assert (LR : if (if fw then Nat.eqb (S r) (length E) else Nat.eqb r 0) then last_rank E fw r else ~ last_rank E fw r).
  { unfold last_rank. destruct fw; [destruct (Nat.eqb_spec (S r) (length E))|destruct (Nat.eqb_spec r 0)]; assumption. }
  destruct (if fw then Nat.eqb (S r) (length E) else Nat.eqb r 0).
  { rewrite FS, (V1 LR). cbn. rewrite Nat.add_0_r. reflexivity. }
  destruct FS as (e' & k' & i' & F1 & F2 & F3 & F4 & F5). rewrite F5. rewrite (V2 LR) in HF, AW2 |- *.
  destruct (dirlist_cons E fw (next_rank fw r) e' F1) as (V' & EV' & _). destruct (beyond fw (Some g) e') eqn:EB.
  - rewrite EV' in AW2 |- *. destruct AW2 as (AW3 & _). rewrite filter_none; [cbn [length]; rewrite Nat.add_0_r; reflexivity|].
    intros x [<-|HX]; [rewrite EB; reflexivity|]. rewrite (AW3 (or_introl EB) x HX). reflexivity.
  - eapply IH; eauto. lia.
Qed.

Lemma elem_count_spec s E g fl : btree (b_T s) E -> sorted E -> b_n s = length E -> ofilter_ok fl -> elem_count s g fl = Some (length (hits g fl E)).
Proof.
  intros HB HS HN OK. pose proof (btree_tree _ _ HB) as HT. pose proof (proj1 (sorted_incr E) HS) as HK.
  unfold elem_count. set (T := b_T s) in *. assert (TE : T <> []) by (intros Z; rewrite Z in HT; exact HT).
  destruct T as [|L0 Us0] eqn:ET; [congruence|]. rewrite <- ET in *. clear L0 Us0 ET TE.
  destruct (first_elem_root T E HT) as (FE & NE). pose proof (last_elem_root T E HT) as LE. rewrite FE, LE.
  assert (MN : exists mn, hd_error E = Some mn) by (destruct E as [|x E']; [congruence|exists x; reflexivity]).
  assert (MX : exists mx, hd_error (rev E) = Some mx).
  { destruct (rev E) as [|x l] eqn:R; [|exists x; reflexivity]. apply (f_equal (@rev _)) in R. rewrite rev_involutive in R. cbn in R. congruence. }
  destruct MN as (mn & MN). destruct MX as (mx & MX). rewrite MN, MX.
  assert (INMN : In mn E) by (destruct E; [discriminate|]; cbn in MN; injection MN as ->; left; reflexivity).
  assert (INMX : In mx E) by (apply in_rev; destruct (rev E); [discriminate|]; cbn in MX; injection MX as ->; left; reflexivity).
  assert (ALL : forall x, In x E -> kle (bk mn) (bk x) = true /\ kle (bk x) (bk mx) = true).
  { intros x HX. destruct (first_in E x HS HX) as (A1 & A2). unfold s_first, s_last in *. rewrite MN in A1. rewrite MX in A2. split; apply klt_false; assumption. }
  (* the general case: search and walk *)
  assert (GEN : match find_first T (range_type g) (Some g) with
          | None => None
          | Some (None, _, _) => Some 0
          | Some (Some e, ps, _) =>
              match range_type g with
              | SIN => if peq ps then Some (if passes fl e then 1 else 0) else None
              | _ => count_loop (S (total T)) T (match range_type g with ASC => true | _ => false end) g fl
                                (mkPosi (pn ps) (px ps) false) e 0
              end
          end = Some (length (hits g fl E))).
  { (* compare with the query without limits *)
    pose proof (elem_get_spec s E g fl 0 0 false HB HS HN OK) as (s' & G & _). unfold elem_get in G. fold T in G.
    assert (SH : length (select g fl 0 0 E) = length (hits g fl E)) by reflexivity.
    destruct (find_first_spec T E HT HK (range_type g) g) as (res & F1 & F2). rewrite F1 in *.
    destruct res as ((oe & ps) & p). destruct oe as [e|].
    2:{ assert (G1 : [] = select g fl 0 0 E) by congruence. rewrite <- G1 in SH. rewrite <- SH. reflexivity. }
    assert (POS : exists l i, pn ps = Some l /\ px ps = i /\ i < used (lev T 0) l /\ nth_error E (flat (lev T 0) l i) = Some e /\
              match range_type g with SIN => peq ps = true | ASC => beyond true (Some g) e = false | DSC => beyond false (Some g) e = false end).
    { pose proof (range_type_ends g) as EN. destruct F2 as [(l & i & p0 & e0 & F2 & P1 & P2 & P3 & P4)|(r & R1 & R2 & R3 & R4)].
      - injection F2 as -> -> ->. exists l, i. repeat (split; [reflexivity || assumption|]). destruct (range_type g); [reflexivity| |]; unfold beyond; rewrite P3;
          apply klt_asym; apply EN.
      - destruct (range_type g).
        + destruct R4 as (ps0 & p0 & R4 & _). discriminate.
        + destruct R4 as [(_ & p0 & R4)|(l & i & e0 & p0 & Q1 & Q2 & Q3 & Q4 & _)]; [discriminate|]. destruct (klt (r_end g) (bk e0)) eqn:EB; [discriminate|].
          injection Q4 as -> -> ->. exists l, i. rewrite Q3. auto.
        + destruct R4 as [(_ & p0 & R4)|(l & i & e0 & p0 & Q0 & Q1 & Q2 & Q3 & Q4 & _)]; [discriminate|]. destruct (klt (bk e0) (r_end g)) eqn:EB; [discriminate|].
          injection Q4 as -> -> ->. exists l, i. rewrite Q3. auto. }
    destruct POS as (l & i & P1 & P2 & P3 & P4 & P5). rewrite P1 in *. rewrite P2 in *.
    destruct (range_type g) eqn:RT.
    - rewrite P5 in *. cbn [Nat.eqb andb] in G. destruct (passes fl e).
      + assert (G1 : [e] = select g fl 0 0 E) by congruence. rewrite <- G1 in SH. rewrite <- SH. reflexivity.
      + assert (G1 : [] = select g fl 0 0 E) by congruence. rewrite <- G1 in SH. rewrite <- SH. reflexivity.
    - rewrite (count_loop_spec T E true g fl HT HS _ l i false _ e 0 P3 eq_refl P4 P5); [|discriminate|].
      2:{ rewrite (tree_total T E HT). pose proof (dirlist_fuel E true (flat (lev T 0) l i)). lia. }
      rewrite Nat.add_0_l. f_equal. rewrite <- SH.
      destruct (run_walk true (Some g) fl 0 0 false T E l i p e HB HS P3 P4 ltac:(discriminate) P5) as (w & w' & W1 & W2 & W3 & _).
      rewrite W1, W2 in G. cbn [andb] in G. assert (G1 : wacc w' = select g fl 0 0 E) by congruence. rewrite <- G1, W3. reflexivity.
    - rewrite (count_loop_spec T E false g fl HT HS _ l i false _ e 0 P3 eq_refl P4 P5); [|discriminate|].
      2:{ rewrite (tree_total T E HT). pose proof (dirlist_fuel E false (flat (lev T 0) l i)). lia. }
      rewrite Nat.add_0_l. f_equal. rewrite <- SH.
      destruct (run_walk false (Some g) fl 0 0 false T E l i p e HB HS P3 P4 ltac:(discriminate) P5) as (w & w' & W1 & W2 & W3 & _).
      rewrite W1, W2 in G. cbn [andb] in G. assert (G1 : wacc w' = select g fl 0 0 E) by congruence. rewrite <- G1, W3. reflexivity. }
  (* the shortcut for a range that covers the tree *)
  assert (FULL : forall lo hi, lo = lo_of g -> hi = hi_of g -> fl = None ->
     negb (match bcomp lo (bk mn) with Gt => true | _ => false end) && negb (match bcomp hi (bk mx) with Lt => true | _ => false end) = true ->
     Some (b_n s) = Some (length (hits g fl E))).
  { intros lo hi -> -> -> HC. f_equal. rewrite HN. unfold hits. assert (FA : filter (fun e => in_rg g e && matches None e) E = E).
    { apply andb_true_iff in HC. destruct HC as (C1 & C2).
      assert (LO : kle (lo_of g) (bk mn) = true).
      { unfold kle. destruct (klt (bk mn) (lo_of g)) eqn:EK; [|reflexivity]. apply bcomp_gt in EK. rewrite EK in C1. discriminate. }
      assert (HI : kle (bk mx) (hi_of g) = true).
      { unfold kle. destruct (klt (hi_of g) (bk mx)) eqn:EK; [|reflexivity]. apply bcomp_lt in EK. rewrite EK in C2. discriminate. }
      assert (AL : forall x, In x E -> in_rg g x && matches None x = true).
      { intros x HX. destruct (ALL x HX) as (A1 & A2). unfold in_rg, inside. rewrite (kle_trans _ _ _ LO A1), (kle_trans _ _ _ A2 HI). reflexivity. }
      clear - AL. induction E as [|x l IH]; [reflexivity|]. cbn [filter]. rewrite (AL x (or_introl eq_refl)). f_equal. apply IH. intros y HY. apply AL. right. exact HY. }
    rewrite FA. destruct (desc g); [rewrite rev_length|]; reflexivity. }
  pose proof (range_type_ends g) as EN. destruct (range_type g) eqn:RT.
  - exact GEN.
  - destruct fl as [f|]; [exact GEN|]. destruct EN as (LO & HI & _).
    destruct (negb _ && negb _) eqn:EC; [|exact GEN]. eapply FULL; [symmetry; exact LO|symmetry; exact HI|reflexivity|exact EC].
  - destruct fl as [f|]; [exact GEN|]. destruct EN as (HI & LO & _).
    destruct (negb _ && negb _) eqn:EC; [|exact GEN]. eapply FULL; [symmetry; exact LO|symmetry; exact HI|reflexivity|exact EC].
Qed.

(* ---------- positions ---------- *)

Lemma batch_get_spec T E (fw : bool) : tree T E -> forall c k i, i < used (lev T 0) k ->
  batch_get c T fw k i = Some (firstn c (tl (dirlist E fw (flat (lev T 0) k i)))).
Proof.
  intros HT. induction c as [|c IH]; intros k i HI; [reflexivity|]. cbn [batch_get].
  destruct (elem_at_spec T E HT k i HI) as (_ & RL). set (r := flat (lev T 0) k i) in *.
  destruct (nth_error E r) as [e|] eqn:EE; [|apply nth_error_None in EE; lia].
  destruct (dirlist_cons E fw r e EE) as (V & EV & V1 & V2). rewrite EV. cbn [tl].
  pose proof (step_posi T E fw k i HT HI) as SP. fold r in SP.
  destruct (if fw then incr_at (lev T 0) k i else decr_at (lev T 0) k i) as [[k'|] i'].
  - destruct SP as (S1 & S2 & S3). assert (NR : flat (lev T 0) k' i' = next_rank fw r) by (unfold next_rank; destruct fw; lia).
    destruct (elem_at_spec T E HT k' i' S1) as (EA & EL). rewrite NR in EA, EL. rewrite EA.
    destruct (nth_error E (next_rank fw r)) as [e'|] eqn:EE'; [|apply nth_error_None in EE'; lia].
    rewrite IH by exact S1. rewrite NR. rewrite V2 by (unfold last_rank, next_rank in *; destruct fw; lia).
    destruct (dirlist_cons E fw (next_rank fw r) e' EE') as (V' & EV' & _). rewrite EV'. reflexivity.
  - rewrite V1 by (unfold last_rank; destruct fw; lia). rewrite firstn_nil. reflexivity.
Qed.

Lemma pick_slot_spec (n : node) : forall i rank, Forall (fun s => wt s <> 0) n -> rank < sum_wt n ->
  exists j rank', pick_slot n i rank = Some (i + j, rank') /\ j < length n /\ rank = sum_wt (firstn j n) + rank' /\
    rank' < match nth_error n j with Some s => wt s | None => 0 end.
Proof.
  induction n as [|s n IH]; intros i rank HW HR; [cbn in HR; lia|]. apply Forall_cons_iff in HW. destruct HW as (W1 & W2). rewrite sum_wt_cons in HR.
  cbn [pick_slot]. assert (W3 : Nat.ltb 0 (wt s) = true) by (apply Nat.ltb_lt; lia). rewrite W3. destruct (Nat.ltb_spec rank (wt s)) as [C|C].
  - exists 0, rank. rewrite Nat.add_0_r. split; [reflexivity|]. cbn. auto with arith.
  - destruct (IH (S i) (rank - wt s) W2 ltac:(lia)) as (j & r' & I1 & I2 & I3 & I4). exists (S j), r'. split; [rewrite I1; f_equal; f_equal; lia|].
    cbn [length firstn nth_error]. rewrite sum_wt_cons. split; [lia|]. split; [lia|exact I4].
Qed.

Lemma by_rank_spec T E : tree T E -> forall d, d < length T -> forall k rank, k < length (lev T d) -> rank < sum_wt (nd (lev T d) k) ->
  exists l i, by_rank T d k rank = Some (l, i) /\ i < used (lev T 0) l /\ flat (lev T 0) l i = before (lev T d) k + rank.
Proof.
  intros HT. induction d as [|d IH]; intros D k rank KL RL.
  - exists k, rank. split; [reflexivity|]. rewrite (leaf_sum T E HT) in RL. split; [exact RL|]. rewrite (before_leaf T E HT). symmetry. apply flat_add.
  - cbn [by_rank]. destruct (tree_link T E HT d D) as (LK & CN).
    assert (NZ : Forall (fun s => wt s <> 0) (nd (lev T (S d)) k)).
    { apply Forall_forall. intros s HI. apply In_nth_error in HI. destruct HI as [j HJ].
      assert (JU : j < used (lev T (S d)) k) by (apply nth_error_Some; rewrite HJ; discriminate).
      pose proof (sum_pos T E HT d ltac:(lia) (flat (lev T (S d)) k j)) as SP.
      specialize (SP (child_lt T E HT d k j D JU)).
      rewrite <- sums_nth, <- LK in SP. rewrite <- slot_wt_nth in SP by exact JU. unfold slot_wt in SP. rewrite HJ in SP. lia. }
    destruct (pick_slot_spec _ 0 rank NZ RL) as (j & r' & P1 & P2 & P3 & P4). rewrite P1. cbn [Nat.add].
    pose proof (child_lt T E HT d k j D P2) as CL.
    destruct (IH ltac:(lia) (flat (lev T (S d)) k j) r' CL) as (l & i & I1 & I2 & I3).
    { rewrite <- sums_nth, <- LK, <- slot_wt_nth by exact P2. exact P4. }
    exists l, i. split; [exact I1|]. split; [exact I2|]. rewrite I3, (before_child T E HT d k j D KL) by (unfold used; lia). lia.
Qed.

Lemma by_rank_root T E rank : tree T E -> rank < length E ->
  exists l i, by_rank T (depth T) 0 rank = Some (l, i) /\ i < used (lev T 0) l /\ flat (lev T 0) l i = rank.
Proof.
  intros HT RL. pose proof (tree_length T E HT) as TL. pose proof (tree_top T E HT) as TT. pose proof (top_weight T E HT) as TW.
  destruct (by_rank_spec T E HT (depth T) ltac:(unfold depth; lia) 0 rank) as (l & i & B1 & B2 & B3).
  - lia.
  - rewrite (before_S T (depth T) 0) in TW by lia. change (before (lev T (depth T)) 0) with 0 in TW. lia.
  - exists l, i. split; [exact B1|]. split; [exact B2|]. rewrite B3. reflexivity.
Qed.

Lemma rank_of_path T E l i p : tree T E -> i < used (lev T 0) l -> pvalid (tl T) p l -> i + path_rank (tl T) p = flat (lev T 0) l i.
Proof.
  intros HT HI HP. destruct (tree_lk T E HT) as (LK & _). rewrite (path_rank_spec _ _ _ _ LK HP).
  change (list_sum (firstn l (sums (lev T 0)))) with (before (lev T 0) l). rewrite (before_leaf T E HT), Nat.add_comm. apply flat_add.
Qed.
