(* The range query of the tree is the selection of the specification *)
From Verif Require Import Base UtilModel BtModel BtSpec BtOrder BtLevel BtFind BtSplit BtMerge BtMerge2 BtWalk BtGet.
From Coq Require Import Permutation.
Local Open Scope nat_scope.

Definition absE (s : bt) (E : list elem) : sp := mkSp E (b_max s) (b_ovf s) (b_trim s) (b_type s) (b_range s).

Definition deleted (s s' : bt) (E D : list elem) : Prop :=
  exists T', s' = set_T s T' (length E - length D) /\ length T' <= length (b_T s) /\
    (T' = [] /\ without D E = [] \/ btree T' (without D E)).

Lemma sorted_nodup E : sorted E -> NoDup (map bk E).
Proof.
  induction E as [|e E IH]; intros H; [constructor|]. destruct H as (H1 & H2). cbn [map]. constructor; [|apply IH; exact H2].
  intros HI. apply in_map_iff in HI. destruct HI as (x & EQ & HX). specialize (H1 x HX). rewrite EQ, klt_irrefl in H1. discriminate.
Qed.

Lemma sorted_key E a b : sorted E -> In a E -> In b E -> bk a = bk b -> a = b.
Proof.
  induction E as [|e E IH]; intros HS HA HB EQ; [contradiction|]. destruct HS as (H1 & H2). destruct HA as [<-|HA], HB as [<-|HB]; [reflexivity| | |auto].
  - specialize (H1 b HB). rewrite EQ, klt_irrefl in H1. discriminate.
  - specialize (H1 a HA). rewrite EQ, klt_irrefl in H1. discriminate.
Qed.

Lemma without_length D E : sorted E -> NoDup D -> incl D E -> length (without D E) = length E - length D.
Proof.
  intros HS ND HI. unfold without. pose proof (filter_split_len (fun e => has_key (bk e) D) E) as SL.
  assert (P : Permutation (filter (fun e => has_key (bk e) D) E) D).
  { apply NoDup_Permutation; [|exact ND|].
    - apply NoDup_filter. apply NoDup_map_inv with (f := bk). apply sorted_nodup. exact HS.
    - intros x. rewrite filter_In, has_key_In. split.
      + intros (HX & d & HD & HK). rewrite <- (sorted_key E d x HS (HI d HD) HX HK). exact HD.
      + intros HX. split; [apply HI; exact HX|]. exists x. auto. }
  apply Permutation_length in P. lia.
Qed.

Lemma without_one E r e : sorted E -> nth_error E r = Some e -> without [e] E = del_nth r E.
Proof.
  intros HS HE. destruct (nth_error_split E r HE) as (a & b & -> & <-). rewrite del_nth_app. unfold without. rewrite filter_app. cbn [filter].
  apply sorted_app_iff in HS. destruct HS as (_ & (H1 & _) & H2).
  assert (KE : forall x, In x a \/ In x b -> negb (has_key (bk x) [e]) = true).
  { intros x HX. unfold has_key. cbn [existsb]. rewrite orb_false_r. apply negb_true_iff. destruct HX as [HX|HX].
    - apply klt_neq. apply H2; [exact HX|left; reflexivity].
    - apply klt_neq'. apply H1. exact HX. }
  assert (SE : negb (has_key (bk e) [e]) = false) by (unfold has_key; cbn [existsb]; rewrite keq_refl; reflexivity). rewrite SE.
  f_equal; (rewrite filter_ext_in with (g := fun _ => true); [|intros x HX; apply KE; auto]); clear; [induction a as [|x l IH]|induction b as [|x l IH]]; cbn; congruence.
Qed.

Lemma filter_key E e (P : elem -> bool) : sorted E -> In e E -> filter (fun x => keq (bk x) (bk e) && P x) E = if P e then [e] else [].
Proof.
  intros HS HE. apply In_nth_error in HE. destruct HE as [r HE]. destruct (nth_error_split E r HE) as (a & b & -> & _).
  apply sorted_app_iff in HS. destruct HS as (_ & (H1 & _) & H2). rewrite filter_app. cbn [filter]. rewrite keq_refl. cbn [andb].
  rewrite (filter_none _ a), (filter_none _ b).
  - destruct (P e); reflexivity.
  - intros x HX. rewrite (klt_neq' _ _ (H1 x HX)). reflexivity.
  - intros x HX. rewrite (klt_neq _ _ (H2 x e HX (or_introl eq_refl))). reflexivity.
Qed.

Lemma first_of E r : sorted E -> E <> [] -> forall b, below E b r -> above E b r -> r <= length E ->
  (match s_first E with Some mn => klt b (bk mn) | None => false end) = Nat.eqb r 0 /\
  (match s_last E with Some mx => klt (bk mx) b | None => false end) = Nat.eqb r (length E).
Proof.
  intros HS NE b HB HA RL. split.
  - destruct E as [|x E]; [congruence|]. cbn [s_first hd_error]. destruct r as [|r].
    + rewrite (HA 0 x (Nat.le_0_l _) eq_refl). reflexivity.
    + rewrite (klt_asym _ _ (HB 0 x ltac:(lia) eq_refl)). reflexivity.
  - unfold s_last. destruct (exists_last NE) as (E' & x & ->). rewrite rev_app_distr. cbn [rev app hd_error]. rewrite app_length in *. cbn [length] in *.
    assert (NX : nth_error (E' ++ [x]) (length E') = Some x) by (rewrite nth_error_app2, Nat.sub_diag by lia; reflexivity).
    destruct (Nat.eqb_spec r (length E' + 1)) as [->|NR].
    + apply (HB (length E') x); [lia|exact NX].
    + apply klt_asym. apply (HA (length E') x); [lia|exact NX].
Qed.

Lemma first_in E e : sorted E -> In e E ->
  (match s_first E with Some mn => klt (bk e) (bk mn) | None => false end) = false /\
  (match s_last E with Some mx => klt (bk mx) (bk e) | None => false end) = false.
Proof.
  intros HS HE. split.
  - destruct E as [|x E]; [reflexivity|]. cbn [s_first hd_error]. destruct HE as [<-|HE]; [apply klt_irrefl|]. apply klt_asym. apply HS. exact HE.
  - unfold s_last. destruct E as [|x E] using rev_ind; [reflexivity|]. clear IHE. rewrite rev_app_distr. cbn [rev app hd_error].
    apply in_app_iff in HE. destruct HE as [HE|[<-|[]]]; [|apply klt_irrefl]. apply klt_asym. apply sorted_app_iff in HS. apply HS; [exact HE|left; reflexivity].
Qed.

Lemma select_take g fl ofs cnt E : select g fl ofs cnt E = take cnt (skipn ofs (hits g fl E)).
Proof. reflexivity. Qed.

Lemma got_take fw rg fl ofs cnt V h : filter (fun e => negb (beyond fw rg e) && matches fl e) V = h -> ofilter_ok fl ->
  got fw rg fl ofs cnt 0 [] V = take cnt (skipn ofs h).
Proof.
  intros <- OK. unfold got. cbn [app length]. rewrite !Nat.sub_0_r.
  rewrite (filter_ext _ (fun e => negb (beyond fw rg e) && matches fl e)) by (intros e; rewrite passes_spec by exact OK; reflexivity).
  destruct cnt; reflexivity.
Qed.

Lemma sub_incl ofs cnt (l : list elem) : incl (take cnt (skipn ofs l)) l.
Proof.
  intros x HX. assert (HS : In x (skipn ofs l)).
  { unfold take in HX. destruct cnt; [exact HX|]. rewrite <- (firstn_skipn (S cnt) (skipn ofs l)). apply in_app_iff. left. exact HX. }
  rewrite <- (firstn_skipn ofs l). apply in_app_iff. right. exact HS.
Qed.
Lemma nodup_app {A} (a b : list A) : NoDup (a ++ b) -> NoDup a /\ NoDup b.
Proof.
  induction a as [|x a IH]; intros H; [split; [constructor|exact H]|]. inversion H as [|y l N1 N2]; subst. destruct (IH N2) as (I1 & I2).
  split; [|exact I2]. constructor; [|exact I1]. intros HX. apply N1. apply in_app_iff. left. exact HX.
Qed.
Lemma sub_nodup ofs cnt (l : list elem) : NoDup l -> NoDup (take cnt (skipn ofs l)).
Proof.
  intros H. assert (HS : NoDup (skipn ofs l)). { rewrite <- (firstn_skipn ofs l) in H. exact (proj2 (nodup_app _ _ H)). }
  unfold take. destruct cnt; [exact HS|]. rewrite <- (firstn_skipn (S cnt) (skipn ofs l)) in HS. exact (proj1 (nodup_app _ _ HS)).
Qed.

Lemma select_sub g fl ofs cnt E : sorted E -> NoDup (select g fl ofs cnt E) /\ incl (select g fl ofs cnt E) E.
Proof.
  intros HS. rewrite select_take. assert (NE : NoDup E) by (apply NoDup_map_inv with (f := bk); apply sorted_nodup; exact HS).
  set (F := filter (fun e => in_rg g e && matches fl e) E).
  assert (NF : NoDup F) by (apply NoDup_filter; exact NE).
  assert (IF : incl F E) by (intros x HX; apply filter_In in HX; tauto).
  unfold hits. fold F. split.
  - apply sub_nodup. destruct (desc g); [apply NoDup_rev; exact NF|exact NF].
  - intros x HX. apply sub_incl in HX. apply IF. destruct (desc g); [apply in_rev; exact HX|exact HX].
Qed.

Section Get.
Variables (s : bt) (E : list elem) (g : range) (fl : option efilter) (ofs cnt : nat) (del : bool).
Hypothesis HB : btree (b_T s) E.
Hypothesis HS : sorted E.
Hypothesis HN : b_n s = length E.
Hypothesis OK : ofilter_ok fl.
Let T := b_T s.

Definition get_post (res : option (list elem * bool * bt)) : Prop :=
  exists s', res = Some (select g fl ofs cnt E, trim_signal (absE s E) g fl ofs cnt, s') /\
    if del && negb (Nat.eqb (length (select g fl ofs cnt E)) 0) then deleted s s' E (select g fl ofs cnt E) else s' = s.

Lemma tree_E : tree T E.
Proof using HB. apply btree_tree. exact HB. Qed.
Lemma keys_E : incr_keys E.
Proof using HS. apply sorted_incr. exact HS. Qed.
Lemma E_nonempty : E <> [].
Proof using HB. exact (proj2 (first_elem_root T E tree_E)). Qed.

Lemma zero_pos l i : i < used (lev T 0) l -> (Nat.eqb l 0 && Nat.eqb i 0) = Nat.eqb (flat (lev T 0) l i) 0.
Proof using HB. clear HN.
  intros H. destruct (Nat.eqb_spec (flat (lev T 0) l i) 0) as [Z|Z].
  - assert (U0 : 0 < used (lev T 0) 0).
    { apply (tree_nonempty T E tree_E 0 (tree_length T E tree_E)). pose proof (used_lt _ _ _ H). lia. }
    destruct (flat_inj (lev T 0) l i 0 0 H U0) as (-> & ->); [|reflexivity]. rewrite Z. reflexivity.
  - destruct (Nat.eqb_spec l 0) as [->|]; [|reflexivity]. destruct (Nat.eqb_spec i 0) as [->|]; [|reflexivity]. unfold flat in Z. cbn in Z. congruence.
Qed.

Lemma last_pos l i : i < used (lev T 0) l -> (Nat.eqb (S l) (length (lev T 0)) && Nat.eqb (S i) (used (lev T 0) l)) = Nat.eqb (S (flat (lev T 0) l i)) (length E).
Proof using HB. clear HN.
  intros H. pose proof (used_lt _ _ _ H) as LL. set (L := lev T 0) in *.
  assert (LE : length (concat L) = length E) by (unfold L; rewrite (tree_leaf T E tree_E), map_length; reflexivity).
  pose proof (tree_nonempty T E tree_E 0 (tree_length T E tree_E)) as NE. fold L in NE.
  pose proof (flat_S L l LL) as FS.
  assert (FU : flat L l (used L l) = flat L l i + (used L l - i)) by (rewrite flat_add; f_equal; lia).
  destruct (Nat.eqb_spec (S l) (length L)) as [C|C]; cbn [andb].
  - pose proof (flat_end L (S l) ltac:(lia)) as FE. destruct (Nat.eqb_spec (S i) (used L l)) as [D|D]; symmetry; [apply Nat.eqb_eq|apply Nat.eqb_neq]; lia.
  - symmetry. apply Nat.eqb_neq. pose proof (flat_lt L (S l) 0 (NE (S l) ltac:(lia))) as FL. lia.
Qed.

Lemma overlapped_some l i q rt : i < used (lev T 0) l -> overlapped s T (mkPosi (Some l) i q) rt =
  match b_ovf s with
  | OvSmallest => Nat.eqb (flat (lev T 0) l i) 0 && match rt with ASC => true | _ => false end
  | OvLargest => Nat.eqb (S (flat (lev T 0) l i)) (length E) && match rt with DSC => true | _ => false end
  | _ => false
  end.
Proof using HB. clear HN.
  intros H. unfold overlapped. cbn [pn px]. destruct (b_ovf s); try reflexivity.
  - rewrite zero_pos by exact H. reflexivity.
  - rewrite last_pos by exact H. reflexivity.
Qed.

Lemma no_del l : select g fl ofs cnt E = [] -> l = trim_signal (absE s E) g fl ofs cnt -> get_post (Some ([], l, s)).
Proof using. intros H ->. exists s. rewrite H. split; [reflexivity|]. cbn [length Nat.eqb negb]. rewrite andb_false_r. reflexivity. Qed.

Lemma get_single : range_type g = SIN -> get_post (elem_get s SIN (Some g) fl ofs cnt del).
Proof using HB HS HN OK.
  intros RT. pose proof (proj1 (range_type_single g) RT) as SI. pose proof (range_type_ends g) as EN. rewrite RT in EN. destruct EN as (LO & HI).
  assert (DS : desc g = false). { destruct (desc g) eqn:D; [|reflexivity]. apply range_type_desc in D. congruence. }
  assert (HIT : hits g fl E = filter (fun x => keq (bk x) (r_from g) && matches fl x) E).
  { unfold hits. rewrite DS. apply filter_ext. intros x. f_equal. unfold in_rg, inside. rewrite LO, HI. unfold keq. apply andb_comm. }
  assert (TS : trim_signal (absE s E) g fl ofs cnt = b_trim s && match b_ovf s with
      | OvSmallest => match s_first E with Some mn => klt (r_from g) (bk mn) | None => false end
      | OvLargest => match s_last E with Some mx => klt (bk mx) (r_from g) | None => false end | _ => false end).
  { unfold trim_signal. cbn [absE s_trim s_ovf s_el]. rewrite DS, SI. cbn [negb orb]. unfold low_out, high_out. rewrite LO, HI. reflexivity. }
  unfold elem_get. fold T. destruct (find_first_spec T E tree_E keys_E SIN g) as (res & F1 & F2). rewrite F1.
  destruct F2 as [(l & i & p & e & -> & P1 & P2 & P3 & P4)|(r & R1 & R2 & R3 & R4)].
  - cbn [pn px peq]. pose proof (nth_error_In _ _ P2) as IN. destruct (first_in E e HS IN) as (A1 & A2). rewrite P3 in A1, A2.
    rewrite A1, A2 in TS. assert (TF : trim_signal (absE s E) g fl ofs cnt = false) by (rewrite TS; destruct (b_ovf s); apply andb_false_r).
    assert (SE : select g fl ofs cnt E = if Nat.eqb ofs 0 && matches fl e then [e] else []).
    { unfold select. rewrite HIT, <- P3, filter_key by assumption. destruct (matches fl e); [|rewrite skipn_nil, andb_false_r; destruct cnt; reflexivity].
      destruct ofs as [|o]; cbn [Nat.eqb andb skipn].
      - destruct cnt as [|c]; [reflexivity|]. cbn [take firstn]. rewrite firstn_nil. reflexivity.
      - rewrite skipn_nil. destruct cnt; reflexivity. }
    rewrite passes_spec by exact OK. destruct (Nat.eqb ofs 0 && matches fl e).
    + unfold get_post. destruct del eqn:DL.
      * destruct (elem_unlink_spec T E l i p HB P1 P4) as (T' & U1 & U2 & U3). rewrite U1. eexists. split; [rewrite SE, TF; reflexivity|].
        rewrite SE. cbn [andb negb Nat.eqb length]. exists T'. split; [f_equal; cbn [length]; lia|]. split; [exact U2|].
        rewrite (without_one E _ e HS P2). exact U3.
      * exists s. rewrite SE, TF. split; reflexivity.
    + apply no_del; [exact SE|symmetry; exact TF].
  - destruct R4 as (ps & p & -> & Q1 & Q2 & Q3). apply no_del.
    + unfold select. rewrite HIT, filter_none, skipn_nil; [destruct cnt; reflexivity|]. intros x HX. apply In_nth_error in HX. destruct HX as [j HX].
      destruct (Nat.ltb_spec j r) as [C|C]; [rewrite (klt_neq _ _ (R1 j x C HX))|rewrite (klt_neq' _ _ (R2 j x C HX))]; reflexivity.
    + rewrite TS. f_equal. destruct (first_of E r HS E_nonempty _ R1 R2 R3) as (A1 & A2). rewrite A1, A2. unfold overlapped.
      pose proof E_nonempty as NE. assert (0 < length E) by (destruct E; [congruence|cbn; lia]).
      destruct (Nat.eqb_spec r 0) as [Z|Z]; [rewrite (Q1 Z)|destruct (Nat.eqb_spec r (length E)) as [Z'|Z']; [rewrite (Q2 Z')|]].
      * cbn [pn px]. replace (Nat.eqb r (length E)) with false by (symmetry; apply Nat.eqb_neq; lia). destruct (b_ovf s); reflexivity.
      * cbn [pn px]. destruct (b_ovf s); reflexivity.
      * destruct (pn ps) as [k|] eqn:PN; [|exfalso; apply Q3; [lia|reflexivity]]. rewrite !andb_false_r. destruct (b_ovf s); reflexivity.
Qed.

Lemma lone_rev to from l mx : lone to from (rev l) mx = lone to from l mx.
Proof.
  destruct l as [|a [|b l]]; [reflexivity|reflexivity|]. unfold lone. cbn [rev]. destruct (rev l) as [|x [|y r]]; reflexivity.
Qed.

(* the walk, started at rank r, forwards or backwards *)
Lemma get_walk (fw : bool) l i p e t1 : range_type g = (if fw then ASC else DSC) ->
  i < used (lev T 0) l -> nth_error E (flat (lev T 0) l i) = Some e -> pvalid (tl T) p l -> beyond fw (Some g) e = false ->
  (forall j x, nth_error E j = Some x -> if fw then if Nat.ltb j (flat (lev T 0) l i) then klt (bk x) (r_from g) = true else kle (r_from g) (bk x) = true
                                      else if Nat.ltb (flat (lev T 0) l i) j then klt (r_from g) (bk x) = true else kle (bk x) (r_from g) = true) ->
  t1 = b_trim s && match b_ovf s with
       | OvSmallest => fw && match s_first E with Some mn => klt (r_from g) (bk mn) | None => false end
       | OvLargest => negb fw && match s_last E with Some mx => klt (bk mx) (r_from g) | None => false end
       | _ => false end ->
  get_post (match walk (S (total T)) fw (Some g) fl ofs cnt del (mkW T (mkPosi (Some l) i false) l i p 0 0 1 0 []) e with
            | None => None
            | Some w =>
                match leave w fw del with
                | None => None
                | Some w' =>
                    let t2 := match pn (wc w') with
                              | None => b_trim s && overlapped s T (wc w') (if fw then ASC else DSC)
                              | Some _ => false
                              end in
                    if del && Nat.ltb 0 (wtot w') then
                      match node_merge fw (wnodes w') l (wT w') p with
                      | None => None
                      | Some T' => Some (wacc w', t1 || t2, set_T s T' (b_n s - wtot w'))
                      end
                    else Some (wacc w', t1 || t2, s)
                end
            end).
Proof using HB HS HN OK.
  intros RT HI HE HP HBE HO ->. set (r := flat (lev T 0) l i) in *.
  assert (SI : single g = false). { destruct (single g) eqn:D; [|reflexivity]. apply range_type_single in D. destruct fw; congruence. }
  assert (DS : desc g = negb fw).
  { destruct (desc g) eqn:D; [apply range_type_desc in D; destruct fw; [congruence|reflexivity]|].
    destruct fw; [reflexivity|]. apply range_type_desc in RT. congruence. }
  pose proof (range_type_ends g) as EN. rewrite RT in EN.
  assert (LT : lt_dir fw (r_from g) (r_end g) = true) by (destruct fw; apply EN).
  set (V := dirlist E fw r).
  assert (HIT : forall P, (if fw then filter (fun x => in_rg g x && P x) E else rev (filter (fun x => in_rg g x && P x) E)) =
                          filter (fun x => negb (beyond fw (Some g) x) && P x) V).
  { intros P. unfold V, dirlist. destruct fw.
    - apply sel_asc; [exact LT| |]; intros j x HJ HX; specialize (HO j x HX); destruct (Nat.ltb_spec j r); auto; lia.
    - apply sel_dsc; [exact LT| |]; intros j x HJ HX; specialize (HO j x HX); destruct (Nat.ltb_spec r j); auto; lia. }
  assert (HITS : hits g fl E = filter (fun x => negb (beyond fw (Some g) x) && matches fl x) V).
  { rewrite <- HIT. unfold hits. rewrite DS. destruct fw; reflexivity. }
  assert (SEL : select g fl ofs cnt E = got fw (Some g) fl ofs cnt 0 [] V).
  { symmetry. unfold select. apply got_take; [symmetry; exact HITS|exact OK]. }
  destruct (run_walk fw (Some g) fl ofs cnt del T E l i p e HB HS HI HE (fun _ => HP) HBE) as (w & w' & W1 & W2 & W3 & W4 & W5 & W6).
  fold r in W3, W4, W5, W6. fold V in W3, W4, W5, W6. rewrite <- SEL in W3, W5, W6. rewrite W1, W2. cbv zeta.
  assert (RO : ran_out fw (Some g) fl ofs cnt false 0 [] V = exhausted g fl ofs cnt E &&
     (if fw then high_out g E || lone_edge (hi_of g) (s_last E) g E else low_out g E || lone_edge (lo_of g) (s_first E) g E)).
  { assert (EV : exists V' mx, V = V' ++ [mx] /\ (if fw then s_last E else s_first E) = Some mx).
    { unfold V, dirlist. destruct fw.
      - assert (SN : skipn r E <> []). { destruct (nth_error_split' E r e HE) as (Q & _). rewrite Q. discriminate. }
        destruct (exists_last SN) as (V' & mx & EV). exists V', mx. split; [exact EV|]. unfold s_last. rewrite <- (firstn_skipn r E), EV, !rev_app_distr. reflexivity.
      - pose proof E_nonempty as N. destruct E as [|x E'] eqn:EE; [congruence|]. exists (rev (firstn r E')), x. cbn [firstn rev]. split; reflexivity. }
    destruct EV as (V' & mx & EV & EM). pose proof (dirlist_mono E fw r HS) as MO. fold V in MO. rewrite EV in MO.
    pose proof (end_of_walk fw g V' mx MO LT) as EW. cbv zeta in EW. rewrite <- EV in EW.
    unfold ran_out. rewrite <- andb_assoc, EW. f_equal.
    - unfold exhausted. rewrite HITS, Nat.sub_0_r. cbn [length]. rewrite Nat.add_0_l.
      rewrite (filter_ext _ (fun x => negb (beyond fw (Some g) x) && matches fl x)) by (intros x; rewrite passes_spec by exact OK; reflexivity). reflexivity.
    - pose proof (HIT (fun _ => true)) as H1.
      rewrite (filter_ext (fun x => negb (beyond fw (Some g) x) && true) (fun x => negb (beyond fw (Some g) x))) in H1 by (intros x; apply andb_true_r).
      rewrite (filter_ext (fun x => in_rg g x && true) (in_rg g)) in H1 by (intros x; apply andb_true_r).
      destruct fw.
      + rewrite <- H1. unfold high_out, lone_edge, lone. rewrite EM. destruct EN as (_ & -> & _). cbn [lt_dir]. apply f_equal.
        destruct (filter (in_rg g) E) as [|x [|]]; reflexivity.
      + rewrite <- H1, lone_rev. unfold low_out, lone_edge, lone. rewrite EM. destruct EN as (_ & -> & _). cbn [lt_dir]. apply f_equal.
        destruct (filter (in_rg g) E) as [|x [|]]; reflexivity. }
  assert (TR : (b_trim s && match b_ovf s with
       | OvSmallest => fw && match s_first E with Some mn => klt (r_from g) (bk mn) | None => false end
       | OvLargest => negb fw && match s_last E with Some mx => klt (bk mx) (r_from g) | None => false end
       | _ => false end) || match pn (wc w') with
                              | None => b_trim s && overlapped s T (wc w') (if fw then ASC else DSC)
                              | Some _ => false
                              end = trim_signal (absE s E) g fl ofs cnt).
  { unfold trim_signal. cbn [absE s_trim s_ovf s_el]. rewrite DS, SI. rewrite negb_involutive, orb_false_r.
    assert (T2 : match pn (wc w') with None => b_trim s && overlapped s T (wc w') (if fw then ASC else DSC) | Some _ => false end =
                 b_trim s && match b_ovf s with OvSmallest => negb fw && ran_out fw (Some g) fl ofs cnt false 0 [] V
                                              | OvLargest => fw && ran_out fw (Some g) fl ofs cnt false 0 [] V | _ => false end).
    { destruct (ran_out fw (Some g) fl ofs cnt false 0 [] V).
      - rewrite W4. cbn [pn]. unfold overlapped. cbn [pn px]. destruct fw, (b_ovf s); reflexivity.
      - destruct (pn (wc w')); [|congruence]. rewrite !andb_false_r. destruct (b_ovf s); rewrite ?andb_false_r; reflexivity. }
    rewrite T2, RO. rewrite <- andb_orb_distrib_r. f_equal. unfold low_out, high_out.
    destruct fw; cbn [negb andb]; destruct EN as (EN1 & EN2 & _); rewrite EN1, EN2; destruct (b_ovf s); cbn [orb]; rewrite ?orb_false_r; reflexivity. }
  rewrite TR, W3, W5. unfold get_post.
  replace (Nat.ltb 0 (length (select g fl ofs cnt E))) with (negb (Nat.eqb (length (select g fl ofs cnt E)) 0)) by (destruct (length (select g fl ofs cnt E)); reflexivity).
  destruct (del && negb (Nat.eqb (length (select g fl ofs cnt E)) 0)) eqn:EC.
  - apply andb_true_iff in EC. destruct EC as (E1 & E2). apply negb_true_iff, Nat.eqb_neq in E2.
    destruct W6 as (T' & M1 & M2 & M3); [exact E1|intros Z; rewrite Z in E2; cbn in E2; congruence|].
    rewrite M1. eexists. split; [reflexivity|]. exists T'. rewrite HN. auto.
  - exists s. auto.
Qed.

Lemma get_asc : range_type g = ASC -> get_post (elem_get s ASC (Some g) fl ofs cnt del).
Proof using HB HS HN OK.
  intros RT. unfold elem_get. fold T. destruct (find_first_spec T E tree_E keys_E ASC g) as (res & F1 & F2). rewrite F1.
  pose proof (range_type_ends g) as EN. rewrite RT in EN. destruct EN as (LO & HI & LT & _).
  assert (SI : single g = false). { destruct (single g) eqn:D; [|reflexivity]. apply range_type_single in D. congruence. }
  assert (DS : desc g = false). { destruct (desc g) eqn:D; [|reflexivity]. apply range_type_desc in D. congruence. }
  destruct F2 as [(l & i & p & e & -> & P1 & P2 & P3 & P4)|(r & R1 & R2 & R3 & R4)].
  - cbn [pn px peq negb andb]. apply (get_walk true); auto.
    + unfold beyond. rewrite P3. apply klt_asym. exact LT.
    + intros j x HX. rewrite <- P3. destruct (Nat.ltb_spec j (flat (lev T 0) l i)) as [C|C]; [exact (keys_E _ _ _ _ C HX P2)|].
      destruct (Nat.eq_dec j (flat (lev T 0) l i)) as [->|NJ]; [rewrite P2 in HX; injection HX as <-; apply kle_refl|].
      apply klt_kle. apply (keys_E (flat (lev T 0) l i) j); [lia|assumption|assumption].
    + destruct (first_in E e HS (nth_error_In _ _ P2)) as (A1 & A2). rewrite P3 in A1. rewrite A1. destruct (b_ovf s); cbn [negb andb]; rewrite ?andb_false_r; reflexivity.
  - destruct (first_of E r HS E_nonempty _ R1 R2 R3) as (A1 & A2).
    assert (HIT : filter (fun x => in_rg g x && matches fl x) E = filter (fun x => negb (beyond true (Some g) x) && matches fl x) (skipn r E)).
    { apply sel_asc; [exact LT|exact R1|]. intros j x HJ HX. apply klt_kle. exact (R2 j x HJ HX). }
    assert (HIT1 : filter (in_rg g) E = filter (fun x => negb (beyond true (Some g) x)) (skipn r E)).
    { pose proof (sel_asc E g (fun _ => true) r LT R1 (fun j x HJ HX => klt_kle _ _ (R2 j x HJ HX))) as H1.
      rewrite (filter_ext (fun x => negb (beyond true (Some g) x) && true) (fun x => negb (beyond true (Some g) x))) in H1 by (intros x; apply andb_true_r).
      rewrite (filter_ext (fun x => in_rg g x && true) (in_rg g)) in H1 by (intros x; apply andb_true_r). exact H1. }
    destruct R4 as [(Z & p & ->)|(l & i & e & p & Q1 & Q2 & Q3 & -> & Q4)].
    + (* all elements are before the range *)
      rewrite Z, skipn_all in HIT. assert (H0 : hits g fl E = []) by (unfold hits; rewrite DS, HIT; reflexivity).
      apply no_del; [unfold select; rewrite H0, skipn_nil; destruct cnt; reflexivity|].
      unfold trim_signal. cbn [absE s_trim s_ovf s_el]. f_equal. rewrite DS, SI. cbn [negb orb]. unfold exhausted. rewrite H0, skipn_nil.
      unfold low_out, high_out. rewrite LO, HI, A1. unfold overlapped. cbn [pn px].
      assert (0 < length E) by (pose proof E_nonempty; destruct E; [congruence|cbn; lia]).
      replace (Nat.eqb r 0) with false by (symmetry; apply Nat.eqb_neq; lia).
      destruct (b_ovf s); try reflexivity. rewrite Z, Nat.eqb_refl in A2. destruct (s_last E) as [mx|]; [|discriminate].
      rewrite (klt_trans _ _ _ A2 LT). cbn [orb]. destruct cnt; reflexivity.
    + destruct (klt (r_end g) (bk e)) eqn:EB.
      * (* the next element is behind the range *)
        assert (NB : forall x, In x (skipn r E) -> beyond true (Some g) x = true).
        { intros x HX. unfold beyond. apply In_skipn_nth in HX. destruct HX as (j & J1 & J2). destruct (Nat.eq_dec r j) as [<-|NJ].
          - rewrite Q1 in J2. injection J2 as <-. exact EB.
          - eapply klt_trans; [exact EB|]. apply (keys_E r j); [lia|assumption|assumption]. }
        assert (H0 : hits g fl E = []) by (unfold hits; rewrite DS, HIT; apply filter_none; intros x HX; rewrite (NB x HX); reflexivity).
        assert (H1 : filter (in_rg g) E = []) by (rewrite HIT1; apply filter_none; intros x HX; rewrite (NB x HX); reflexivity).
        apply no_del; [unfold select; rewrite H0, skipn_nil; destruct cnt; reflexivity|].
        unfold trim_signal. cbn [absE s_trim s_ovf s_el]. f_equal. rewrite DS, SI. cbn [negb orb]. rewrite overlapped_some by exact Q2.
        unfold lone_edge. rewrite H1. unfold low_out, high_out. rewrite LO, HI, A1, Q3.
        destruct (b_ovf s); try reflexivity; [apply andb_true_r|]. rewrite andb_false_r, orb_false_r. symmetry. apply andb_false_iff. right.
        destruct (first_in E e HS (nth_error_In _ _ Q1)) as (_ & A3). destruct (s_last E) as [mx|]; [|reflexivity].
        apply klt_asym. apply klt_false in A3. eapply klt_kle_trans; eassumption.
      * cbn [pn px peq negb andb]. rewrite <- Q3 in Q1. apply (get_walk true); auto.
        -- intros j x HX. rewrite Q3. destruct (Nat.ltb_spec j r) as [C|C]; [exact (R1 j x C HX)|]. apply klt_kle. exact (R2 j x C HX).
        -- f_equal. rewrite overlapped_some by exact Q2. rewrite A1, Q3. destruct (b_ovf s); cbn [negb andb]; rewrite ?andb_true_r, ?andb_false_r; reflexivity.
Qed.

Lemma get_dsc : range_type g = DSC -> get_post (elem_get s DSC (Some g) fl ofs cnt del).
Proof using HB HS HN OK.
  intros RT. unfold elem_get. fold T. destruct (find_first_spec T E tree_E keys_E DSC g) as (res & F1 & F2). rewrite F1.
  pose proof (range_type_ends g) as EN. rewrite RT in EN. destruct EN as (HI & LO & LT & _).
  assert (DS : desc g = true) by (apply range_type_desc; exact RT).
  destruct F2 as [(l & i & p & e & -> & P1 & P2 & P3 & P4)|(r & R1 & R2 & R3 & R4)].
  - cbn [pn px peq negb andb]. apply (get_walk false); auto.
    + unfold beyond. rewrite P3. apply klt_asym. exact LT.
    + intros j x HX. rewrite <- P3. destruct (Nat.ltb_spec (flat (lev T 0) l i) j) as [C|C]; [exact (keys_E _ _ _ _ C P2 HX)|].
      destruct (Nat.eq_dec j (flat (lev T 0) l i)) as [->|NJ]; [rewrite P2 in HX; injection HX as <-; apply kle_refl|].
      apply klt_kle. apply (keys_E j (flat (lev T 0) l i)); [lia|assumption|assumption].
    + destruct (first_in E e HS (nth_error_In _ _ P2)) as (A1 & A2). rewrite P3 in A2. rewrite A2. destruct (b_ovf s); cbn [negb andb]; rewrite ?andb_false_r; reflexivity.
  - destruct (first_of E r HS E_nonempty _ R1 R2 R3) as (A1 & A2).
    assert (HIT : rev (filter (fun x => in_rg g x && matches fl x) E) = filter (fun x => negb (beyond false (Some g) x) && matches fl x) (rev (firstn r E))).
    { apply sel_dsc; [exact LT| |exact R2]. intros j x HJ HX. apply klt_kle. exact (R1 j x HJ HX). }
    assert (HIT1 : rev (filter (in_rg g) E) = filter (fun x => negb (beyond false (Some g) x)) (rev (firstn r E))).
    { pose proof (sel_dsc E g (fun _ => true) r LT (fun j x HJ HX => klt_kle _ _ (R1 j x HJ HX)) R2) as H1.
      rewrite (filter_ext (fun x => negb (beyond false (Some g) x) && true) (fun x => negb (beyond false (Some g) x))) in H1 by (intros x; apply andb_true_r).
      rewrite (filter_ext (fun x => in_rg g x && true) (in_rg g)) in H1 by (intros x; apply andb_true_r). exact H1. }
    destruct R4 as [(Z & p & ->)|(l & i & e & p & Q0 & Q1 & Q2 & Q3 & -> & Q4)].
    + rewrite Z in HIT. cbn [firstn rev filter] in HIT. assert (H0 : hits g fl E = []) by (unfold hits; rewrite DS, HIT; reflexivity).
      apply no_del; [unfold select; rewrite H0, skipn_nil; destruct cnt; reflexivity|].
      unfold trim_signal. cbn [absE s_trim s_ovf s_el]. f_equal. rewrite DS. cbn [negb orb]. unfold exhausted. rewrite H0, skipn_nil.
      unfold low_out, high_out. rewrite LO, HI, A2. unfold overlapped. cbn [pn px].
      assert (0 < length E) by (pose proof E_nonempty; destruct E; [congruence|cbn; lia]).
      replace (Nat.eqb r (length E)) with false by (symmetry; apply Nat.eqb_neq; lia).
      destruct (b_ovf s); try reflexivity. rewrite Z in A1. cbn in A1. destruct (s_first E) as [mn|]; [|discriminate].
      rewrite (klt_trans _ _ _ LT A1). cbn [orb]. destruct cnt; reflexivity.
    + destruct (klt (bk e) (r_end g)) eqn:EB.
      * assert (NB : forall x, In x (rev (firstn r E)) -> beyond false (Some g) x = true).
        { intros x HX. apply in_rev in HX. unfold beyond. apply In_firstn_nth in HX. destruct HX as (j & J1 & J2). destruct (Nat.eq_dec (r - 1) j) as [EJ|NJ].
          - rewrite EJ in Q1. rewrite Q1 in J2. injection J2 as <-. exact EB.
          - eapply klt_trans; [|exact EB]. apply (keys_E j (r - 1)); [lia|assumption|assumption]. }
        assert (H0 : hits g fl E = []) by (unfold hits; rewrite DS, HIT; apply filter_none; intros x HX; rewrite (NB x HX); reflexivity).
        assert (H1 : filter (in_rg g) E = []).
        { apply (f_equal (@rev _)) in HIT1. rewrite rev_involutive in HIT1. rewrite HIT1, filter_none; [reflexivity|]. intros x HX. rewrite (NB x HX). reflexivity. }
        apply no_del; [unfold select; rewrite H0, skipn_nil; destruct cnt; reflexivity|].
        unfold trim_signal. cbn [absE s_trim s_ovf s_el]. f_equal. rewrite DS. cbn [negb orb]. rewrite overlapped_some by exact Q2.
        unfold lone_edge. rewrite H1. unfold low_out, high_out. rewrite LO, HI, A2, Q3.
        replace (S (r - 1)) with r by lia.
        destruct (b_ovf s); try reflexivity; [|apply andb_true_r]. rewrite andb_false_r, orb_false_r. symmetry. apply andb_false_iff. right.
        destruct (first_in E e HS (nth_error_In _ _ Q1)) as (A3 & _). destruct (s_first E) as [mn|]; [|reflexivity].
        apply klt_asym. apply klt_false in A3. eapply kle_klt_trans; eassumption.
      * cbn [pn px peq negb andb]. rewrite <- Q3 in Q1. apply (get_walk false); auto.
        -- intros j x HX. rewrite Q3. destruct (Nat.ltb_spec (r - 1) j) as [C|C]; [apply (R2 j x); [lia|exact HX]|]. apply klt_kle. apply (R1 j x); [lia|exact HX].
        -- f_equal. rewrite overlapped_some by exact Q2. rewrite A2, Q3. replace (S (r - 1)) with r by lia. destruct (b_ovf s); cbn [negb andb]; rewrite ?andb_true_r, ?andb_false_r; reflexivity.
Qed.

Lemma elem_get_spec : get_post (elem_get s (range_type g) (Some g) fl ofs cnt del).
Proof using HB HS HN OK.
  destruct (range_type g) eqn:RT; [apply get_single|apply get_asc|apply get_dsc]; exact RT.
Qed.
End Get.
