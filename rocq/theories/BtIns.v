(* Insertion: the tree operation, overflow and trim agree with the specification *)
From Verif Require Import Base UtilModel BtModel BtSpec BtOrder BtLevel BtFind BtSplit BtMerge BtMerge2 BtWalk BtGet BtGet2 BtOps BtKeys.
Local Open Scope nat_scope.

Definition typed (t : btype) (k : bkey) : Prop := kok k /\ t = type_of k.

Record inv (s : bt) (E : list elem) : Prop := mkInv {
  i_tree : b_T s = [] /\ E = [] \/ btree (b_T s) E;
  i_depth : length (b_T s) <= MAX_DEPTH;
  i_n : b_n s = length E;
  i_sorted : sorted E;
  i_keys : Forall (fun e => typed (b_type s) (bk e)) E;
  i_range : forall r, b_range s = Some r -> typed (b_type s) r }.

Lemma btree_nonempty T E : btree T E -> E <> [] /\ T <> [].
Proof.
  intros H. pose proof (btree_tree _ _ H) as HT. split.
  - exact (proj2 (first_elem_root T E HT)).
  - intros ->. exact HT.
Qed.

Lemma btree_ends T E : btree T E -> first_elem T (depth T) 0 = s_first E /\ last_elem T (depth T) 0 = s_last E.
Proof. intros H. pose proof (btree_tree _ _ H) as HT. split; [exact (proj1 (first_elem_root T E HT))|exact (last_elem_root T E HT)]. Qed.

Lemma find_key T E b : btree T E -> sorted E ->
  match lookup b E with
  | Some x => exists l i p, find_first T SIN (Some (mkR b None)) = Some (Some x, mkPosi (Some l) i true, p) /\ i < used (lev T 0) l /\
                nth_error E (flat (lev T 0) l i) = Some x /\ bk x = b /\ pvalid (tl T) p l
  | None => exists ps p, find_first T SIN (Some (mkR b None)) = Some (None, ps, p)
  end.
Proof.
  intros HB HS. pose proof (btree_tree _ _ HB) as HT. pose proof (proj1 (sorted_incr E) HS) as HK.
  destruct (find_first_spec T E HT HK SIN (mkR b None)) as (res & F1 & [(l & i & p & e & -> & A1 & A2 & A3 & A4)|(r & R1 & R2 & R3 & ps & p & -> & _)]); cbn [r_from] in *.
  - subst b. rewrite (lookup_at E _ e HS A2). exists l, i, p. auto.
  - destruct (rank_no_key E b r R1 R2) as (_ & ->). exists ps, p. exact F1.
Qed.

(* ---------- order facts about the ends ---------- *)

Lemma hd_in E mn : s_first E = Some mn -> In mn E.
Proof. unfold s_first. destruct E; cbn; [discriminate|]. intros [= ->]. left. reflexivity. Qed.
Lemma last_in E mx : s_last E = Some mx -> In mx E.
Proof. unfold s_last. intros H. apply in_rev. destruct (rev E); cbn in H; [discriminate|]. injection H as ->. left. reflexivity. Qed.

Lemma first_le E mn x : sorted E -> s_first E = Some mn -> In x E -> kle (bk mn) (bk x) = true.
Proof.
  intros HS HF HX. unfold s_first in HF. destruct E as [|y E]; [discriminate|]. cbn in HF. injection HF as ->. destruct HS as (H1 & _).
  destruct HX as [<-|HX]; [apply kle_refl|]. apply klt_kle. apply H1. exact HX.
Qed.
Lemma last_ge E mx x : sorted E -> s_last E = Some mx -> In x E -> kle (bk x) (bk mx) = true.
Proof.
  intros HS HF HX. unfold s_last in HF. destruct (rev E) as [|y l] eqn:R; [discriminate|]. cbn in HF. injection HF as ->.
  assert (EE : E = rev l ++ [mx]) by (rewrite <- (rev_involutive E), R; reflexivity). subst E.
  apply sorted_app_iff in HS. destruct HS as (_ & _ & H). apply in_app_or in HX. destruct HX as [HX|[<-|[]]]; [|apply kle_refl].
  apply klt_kle. apply H; [exact HX|left; reflexivity].
Qed.

Lemma ins_first E e mn : s_first E = Some mn -> s_first (ins e E) = Some (if klt (bk e) (bk mn) then e else mn).
Proof. unfold s_first. destruct E as [|x E]; [discriminate|]. cbn. intros [= ->]. destruct (klt (bk e) (bk mn)); reflexivity. Qed.

Lemma ins_last E e mx : sorted E -> s_last E = Some mx -> s_last (ins e E) = Some (if klt (bk mx) (bk e) then e else mx) \/ keq (bk e) (bk mx) = true.
Proof.
  intros HS HF. destruct (keq (bk e) (bk mx)) eqn:EK; [right; reflexivity|left].
  unfold s_last in *. destruct (rev E) as [|y l] eqn:R; [discriminate|]. cbn in HF. injection HF as ->.
  assert (EE : E = rev l ++ [mx]) by (rewrite <- (rev_involutive E), R; reflexivity). subst E.
  apply sorted_app_iff in HS. destruct HS as (_ & _ & H).
  assert (G : forall A, (forall x, In x A -> klt (bk x) (bk mx) = true) -> hd_error (rev (ins e (A ++ [mx]))) = Some (if klt (bk mx) (bk e) then e else mx)).
  { clear - EK. induction A as [|a A IH]; intros HA; cbn [app ins].
    - destruct (klt (bk e) (bk mx)) eqn:C1; destruct (klt (bk mx) (bk e)) eqn:C2; cbn; try reflexivity.
      + rewrite (klt_asym _ _ C1) in C2. discriminate.
      + rewrite (klt_total _ _ C1 C2), keq_refl in EK. discriminate.
    - destruct (klt (bk e) (bk a)) eqn:C.
      + cbn [rev]. rewrite rev_app_distr. cbn. rewrite (klt_asym (bk e) (bk mx)); [reflexivity|].
        eapply klt_trans; [exact C|]. apply HA. left. reflexivity.
      + cbn [rev]. specialize (IH (fun x HX => HA x (or_intror HX))). destruct (rev (ins e (A ++ [mx]))); [discriminate|]. cbn in *. exact IH. }
  apply G. intros x HX. apply H; [exact HX|left; reflexivity].
Qed.

Lemma hits_none g E : hits g None E = if desc g then rev (filter (in_rg g) E) else filter (in_rg g) E.
Proof.
  unfold hits. assert (F : filter (fun e => in_rg g e && matches None e) E = filter (in_rg g) E) by (apply filter_ext; intros x; apply andb_true_r).
  rewrite F. reflexivity.
Qed.

Lemma select_none g E : sorted E -> without (select g None 0 0 E) E = filter (fun x => negb (in_rg g x)) E.
Proof.
  intros HS. unfold without. apply filter_ext_in. intros x HX. f_equal. unfold select. cbn [skipn take]. rewrite hits_none.
  destruct (in_rg g x) eqn:EG.
  - apply has_key_In. exists x. split; [|reflexivity]. destruct (desc g); [apply in_rev; rewrite rev_involutive|]; apply filter_In; auto.
  - destruct (has_key _ _) eqn:EH; [|reflexivity]. apply has_key_In in EH. destruct EH as (d & D1 & D2).
    assert (D3 : In d (filter (in_rg g) E)) by (destruct (desc g); [apply in_rev in D1|]; exact D1). apply filter_In in D3. destruct D3 as (D3 & D4).
    rewrite (sorted_key E d x HS D3 HX D2) in D4. congruence.
Qed.

(* ---------- delete ---------- *)

Lemma elem_delete_spec s E g fl ofs cnt : btree (b_T s) E -> sorted E -> b_n s = length E -> ofilter_ok fl ->
  exists s', elem_delete s (range_type g) (Some g) fl ofs cnt = Some (length (select g fl ofs cnt E), s') /\
    if Nat.eqb (length (select g fl ofs cnt E)) 0 then s' = s else deleted s s' E (select g fl ofs cnt E).
Proof.
  intros HB HS HN OK. destruct (elem_get_spec s E g fl ofs cnt true HB HS HN OK) as (s' & G1 & G2).
  unfold elem_delete. destruct (b_T s) as [|L Us] eqn:ET; [destruct (btree_nonempty _ _ HB); congruence|]. rewrite G1. exists s'. split; [reflexivity|].
  cbn [andb] in G2. destruct (Nat.eqb _ 0); exact G2.
Qed.

Lemma sorted_filter P E : sorted E -> sorted (filter P E).
Proof.
  induction E as [|x E IH]; intros H; [exact I|]. destruct H as (H1 & H2). cbn [filter]. destruct (P x); [|auto]. split; [|auto].
  intros y HY. apply filter_In in HY. apply H1. tauto.
Qed.
Lemma Forall_filter {A} (P : A -> Prop) f l : Forall P l -> Forall P (filter f l).
Proof. intros H. apply Forall_forall. intros x HX. apply filter_In in HX. exact (proj1 (Forall_forall _ _) H x (proj1 HX)). Qed.

Lemma inv_deleted s s' E D : inv s E -> deleted s s' E D -> NoDup D -> incl D E ->
  inv s' (without D E) /\ absE s' (without D E) = with_el (absE s E) (without D E).
Proof.
  intros HI (T' & -> & D1 & D2) ND IN. destruct HI as [I1 I2 I3 I4 I5 I6]. split; [|reflexivity].
  constructor; cbn [b_T b_n b_type b_range set_T].
  - exact D2.
  - lia.
  - symmetry. apply without_length; assumption.
  - apply sorted_filter. exact I4.
  - apply Forall_filter. exact I5.
  - exact I6.
Qed.

(* ---------- overflow ---------- *)

Definition cls (a : ovact) : bool * bool := (smallest a, largest a).
Lemma smallest_spec a : smallest a = drops_low a. Proof. destruct a; reflexivity. Qed.
Lemma largest_spec a : largest a = drops_high a. Proof. destruct a; reflexivity. Qed.
Lemma loud_spec a : loud a = signals a. Proof. destruct a; reflexivity. Qed.

Lemma typed_like t r k : typed t r -> typed t k -> like r k.
Proof. intros (_ & A) (_ & B). subst t. destruct r, k; cbn in *; try discriminate; exact I. Qed.

Definition check_result (s : bt) (E : list elem) (e : elem) : rc * ovt * bt :=
  match range_verdict (absE s E) (bk e) with
  | RRefused => (EBKEYOOR, OvNone, s)
  | RDrop _ _ => (SUCC, OvRange, s)
  | RFits =>
      if Nat.ltb (length E) (b_max s) then (SUCC, OvNone, s)
      else
        let mark := if signals (b_ovf s) then set_trim s true else s in
        if drops_low (b_ovf s) then
          if match s_first E with Some mn => klt (bk e) (bk mn) | None => false end then (EBKEYOOR, OvNone, mark) else (SUCC, OvCount, s)
        else if drops_high (b_ovf s) then
          if match s_last E with Some mx => klt (bk mx) (bk e) | None => false end then (EBKEYOOR, OvNone, mark) else (SUCC, OvCount, s)
        else (EOVERFLOW, OvNone, s)
  end.

Lemma overflow_check_spec s T E e : btree T E -> sorted E -> b_n s = length E -> Forall (fun e => typed (b_type s) (bk e)) E ->
  (forall r, b_range s = Some r -> typed (b_type s) r) -> typed (b_type s) (bk e) ->
  overflow_check s T e = Some (check_result s E e).
Proof.
  intros HB HS HN HF HR HE. unfold overflow_check, check_result, range_verdict. destruct (btree_ends T E HB) as (FE & LE). rewrite FE, LE.
  cbn [absE s_range s_el s_ovf]. destruct (btree_nonempty T E HB) as (NE & _).
  destruct (s_first E) as [mn|] eqn:EF; [|unfold s_first in EF; destruct E; [congruence|discriminate]].
  destruct (s_last E) as [mx|] eqn:EL.
  2:{ unfold s_last in EL. destruct (rev E) as [|x l] eqn:R; [|discriminate]. apply (f_equal (@rev _)) in R. rewrite rev_involutive in R. cbn in R. congruence. }
  pose proof (proj1 (Forall_forall _ _) HF mn (hd_in E mn EF)) as TMN. pose proof (proj1 (Forall_forall _ _) HF mx (last_in E mx EL)) as TMX. cbn in TMN, TMX.
  pose proof (first_le E mn mx HS EF (last_in E mx EL)) as MM.
  rewrite b_islt_spec, b_isgt_spec.
  assert (TAIL : (if Nat.leb (b_max s) (b_n s) then
            match b_ovf s with
            | OvError => Some (EOVERFLOW, OvNone, s)
            | OvSmallest | OvSmallestSilent =>
                if klt (bk e) (bk mn) then Some (EBKEYOOR, OvNone, if loud (b_ovf s) then set_trim s true else s) else Some (SUCC, OvCount, s)
            | OvLargest | OvLargestSilent =>
                if klt (bk mx) (bk e) then Some (EBKEYOOR, OvNone, if loud (b_ovf s) then set_trim s true else s) else Some (SUCC, OvCount, s)
            end
          else Some (SUCC, OvNone, s)) = Some (if Nat.ltb (length E) (b_max s) then (SUCC, OvNone, s)
      else
        if drops_low (b_ovf s) then
          if klt (bk e) (bk mn) then (EBKEYOOR, OvNone, if signals (b_ovf s) then set_trim s true else s) else (SUCC, OvCount, s)
        else if drops_high (b_ovf s) then
          if klt (bk mx) (bk e) then (EBKEYOOR, OvNone, if signals (b_ovf s) then set_trim s true else s) else (SUCC, OvCount, s)
        else (EOVERFLOW, OvNone, s))).
  { rewrite HN, loud_spec. destruct (Nat.leb_spec (b_max s) (length E)) as [C|C].
    - rewrite (proj2 (Nat.ltb_ge _ _)) by exact C. destruct (b_ovf s); cbn [drops_low drops_high signals]; try reflexivity;
        destruct (klt _ _); reflexivity.
    - rewrite (proj2 (Nat.ltb_lt _ _)) by exact C. reflexivity. }
  destruct (b_range s) as [r|] eqn:ER; [|exact TAIL]. pose proof (HR r eq_refl) as TR.
  pose proof (typed_like _ _ _ TR TMN) as LMN. pose proof (typed_like _ _ _ TR TMX) as LMX. pose proof (typed_like _ _ _ TR HE) as LXE.
  destruct TR as (KR & _). destruct TMN as (KMN & _). destruct TMX as (KMX & _). destruct HE as (KE & _).
  rewrite largest_spec, smallest_spec.
  destruct (klt (bk e) (bk mn)) eqn:C1; cbn [andb].
  - pose proof (klt_kle_trans _ _ _ C1 MM) as C3. pose proof (measure_mono r _ _ KE KMX LXE LMX C3) as M1.
    rewrite (b_diff_spec r _ _ KMX KE LMX LXE M1).
    rewrite b_isgt_key_of; [|exact KR|eapply room_le; [|apply (room_measure r (bk mx) KMX LMX)]; lia].
    destruct (N.ltb _ _).
    + destruct (drops_high (b_ovf s)); reflexivity.
    + rewrite (klt_asym _ _ C3) in TAIL |- *. cbn [andb]. exact TAIL.
  - destruct (klt (bk mx) (bk e)) eqn:C2; cbn [andb]; [|exact TAIL].
    pose proof (kle_klt_trans _ _ _ MM C2) as C3. pose proof (measure_mono r _ _ KMN KE LMN LXE C3) as M1.
    rewrite (b_diff_spec r _ _ KE KMN LXE LMN M1).
    rewrite b_isgt_key_of; [|exact KR|eapply room_le; [|apply (room_measure r (bk e) KE LXE)]; lia].
    destruct (N.ltb _ _); [destruct (drops_low (b_ovf s)); reflexivity|exact TAIL].
Qed.

Lemma in_rg_ends a b e : bk e = a \/ bk e = b -> in_rg (mkR a (Some b)) e = true.
Proof.
  intros H. unfold in_rg, inside, lo_of, hi_of. cbn [r_from r_to]. destruct (klt a b) eqn:C.
  - apply klt_kle in C. destruct H as [->| ->]; rewrite ?kle_refl, C; reflexivity.
  - apply klt_false in C. destruct H as [->| ->]; rewrite ?kle_refl, C; reflexivity.
Qed.

Lemma in_rg_out a b e : klt a (bk e) = true /\ klt b (bk e) = true \/ klt (bk e) a = true /\ klt (bk e) b = true -> in_rg (mkR a (Some b)) e = false.
Proof.
  intros H. unfold in_rg, inside, lo_of, hi_of, kle. cbn [r_from r_to]. destruct H as [(H1 & H2)|(H1 & H2)].
  - destruct (klt a b); rewrite ?H1, ?H2; apply andb_false_r.
  - destruct (klt a b); rewrite ?H1, ?H2; reflexivity.
Qed.

Lemma trim_range_spec s E e a b : btree (b_T s) (ins e E) -> sorted E -> E <> [] -> has_key (bk e) E = false -> b_n s = length (ins e E) ->
  Forall (fun e => typed (b_type s) (bk e)) E -> (forall r, b_range s = Some r -> typed (b_type s) r) -> typed (b_type s) (bk e) ->
  range_verdict (absE s E) (bk e) = RDrop a b ->
  exists s', overflow_trim s e OvRange = Some (None, if signals (b_ovf s) then set_trim s' false else s') /\
    deleted s s' (ins e E) (select (mkR a (Some b)) None 0 0 (ins e E)).
Proof.
  intros HB HS NE NK HN HF HR HE RV. pose proof (ins_sorted e E HS NK) as HS'. unfold overflow_trim. destruct (btree_ends _ _ HB) as (FE & LE). rewrite FE, LE.
  unfold range_verdict in RV. cbn [absE s_range s_el s_ovf] in RV.
  destruct (b_range s) as [r|] eqn:ER; [|discriminate]. pose proof (HR r eq_refl) as TR.
  destruct (s_first E) as [mn|] eqn:EF; [|discriminate]. destruct (s_last E) as [mx|] eqn:EL; [|discriminate].
  pose proof (proj1 (Forall_forall _ _) HF mn (hd_in E mn EF)) as TMN. pose proof (proj1 (Forall_forall _ _) HF mx (last_in E mx EL)) as TMX. cbn in TMN, TMX.
  pose proof (first_le E mn mx HS EF (last_in E mx EL)) as MM.
  pose proof (typed_like _ _ _ TR TMN) as LMN. pose proof (typed_like _ _ _ TR TMX) as LMX. pose proof (typed_like _ _ _ TR HE) as LXE. pose proof (typed_like _ _ _ TR TR) as LRR.
  destruct TR as (KR & _). destruct TMN as (KMN & _). destruct TMX as (KMX & _). destruct HE as (KE & _).
  pose proof (ins_first E e mn EF) as IF. rewrite IF.
  assert (IL : s_last (ins e E) = Some (if klt (bk mx) (bk e) then e else mx)).
  { destruct (ins_last E e mx HS EL) as [IL|IL]; [exact IL|]. exfalso. apply keq_eq in IL.
    assert (K : has_key (bk e) E = true) by (apply has_key_In; exists mx; split; [apply last_in; exact EL|congruence]). congruence. }
  rewrite IL. rewrite smallest_spec.
  set (RR := mkR a (Some b)).
  assert (GO : forall w, In w (ins e E) -> bk w = a \/ bk w = b -> in_rg RR e = false ->
     exists s' : bt,
     match elem_delete s (range_type RR) (Some RR) None 0 0 with
     | Some (c, s'0) => if Nat.ltb 0 c && Nat.ltb 0 (b_n s'0) then Some (None, if loud (b_ovf s) then set_trim s'0 false else s'0) else None
     | None => None
     end = Some (@None elem, if signals (b_ovf s) then set_trim s' false else s') /\ deleted s s' (ins e E) (select RR None 0 0 (ins e E))).
  { intros w HW W OUT. destruct (elem_delete_spec s (ins e E) RR None 0 0 HB HS' HN I) as (s' & G1 & G2). rewrite G1.
    assert (HIT : In w (select RR None 0 0 (ins e E))).
    { unfold select. cbn [skipn take]. rewrite hits_none. assert (IN : In w (filter (in_rg RR) (ins e E))) by (apply filter_In; split; [exact HW|apply in_rg_ends; exact W]).
      destruct (desc RR); [apply in_rev; rewrite rev_involutive|]; exact IN. }
    assert (LP : 0 < length (select RR None 0 0 (ins e E))) by (destruct (select RR None 0 0 (ins e E)); [contradiction|cbn; lia]).
    rewrite (proj2 (Nat.eqb_neq _ _)) in G2 by lia. exists s'. split; [|exact G2].
    destruct G2 as (T' & ES & _ & D2). destruct (select_sub RR None 0 0 (ins e E) HS') as (ND & IN).
    assert (BN : 0 < b_n s').
    { rewrite ES. cbn [b_n set_T]. rewrite <- (without_length _ _ HS' ND IN), select_none by exact HS'.
      assert (IE : In e (filter (fun x => negb (in_rg RR x)) (ins e E))) by (apply filter_In; split; [apply ins_In; left; reflexivity|rewrite OUT; reflexivity]).
      destruct (filter _ _); [contradiction|cbn; lia]. }
    rewrite (proj2 (Nat.ltb_lt 0 _)) by exact LP. rewrite (proj2 (Nat.ltb_lt 0 _)) by exact BN. cbn [andb]. rewrite loud_spec. reflexivity. }
  destruct (klt (bk e) (bk mn)) eqn:C1; cbn [andb] in RV.
  - pose proof (klt_kle_trans _ _ _ C1 MM) as C3. pose proof (measure_mono r _ _ KE KMX LXE LMX C3) as M1. rewrite (klt_asym _ _ C3) in RV, IL |- *. cbn [andb] in RV.
    destruct (N.ltb_spec (measure r r) (measure r (bk mx) - measure r (bk e))) as [M2|M2]; [|discriminate].
    destruct (drops_high (b_ovf s)) eqn:DH; [|discriminate]. assert (DL : drops_low (b_ovf s) = false) by (destruct (b_ovf s); cbn in *; congruence). rewrite DL.
    injection RV as RA RB.
    pose proof (room_measure r (bk mx) KMX LMX) as RMX.
    rewrite (b_diff_spec r _ _ KMX KE LMX LXE M1).
    assert (R1 : room r (measure r (bk mx) - measure r (bk e))) by (eapply room_le; [|exact RMX]; lia).
    rewrite (b_diff_spec r _ r); [|apply key_of_kok|exact KR|apply key_of_like|exact LRR|rewrite measure_key_of by exact R1; lia].
    rewrite measure_key_of by exact R1.
    assert (R2 : room r (measure r (bk mx) - measure r (bk e) - measure r r)) by (eapply room_le; [|exact RMX]; lia).
    rewrite b_decr_spec by (lia || exact R2).
    assert (R3 : room r (measure r (bk mx) - measure r (bk e) - measure r r - 1)) by (eapply room_le; [|exact RMX]; lia).
    rewrite (b_diff_spec r); [|exact KMX|apply key_of_kok|exact LMX|apply key_of_like|rewrite measure_key_of by exact R3; lia].
    rewrite measure_key_of by exact R3.
    replace (measure r (bk mx) - (measure r (bk mx) - measure r (bk e) - measure r r - 1))%N with (measure r (bk e) + measure r r + 1)%N by lia.
    rewrite RA, RB. fold RR.
    apply (GO mx).
    + apply ins_In. right. apply last_in. exact EL.
    + right. exact RB.
    + apply in_rg_out. right. split; [|rewrite <- RB; exact C3]. rewrite <- RA.
      apply (measure_lt r); [exact KE|apply key_of_kok|exact LXE|apply key_of_like|]. rewrite measure_key_of; [lia|]. eapply room_le; [|exact RMX]. lia.
  - destruct (klt (bk mx) (bk e)) eqn:C2; cbn [andb] in RV; [|discriminate].
    pose proof (kle_klt_trans _ _ _ MM C2) as C3. pose proof (measure_mono r _ _ KMN KE LMN LXE C3) as M1.
    destruct (N.ltb_spec (measure r r) (measure r (bk e) - measure r (bk mn))) as [M2|M2]; [|discriminate].
    destruct (drops_low (b_ovf s)) eqn:DL; [|discriminate]. injection RV as RA RB.
    pose proof (room_measure r (bk e) KE LXE) as RE.
    rewrite (b_diff_spec r _ r KE KR LXE LRR) by lia.
    assert (R1 : room r (measure r (bk e) - measure r r)) by (eapply room_le; [|exact RE]; lia).
    rewrite b_decr_spec by (lia || exact R1).
    rewrite RA, RB. fold RR.
    apply (GO mn).
    + apply ins_In. right. apply hd_in. exact EF.
    + left. exact RA.
    + apply in_rg_out. left. split; [rewrite <- RA; exact C3|]. rewrite <- RB.
      apply (measure_lt r); [apply key_of_kok|exact KE|apply key_of_like|exact LXE|]. rewrite measure_key_of; [lia|]. eapply room_le; [|exact R1]. lia.
Qed.

Lemma first_posi T E : btree T E -> exists p, first_leaf T (depth T) 0 = (0, p) /\ pvalid (tl T) p 0 /\ 0 < used (lev T 0) 0.
Proof.
  intros HB. pose proof (btree_tree _ _ HB) as HT. destruct (find_first_all T E HT) as (p & e & F & _ & P & U). unfold find_first in F.
  destruct (first_leaf T (depth T) 0) as (k & q). destruct (elem_at T k 0); [|discriminate]. injection F as _ -> ->. exists p. auto.
Qed.

Lemma last_posi T E : btree T E -> exists l p, last_leaf T (depth T) 0 = (l, p) /\ pvalid (tl T) p l /\ 0 < used (lev T 0) l /\
  flat (lev T 0) l (used (lev T 0) l - 1) = length E - 1.
Proof.
  intros HB. pose proof (btree_tree _ _ HB) as HT. pose proof (tree_length T E HT) as TL. pose proof (tree_top T E HT) as TT.
  destruct (last_leaf_spec T E HT (depth T) ltac:(unfold depth; lia) 0 ltac:(lia)) as (l & p & E1 & E2 & E3 & E4).
  exists l, p. split; [exact E1|]. split; [apply (root_path T E HT); exact E4|]. pose proof (tree_nonempty T E HT 0 TL l E2) as U. split; [exact U|].
  rewrite (top_weight T E HT) in E3. rewrite flat_S in E3 by exact E2. rewrite <- E3. unfold flat. lia.
Qed.

Lemma trim_count_spec s E e : btree (b_T s) (ins e E) -> sorted E -> has_key (bk e) E = false -> b_n s = length (ins e E) -> E <> [] ->
  (if drops_low (b_ovf s) then match s_first E with Some mn => klt (bk e) (bk mn) = false | None => True end
   else match s_last E with Some mx => klt (bk mx) (bk e) = false | None => True end) ->
  exists T', overflow_trim s e OvCount = Some (if drops_low (b_ovf s) then s_first E else s_last E,
     let s' := set_T s T' (length E) in if signals (b_ovf s) then set_trim s' true else s') /\ length T' <= length (b_T s) /\
     btree T' (if drops_low (b_ovf s) then tl (ins e E) else removelast (ins e E)).
Proof.
  intros HB HS NK HN NE HD. pose proof (btree_tree _ _ HB) as HT. unfold overflow_trim. rewrite smallest_spec, loud_spec.
  pose proof (ins_length e E) as IL. rewrite IL in HN. rewrite HN. cbn [pred].
  assert (LE : 0 < length E) by (destruct E; [congruence|cbn; lia]).
  destruct (drops_low (b_ovf s)).
  - destruct (first_posi _ _ HB) as (p & F1 & F2 & F3). rewrite F1.
    destruct (elem_at_spec (b_T s) _ HT 0 0 F3) as (EA & EL). change (flat (lev (b_T s) 0) 0 0) with 0 in *. rewrite EA.
    destruct (s_first E) as [mn|] eqn:EF; [|unfold s_first in EF; destruct E; [congruence|discriminate]].
    pose proof (ins_first E e mn EF) as IF. rewrite HD in IF. unfold s_first in IF.
    destruct (elem_unlink_spec (b_T s) (ins e E) 0 0 p HB F3 F2) as (T' & U1 & U2 & U3). change (flat (lev (b_T s) 0) 0 0) with 0 in *. rewrite U1.
    destruct (ins e E) as [|x l]; [discriminate|]. cbn in IF. injection IF as ->. cbn [nth_error]. exists T'. split; [reflexivity|]. split; [exact U2|].
    destruct U3 as [(_ & U3)|U3]; [|exact U3]. exfalso. cbn in U3. subst l. cbn in IL. lia.
  - destruct (last_posi _ _ HB) as (l & p & F1 & F2 & F3 & F4). rewrite F1.
    assert (IU : used (lev (b_T s) 0) l - 1 < used (lev (b_T s) 0) l) by lia.
    destruct (elem_at_spec (b_T s) _ HT l _ IU) as (EA & EL). rewrite EA, F4.
    destruct (s_last E) as [mx|] eqn:EF.
    2:{ unfold s_last in EF. destruct (rev E) as [|x r] eqn:R; [|discriminate]. apply (f_equal (@rev _)) in R. rewrite rev_involutive in R. cbn in R. congruence. }
    destruct (ins_last E e mx HS EF) as [IX|IX].
    2:{ exfalso. apply keq_eq in IX. assert (K : has_key (bk e) E = true) by (apply has_key_In; exists mx; split; [apply last_in; exact EF|congruence]). congruence. }
    rewrite HD in IX. unfold s_last in IX. rewrite hd_rev in IX. rewrite IX.
    destruct (elem_unlink_spec (b_T s) (ins e E) l _ p HB IU F2) as (T' & U1 & U2 & U3). rewrite U1. exists T'. split; [reflexivity|]. split; [exact U2|].
    rewrite F4 in U3. assert (RL : del_nth (length (ins e E) - 1) (ins e E) = removelast (ins e E)).
    { assert (NI : ins e E <> []) by (intros Z; rewrite Z in IL; discriminate). clear - NI. destruct (exists_last NI) as (a & x & ->).
      rewrite app_length. cbn [length]. replace (length a + 1 - 1) with (length a) by lia. rewrite del_nth_app, removelast_last, app_nil_r. reflexivity. }
    rewrite RL in U3. destruct U3 as [(_ & U3)|U3]; [|exact U3]. exfalso.
    assert (NI : ins e E <> []) by (intros Z; rewrite Z in IL; discriminate). destruct (exists_last NI) as (a & x & EX). rewrite EX in U3, IL.
    rewrite removelast_last in U3. subst a. cbn in IL. lia.
Qed.
