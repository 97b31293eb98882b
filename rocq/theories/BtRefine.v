(* Every command of the tree behaves like the specification *)
From Verif Require Import Base UtilModel BtModel BtSpec BtOrder BtLevel BtFind BtSplit BtMerge BtMerge2 BtWalk BtGet BtGet2 BtOps BtKeys BtIns.
Local Open Scope nat_scope.

Definition link_spec (a : sp) (e : elem) (rep : bool) : ires * sp :=
  match lookup (bk e) (s_el a) with
  | Some _ => if rep then (IReplaced, with_el a (put e (s_el a))) else (IErr EEXISTS, a)
  | None => s_new a e
  end.

Lemma inv_T s E T : inv s E -> btree T E -> length T <= MAX_DEPTH -> inv (set_T s T (b_n s)) E.
Proof. intros [I1 I2 I3 I4 I5 I6] HB HD. constructor; cbn [b_T b_n b_type b_range set_T]; auto. Qed.

Lemma inv_trim s E b : inv s E -> inv (set_trim s b) E.
Proof. intros [I1 I2 I3 I4 I5 I6]. constructor; cbn [b_T b_n b_type b_range set_trim]; auto. Qed.

Lemma ins_typed t e E : typed t (bk e) -> Forall (fun e => typed t (bk e)) E -> Forall (fun e => typed t (bk e)) (ins e E).
Proof. intros H1 H2. apply Forall_forall. intros x HX. apply ins_In in HX. destruct HX as [->|HX]; [exact H1|]. exact (proj1 (Forall_forall _ _) H2 x HX). Qed.

Lemma removelast_In {A} (l : list A) x : In x (removelast l) -> In x l.
Proof.
  induction l as [|y l IH]; [auto|]. cbn [removelast]. destruct l as [|z l]; [contradiction|]. intros [->|H]; [left; reflexivity|right; auto].
Qed.
Lemma removelast_sorted E : sorted E -> sorted (removelast E).
Proof.
  induction E as [|x E IH]; [auto|]. intros (H1 & H2). cbn [removelast]. destruct E as [|y E]; [exact I|]. split; [|exact (IH H2)].
  intros z HZ. apply H1. apply removelast_In. exact HZ.
Qed.
Lemma removelast_length {A} (l : list A) : length (removelast l) = length l - 1.
Proof.
  induction l as [|x l IH]; [reflexivity|]. cbn [removelast]. destruct l as [|y l]; [reflexivity|]. cbn [length] in *. rewrite IH. lia.
Qed.

Lemma inv_set s E r x e k i : inv s E -> btree (b_T s) E -> i < used (lev (b_T s) 0) k -> flat (lev (b_T s) 0) k i = r -> nth_error E r = Some x -> bk e = bk x ->
  inv (set_T s (set_elem (b_T s) k i e) (b_n s)) (put e E).
Proof.
  intros HI HB HU HR HX HK. destruct (set_elem_spec (b_T s) E k i e HB HU) as (S1 & S2). rewrite HR in S1.
  destruct HI as [I1 I2 I3 I4 I5 I6]. rewrite <- (put_at E r x e I4 HX HK) in S1.
  pose proof (put_keys e E) as PK. constructor; cbn [b_T b_n b_type b_range set_T]; auto.
  - rewrite S2. exact I2.
  - rewrite <- (map_length bk (put e E)), PK, map_length. exact I3.
  - eapply sorted_keys; [symmetry; exact PK|exact I4].
  - apply Forall_forall. intros y HY. apply (in_map bk) in HY. rewrite PK in HY. apply in_map_iff in HY. destruct HY as (z & Z1 & Z2).
    rewrite <- Z1. exact (proj1 (Forall_forall _ _) I5 z Z2).
Qed.

Lemma found_at T E b l i : btree T E -> i < used (lev T 0) l -> key_at E (flat (lev T 0) l i) = b -> exists x, nth_error E (flat (lev T 0) l i) = Some x /\ bk x = b.
Proof.
  intros HB HI HK. destruct (elem_at_spec T E (btree_tree _ _ HB) l i HI) as (_ & HL). unfold key_at in HK.
  destruct (nth_error E (flat (lev T 0) l i)) as [x|] eqn:HX; [|apply nth_error_None in HX; lia]. exists x. split; [reflexivity|].
  rewrite <- HK. reflexivity.
Qed.

Lemma shape_sum (L : level) : list_sum (shape L) = length (concat L).
Proof.
  unfold shape. induction L as [|n L IH]; [reflexivity|]. cbn [map concat]. rewrite app_length, <- IH. reflexivity.
Qed.

Definition link_post (s : bt) (E : list elem) (short : Prop) (want : ires * sp) (got : option (ires * bt)) : Prop :=
  match got with
  | None => length (b_T s) = MAX_DEPTH
  | Some (res, s') => exists E', inv s' E' /\ (res = IErr ENOMEM /\ absE s' E' = absE s E /\ short \/ want = (res, absE s' E'))
  end.

Lemma elem_link_spec s E e rep sticky mem : inv s E -> btree (b_T s) E -> typed (b_type s) (bk e) ->
  link_post s E (sticky = true \/ mem <= length (b_T s)) (link_spec (absE s E) e rep) (elem_link s e rep sticky mem).
Proof.
  intros HI HB HE. pose proof HI as HI0. destruct HI0 as [I1 I2 I3 I4 I5 I6]. pose proof (btree_tree _ _ HB) as HT. pose proof (proj1 (sorted_incr E) I4) as HK.
  destruct (btree_nonempty _ _ HB) as (NE & NT).
  unfold elem_link, link_post, link_spec. cbn [absE s_el].
  destruct (find_insposi_spec (b_T s) E HT HK (bk e)) as (found & k & i & p & F1 & F2 & F3 & F4). rewrite F1. destruct found.
  - destruct F4 as (F4 & F5). destruct (found_at _ _ _ _ _ HB F4 F5) as (x & X1 & X2).
    assert (LX : lookup (bk e) E = Some x) by (rewrite <- X2; eapply lookup_at; eassumption). rewrite LX.
    destruct (elem_at_spec (b_T s) E HT k i F4) as (EA & _). rewrite EA, X1. destruct rep.
    + destruct (sticky && Nat.ltb (length (ef x) + length (va x)) (length (ef e) + length (va e))) eqn:ES.
      * exists E. split; [exact HI|]. left. apply andb_true_iff in ES. tauto.
      * exists (put e E). split; [eapply inv_set; try eassumption; try reflexivity; congruence|]. right. reflexivity.
    + exists E. split; [exact HI|]. right. reflexivity.
  - destruct F4 as (F4 & F5 & F6). destruct (rank_no_key E (bk e) _ F5 F6) as (NK & LN). rewrite LN.
    destruct sticky; [exists E; split; [exact HI|left; auto]|].
    assert (SP : match (if Nat.leb ITEM_COUNT (used (lev (b_T s) 0) k) then split (b_T s) 0 k i p mem (b_n s) else Some (SplitOk (b_T s) k i p)) with
                 | None => length (b_T s) = MAX_DEPTH
                 | Some SplitNoMem => mem <= length (b_T s)
                 | Some (SplitOk T k' i' p') => exists L' Us', T = L' :: Us' /\ split_post (lev (b_T s) 0) (tl (b_T s)) k i L' Us' k' i' p' /\ length T <= MAX_DEPTH
                 end).
    { destruct (b_T s) as [|L Us] eqn:ET; [congruence|]. change (lev (L :: Us) 0) with L in *. cbn [tl] in *. destruct HB as (HW & HCC). change (lev (L :: Us) 0) with L in HCC.
      destruct HW as (HLK & HN & HC). inversion HN as [|a b NL NU]; subst a b. inversion HC as [|a b CL CU]; subst a b.
      destruct (Nat.leb_spec ITEM_COUNT (used L k)) as [C|C].
      - assert (UK : used L k = ITEM_COUNT) by (specialize (CL k); lia).
        pose proof (split_spec (L :: Us) 0 k i p mem (b_n s) L Us eq_refl UK ltac:(lia) NL CL CU HLK NU F3) as SS.
        assert (CC : b_n s = list_sum (sums L)).
        { rewrite I3. pose proof (leaf_sums (L :: Us) E HT) as Z. change (lev (L :: Us) 0) with L in Z. rewrite Z, <- (map_length full E). rewrite <- HCC.
          symmetry. apply shape_sum. }
        specialize (SS CC). destruct (split (L :: Us) 0 k i p mem (b_n s)) as [[T' k' i' p'|]|].
        + destruct SS as (L' & Us' & S1 & S2 & S3 & S4). exists L', Us'. split; [exact S1|]. split; [exact S2|]. apply S4. exact I2.
        + lia.
        + lia.
      - exists L, Us. split; [reflexivity|]. split; [|exact I2]. unfold split_post. repeat match goal with |- _ /\ _ => split end; auto. }
    destruct (if Nat.leb ITEM_COUNT (used (lev (b_T s) 0) k) then split (b_T s) 0 k i p mem (b_n s) else Some (SplitOk (b_T s) k i p)) as [[T k' i' p'|]|].
    3:{ exact SP. }
    2:{ exists E. split; [exact HI|]. left. auto. }
    destruct SP as (L' & Us' & -> & POST & DEP). destruct POST as (P1 & P2 & P3 & P4 & P5 & P6 & P7 & P8 & P9 & P10 & P11 & _).
    assert (HCC : concat (lev (b_T s) 0) = map full E) by (destruct HB as (_ & HCC); exact HCC). rewrite HCC in P1.
    assert (HB1 : btree (L' :: Us') E) by (split; [split; [exact P2|split; constructor; assumption]|exact P1]).
    assert (NZ : 0 < length E) by (destruct E; [congruence|cbn; lia]).
    rewrite (proj2 (Nat.ltb_lt 0 (b_n s))) by lia.
    set (s1 := set_T s (L' :: Us') (b_n s)).
    assert (INV1 : inv s1 E) by (apply inv_T; assumption).
    rewrite (overflow_check_spec s1 (L' :: Us') E e HB1 I4 I3 I5 I6 HE).
    pose proof (ins_elem_spec L' Us' E k' i' p' e P1 P2 P4 P6 (or_introl P3) P5 P7 P10 P8 P9) as INS. rewrite P11 in INS.
    assert (RL : flat (lev (b_T s) 0) k i <= length E).
    { assert (LC : length (concat (lev (b_T s) 0)) = length E) by (rewrite HCC, map_length; reflexivity). rewrite <- LC. unfold flat.
      destruct (level_at (lev (b_T s) 0) k F2) as (A & n & B & EL & LA & N). unfold used in F4. rewrite N in F4. rewrite EL, <- LA, firstn_app, Nat.sub_diag, firstn_all.
      cbn [firstn]. rewrite app_nil_r, concat_app, app_length. cbn [concat]. rewrite app_length. lia. }
    rewrite <- (ins_at E e _ F5 F6 RL) in INS.
    assert (DEP2 : length (ins_elem (L' :: Us') k' i' p' e) <= MAX_DEPTH).
    { cbn [ins_elem length] in *. pose proof (adj_path_shapes Us' p' S) as SH. assert (Z : length (adj_path Us' p' S) = length Us') by (apply (f_equal (@length _)) in SH; unfold shapes in SH; rewrite !map_length in SH; exact SH). lia. }
    set (T3 := ins_elem (L' :: Us') k' i' p' e) in *.
    assert (IL : length (ins e E) = S (length E)) by apply ins_length.
    assert (INV3 : inv (set_T s1 T3 (S (b_n s))) (ins e E)).
    { constructor; cbn [b_T b_n b_type b_range set_T s1]; auto; [lia|apply ins_sorted; assumption|apply ins_typed; assumption]. }
    unfold check_result. change (absE s1 E) with (absE s E).
    assert (SN : s_new (absE s E) e = 
      let l' := ins e E in
      match range_verdict (absE s E) (bk e) with
      | RRefused => (IErr EBKEYOOR, absE s E)
      | RDrop a b =>
          (INew None, mkSp (filter (fun x => negb (in_rg (mkR a (Some b)) x)) l') (b_max s) (b_ovf s)
                           (if signals (b_ovf s) then false else b_trim s) (b_type s) (b_range s))
      | RFits =>
          if Nat.ltb (length E) (b_max s) then (INew None, with_el (absE s E) l')
          else
            let mark x := if signals (b_ovf s) then with_trim x true else x in
            if drops_low (b_ovf s) then
              match s_first E with
              | Some mn => if klt (bk e) (bk mn) then (IErr EBKEYOOR, mark (absE s E))
                           else (INew (Some mn), mark (with_el (absE s E) (tl l')))
              | None => (IErr EOVERFLOW, absE s E)
              end
            else if drops_high (b_ovf s) then
              match s_last E with
              | Some mx => if klt (bk mx) (bk e) then (IErr EBKEYOOR, mark (absE s E))
                           else (INew (Some mx), mark (with_el (absE s E) (removelast l')))
              | None => (IErr EOVERFLOW, absE s E)
              end
            else (IErr EOVERFLOW, absE s E)
      end).
    { unfold s_new. cbn [absE s_el s_max s_ovf s_trim s_type s_range]. destruct E; [congruence|]. reflexivity. }
    rewrite SN. cbv zeta. clear SN.
    destruct (range_verdict (absE s E) (bk e)) as [| |a b] eqn:RV.
    + change (b_max s1) with (b_max s). change (b_ovf s1) with (b_ovf s). destruct (Nat.ltb (length E) (b_max s)).
      { exists (ins e E). split; [exact INV3|]. right. reflexivity. }
      destruct (drops_low (b_ovf s)) eqn:DL; [|destruct (drops_high (b_ovf s)) eqn:DH].
      * destruct (s_first E) as [mn|] eqn:EF; [|unfold s_first in EF; destruct E; [congruence|discriminate]].
        destruct (klt (bk e) (bk mn)) eqn:C.
        -- exists E. split; [destruct (signals (b_ovf s)); [apply inv_trim|]; exact INV1|]. right. destruct (signals (b_ovf s)); reflexivity.
        -- destruct (trim_count_spec (set_T s1 T3 (S (b_n s))) E e) as (T' & T1 & T2 & T3'); [exact INS|exact I4|exact NK|cbn; lia|exact NE| |].
           { change (b_ovf (set_T s1 T3 (S (b_n s)))) with (b_ovf s). rewrite DL, EF. exact C. }
           change (b_ovf (set_T s1 T3 (S (b_n s)))) with (b_ovf s) in T1, T3'. rewrite DL in T1, T3'. rewrite T1, EF. exists (tl (ins e E)).
           split; [|right; destruct (signals (b_ovf s)); reflexivity].
           cbn [b_T set_T] in T2.
           assert (X : inv (set_T (set_T s1 T3 (S (b_n s))) T' (length E)) (tl (ins e E))).
           { destruct INV3 as [J1 J2 J3 J4 J5 J6]. constructor; cbn [b_T b_n b_type b_range set_T s1] in *; auto.
             - lia.
             - destruct (ins e E); cbn in *; lia.
             - destruct (ins e E); [exact I|]. exact (proj2 J4).
             - destruct (ins e E); [constructor|]. apply Forall_cons_iff in J5. tauto. }
           destruct (signals (b_ovf s)); [apply inv_trim|]; exact X.
      * destruct (s_last E) as [mx|] eqn:EF.
        2:{ unfold s_last in EF. destruct (rev E) as [|x r] eqn:R; [|discriminate]. apply (f_equal (@rev _)) in R. rewrite rev_involutive in R. cbn in R. congruence. }
        destruct (klt (bk mx) (bk e)) eqn:C.
        -- exists E. split; [destruct (signals (b_ovf s)); [apply inv_trim|]; exact INV1|]. right. destruct (signals (b_ovf s)); reflexivity.
        -- destruct (trim_count_spec (set_T s1 T3 (S (b_n s))) E e) as (T' & T1 & T2 & T3'); [exact INS|exact I4|exact NK|cbn; lia|exact NE| |].
           { change (b_ovf (set_T s1 T3 (S (b_n s)))) with (b_ovf s). rewrite DL, EF. exact C. }
           change (b_ovf (set_T s1 T3 (S (b_n s)))) with (b_ovf s) in T1, T3'. rewrite DL in T1, T3'. rewrite T1, EF. exists (removelast (ins e E)).
           split; [|right; destruct (signals (b_ovf s)); reflexivity].
           cbn [b_T set_T] in T2.
           assert (X : inv (set_T (set_T s1 T3 (S (b_n s))) T' (length E)) (removelast (ins e E))).
           { destruct INV3 as [J1 J2 J3 J4 J5 J6]. constructor; cbn [b_T b_n b_type b_range set_T s1] in *; auto.
             - lia.
             - rewrite removelast_length. lia.
             - apply removelast_sorted. exact J4.
             - apply Forall_forall. intros x HX. apply removelast_In in HX. exact (proj1 (Forall_forall _ _) J5 x HX). }
           destruct (signals (b_ovf s)); [apply inv_trim|]; exact X.
      * exists E. split; [exact INV1|]. right. reflexivity.
    + exists E. split; [exact INV1|]. right. reflexivity.
    + destruct (trim_range_spec (set_T s1 T3 (S (b_n s))) E e a b) as (s' & T1 & T2);
        [exact INS|exact I4|exact NE|exact NK|cbn; lia|exact I5|exact I6|exact HE|exact RV|]. rewrite T1.
      pose proof (ins_sorted e E I4 NK) as SI. destruct (select_sub (mkR a (Some b)) None 0 0 (ins e E) SI) as (ND & IN).
      destruct (inv_deleted _ _ _ _ INV3 T2 ND IN) as (J1 & J2). rewrite select_none in J1, J2 by exact SI.
      exists (filter (fun x => negb (in_rg (mkR a (Some b)) x)) (ins e E)). change (b_ovf (set_T s1 T3 (S (b_n s)))) with (b_ovf s). split.
      * destruct (signals (b_ovf s)); [apply inv_trim|]; exact J1.
      * right. apply f_equal. destruct T2 as (T' & -> & _). destruct (signals (b_ovf s)); reflexivity.
Qed.

Lemma fresh_link s e rep sticky mem : b_n s = 0 ->
  elem_link (set_T s new_root 0) e rep sticky mem =
    if sticky then Some (IErr ENOMEM, set_T s new_root 0)
    else Some (INew None, mkBt [[[full e]]] 1 (b_max s) (b_ovf s) (b_trim s) (type_of (bk e)) (b_range s)).
Proof. intros HN. unfold elem_link. destruct s as [T n mx ov tr ty rg]. cbn in HN. subst n. destruct sticky; reflexivity. Qed.

Lemma one_btree e : btree [[[full e]]] [e].
Proof.
  split; [|reflexivity]. split; [reflexivity|]. split; (constructor; [|constructor]).
  - intros k K. destruct k; [cbn; lia|cbn in K; lia].
  - intros k. destruct k as [|[|k]]; cbn; unfold ITEM_COUNT; lia.
Qed.

Lemma bad_type_spec s E k : bad_type s k = s_bad_type (absE s E) k.
Proof. reflexivity. Qed.
Lemma has_type_spec s E : b_n s = length E -> has_type s = s_has_type (absE s E).
Proof. intros H. unfold has_type, s_has_type. cbn [absE s_el s_range]. rewrite H. destruct E; reflexivity. Qed.

Lemma has_typed s E k : inv s E -> E <> [] -> kok k -> has_type s && bad_type s k = false -> typed (b_type s) k.
Proof.
  intros [I1 I2 I3 I4 I5 I6] NE KK H. split; [exact KK|]. destruct E as [|x E]; [congruence|].
  unfold has_type, bad_type in H. rewrite I3 in H. cbn [length Nat.ltb Nat.leb orb andb] in H. apply Forall_cons_iff in I5. destruct I5 as ((_ & T) & _). rewrite T in *.
  destruct (bk x), k; cbn in *; congruence.
Qed.

Lemma inv_one s e : inv s [] -> kok (bk e) -> has_type s && bad_type s (bk e) = false ->
  inv (mkBt [[[full e]]] 1 (b_max s) (b_ovf s) (b_trim s) (type_of (bk e)) (b_range s)) [e].
Proof.
  intros [I1 I2 I3 I4 I5 I6] KK H. constructor; cbn [b_T b_n b_type b_range].
  - right. apply one_btree.
  - cbn. unfold MAX_DEPTH. lia.
  - reflexivity.
  - cbn. auto.
  - constructor; [split; [exact KK|reflexivity]|constructor].
  - intros r HR. destruct (I6 r HR) as (K & T). split; [exact K|]. unfold has_type, bad_type in H. rewrite HR, orb_true_r in H. cbn [andb] in H. rewrite T in H.
    destruct r, (bk e); cbn in *; congruence.
Qed.

Lemma inv_empty s T : inv s [] -> T = [] -> inv (set_T s T 0) [].
Proof. intros [I1 I2 I3 I4 I5 I6] ->. constructor; cbn [b_T b_n b_type b_range set_T]; auto. cbn. lia. Qed.

Lemma inv_cases s E : inv s E -> (b_T s = [] /\ E = [] /\ b_n s = 0) \/ (btree (b_T s) E /\ E <> [] /\ b_T s <> [] /\ 0 < b_n s).
Proof.
  intros [I1 I2 I3 I4 I5 I6]. destruct I1 as [(A & B)|A]; [left; subst E; auto|right]. destruct (btree_nonempty _ _ A) as (B & C).
  split; [exact A|]. split; [exact B|]. split; [exact C|]. destruct E; [congruence|cbn in I3; lia].
Qed.

(* ---------- commands ---------- *)

Definition op_ok (o : op) : Prop :=
  match o with
  | Insert e _ _ _ _ => kok (bk e)
  | Arith b _ _ _ _ _ _ _ _ _ _ _ => kok b
  | Delete _ fl _ | Get _ fl _ _ _ | Count _ fl => ofilter_ok fl
  | SetAttr (ARange (Some r)) => kok r
  | _ => True
  end.

(* the command met a shortage of memory *)
Definition short_mem (o : op) : Prop :=
  match o with
  | Insert _ _ sticky mem_root mem => sticky = true \/ mem_root = false \/ mem <= MAX_DEPTH
  | Update _ _ _ _ sticky mem => sticky = true \/ mem = false
  | Arith _ _ _ _ _ _ _ _ sticky mem_root mem_elem mem => sticky = true \/ mem_root = false \/ mem_elem = false \/ mem <= MAX_DEPTH
  | _ => False
  end.
Definition grows (o : op) : Prop :=
  match o with Insert _ _ _ _ _ => True | Arith _ _ _ _ _ _ _ _ _ _ _ _ => True | _ => False end.

Definition step_post (s : bt) (E : list elem) (o : op) (res : option (bt * out)) : Prop :=
  match res with
  | None => length (b_T s) = MAX_DEPTH /\ grows o
  | Some (s', x) => exists E', inv s' E' /\
      (x = ORc ENOMEM /\ absE s' E' = absE s E /\ short_mem o \/ s_step (absE s E) o = (absE s' E', x))
  end.

Lemma same_state s E o x : inv s E -> s_step (absE s E) o = (absE s E, x) -> step_post s E o (Some (s, x)).
Proof. intros HI HS. exists E. auto. Qed.

Lemma insert_refines s E e rep sticky mem_root mem : inv s E -> kok (bk e) ->
  step_post s E (Insert e rep sticky mem_root mem) (step s (Insert e rep sticky mem_root mem)).
Proof.
  intros HI KK. unfold step, elem_insert. destruct (has_type s && bad_type s (bk e)) eqn:BT.
  { apply same_state; [exact HI|]. cbn [s_step absE s_el]. fold (absE s E). rewrite <- (has_type_spec s E (i_n _ _ HI)), <- (bad_type_spec s E), BT. reflexivity. }
  assert (BT' : s_has_type (absE s E) && s_bad_type (absE s E) (bk e) = false) by (rewrite <- (has_type_spec s E (i_n _ _ HI)), <- (bad_type_spec s E); exact BT).
  assert (SS : s_step (absE s E) (Insert e rep sticky mem_root mem) = match link_spec (absE s E) e rep with
      | (INew x, s') => (s', OIns x) | (IReplaced, s') => (s', OReplaced) | (IErr c, s') => (s', ORc c) end).
  { cbn [s_step]. rewrite BT'. unfold link_spec. destruct (lookup (bk e) (s_el (absE s E))); [destruct rep; reflexivity|]. reflexivity. }
  unfold step_post. rewrite SS. destruct (inv_cases s E HI) as [(A1 & A2 & A3)|(A1 & A2 & A3 & A4)].
  - subst E. rewrite A1. destruct mem_root.
    2:{ exists []. split; [exact HI|]. left. split; [reflexivity|]. split; [reflexivity|]. cbn. tauto. }
    rewrite A3, (fresh_link s e rep sticky mem A3). destruct sticky.
    + exists []. split; [exact (inv_empty s [] HI eq_refl)|]. left. split; [reflexivity|]. split; [reflexivity|]. cbn. tauto.
    + exists [e]. split; [apply inv_one; assumption|]. right. reflexivity.
  - pose proof (elem_link_spec s E e rep sticky mem HI A1 (has_typed s E _ HI A2 KK BT)) as LP. unfold link_post in LP.
    assert (EQ : lift_i match b_T s with [] => if mem_root then match elem_link (set_T s new_root (b_n s)) e rep sticky mem with
                   | Some (IErr c, s') => Some (IErr c, set_T s' [] (b_n s')) | r => r end else Some (IErr ENOMEM, s)
                   | _ => elem_link s e rep sticky mem end = lift_i (elem_link s e rep sticky mem)) by (destruct (b_T s); [congruence|reflexivity]).
    rewrite EQ. destruct (elem_link s e rep sticky mem) as [[res s']|]; [|split; [exact LP|exact I]].
    pose proof (i_depth _ _ HI) as DD.
    destruct LP as (E' & J1 & [(-> & J2 & J3)|J2]).
    + cbn [lift_i]. exists E'. split; [exact J1|]. left. split; [reflexivity|]. split; [exact J2|]. cbn. destruct J3; [auto|right; right; lia].
    + rewrite J2. destruct res; cbn [lift_i]; exists E'; auto.
Qed.

Lemma update_refines s E b u v held sticky mem : inv s E ->
  step_post s E (Update b u v held sticky mem) (step s (Update b u v held sticky mem)).
Proof.
  intros HI. unfold step. destruct (inv_cases s E HI) as [(A1 & A2 & A3)|(A1 & A2 & A3 & A4)].
  { subst E. rewrite A3. apply same_state; [exact HI|reflexivity]. }
  rewrite (proj2 (Nat.eqb_neq (b_n s) 0)) by lia.
  assert (SS : s_step (absE s E) (Update b u v held sticky mem) =
     if bad_type s b then (absE s E, ORc EBADBKEY)
          else match lookup b E with
               | None => (absE s E, ORc ENOENT)
               | Some x =>
                   match s_eflag u (ef x) with
                   | None => (absE s E, ORc EBADEFLAG)
                   | Some f => (with_el (absE s E) (put (mkE (bk x) f (match v with Some w => w | None => va x end)) E), ORc SUCC)
                   end
               end) by (cbn [s_step absE s_el]; destruct E; [congruence|reflexivity]).
  destruct (bad_type s b); [apply same_state; assumption|].
  unfold elem_update. pose proof (find_key (b_T s) E b A1 (i_sorted _ _ HI)) as FK. destruct (b_T s) as [|L Us] eqn:ET; [congruence|]. rewrite <- ET in *. clear L Us ET.
  destruct (lookup b E) as [x|] eqn:LK.
  2:{ destruct FK as (ps & p & F1). rewrite F1. apply same_state; assumption. }
  destruct FK as (l & i & p & F1 & F2 & F3 & F4 & F5). rewrite F1. cbn [pn peq px].
  pose proof (eupd_spec u (ef x)) as ES. destruct (bad_eupd u (ef x)).
  { rewrite <- ES in SS. apply same_state; assumption. }
  rewrite <- ES in SS. unfold step_post.
  set (e' := mkE (bk x) (apply_eupd u (ef x)) (match v with Some w => w | None => va x end)) in *.
  assert (X : inv (set_T s (set_elem (b_T s) l i e') (b_n s)) (put e' E)) by (eapply inv_set; try eassumption; reflexivity).
  destruct (negb held && _).
  { exists (put e' E). split; [exact X|]. right. rewrite SS. reflexivity. }
  destruct (sticky && _) eqn:EST.
  { exists E. split; [exact HI|]. left. apply andb_true_iff in EST. cbn. tauto. }
  destruct mem.
  - exists (put e' E). split; [exact X|]. right. rewrite SS. reflexivity.
  - exists E. split; [exact HI|]. left. split; [reflexivity|]. split; [reflexivity|]. cbn. tauto.
Qed.

Lemma delete_refines s E r fl count : inv s E -> ofilter_ok fl -> step_post s E (Delete r fl count) (step s (Delete r fl count)).
Proof.
  intros HI OK. unfold step. destruct (inv_cases s E HI) as [(A1 & A2 & A3)|(A1 & A2 & A3 & A4)].
  { subst E. rewrite A3. apply same_state; [exact HI|reflexivity]. }
  rewrite (proj2 (Nat.eqb_neq (b_n s) 0)) by lia.
  assert (SS : s_step (absE s E) (Delete r fl count) =
          if bad_type s (r_from r) then (absE s E, ORc EBADBKEY)
          else match select r fl 0 count E with
               | [] => (absE s E, ORc ENOENT)
               | d => (with_el (absE s E) (without d E), OCnt (length d))
               end) by (cbn [s_step absE s_el]; destruct E; [congruence|reflexivity]).
  destruct (bad_type s (r_from r)); [apply same_state; assumption|].
  destruct (elem_delete_spec s E r fl 0 count A1 (i_sorted _ _ HI) (i_n _ _ HI) OK) as (s' & D1 & D2). rewrite D1.
  destruct (select_sub r fl 0 count E (i_sorted _ _ HI)) as (ND & IN).
  destruct (select r fl 0 count E) as [|d l] eqn:ES.
  - cbn in D2. subst s'. apply same_state; assumption.
  - cbn [length Nat.eqb] in D2. destruct (inv_deleted _ _ _ _ HI D2 ND IN) as (J1 & J2). exists (without (d :: l) E). split; [exact J1|]. right. rewrite SS, J2. reflexivity.
Qed.

Lemma arith_refines s E b incr create delta initial f tail held sticky mem_root mem_elem mem : inv s E -> kok b ->
  step_post s E (Arith b incr create delta initial f tail held sticky mem_root mem_elem mem)
    (step s (Arith b incr create delta initial f tail held sticky mem_root mem_elem mem)).
Proof.
  intros HI KK. set (o := Arith b incr create delta initial f tail held sticky mem_root mem_elem mem). unfold step, o, elem_arith. fold o.
  destruct (has_type s && bad_type s b) eqn:BT.
  { apply same_state; [exact HI|]. cbn [s_step absE s_el o]. fold (absE s E). rewrite <- (has_type_spec s E (i_n _ _ HI)), <- (bad_type_spec s E), BT. reflexivity. }
  assert (BT' : s_has_type (absE s E) && s_bad_type (absE s E) b = false) by (rewrite <- (has_type_spec s E (i_n _ _ HI)), <- (bad_type_spec s E); exact BT).
  pose (e := mkE b f (num_val initial)).
  assert (SS : s_step (absE s E) o = match lookup b E with
           | None =>
               if create then match link_spec (absE s E) e false with
                 | (IErr c, s') => (s', ORc c)
                 | (_, s') => (s', ONum initial)
                 end
               else (absE s E, ORc ENOENT)
           | Some x =>
               match safe_strtoull (cstr (va x ++ tail)) with
               | None => (absE s E, ORc EINVAL)
               | Some v =>
                   if Nat.eqb (length (va x)) 2 then (absE s E, ORc EINVAL)
                   else let v' := if incr then ((v + delta) mod 2 ^ 64)%N else (v - delta)%N in
                        (with_el (absE s E) (put (mkE (bk x) (ef x) (s_num v')) E), ONum v')
               end
           end).
  { cbn [s_step o]. rewrite BT'. cbn [absE s_el]. fold (absE s E). unfold link_spec. cbn [absE s_el bk e]. fold (absE s E).
    destruct (lookup b E) as [x|]; [reflexivity|]. reflexivity. }
  destruct (inv_cases s E HI) as [(A1 & A2 & A3)|(A1 & A2 & A3 & A4)].
  - subst E. rewrite A1. cbn [andb]. destruct create; cbn [negb].
    2:{ apply same_state; [exact HI|]. rewrite SS. reflexivity. }
    destruct mem_root; cbn [negb].
    2:{ exists []. split; [exact HI|]. left. split; [reflexivity|]. split; [reflexivity|]. cbn. tauto. }
    change (b_T (set_T s new_root (b_n s))) with new_root.
    change (find_first new_root SIN (Some (mkR b None))) with (Some (@None elem, mkPosi None 0 false, @nil (nat * nat))). cbv iota beta.
    destruct mem_elem; cbn [negb].
    2:{ exists []. rewrite A3. split; [exact (inv_empty s [] HI eq_refl)|]. left. split; [reflexivity|]. split; [reflexivity|]. cbn. tauto. }
    fold e. rewrite A3, (fresh_link s e false sticky mem A3). destruct sticky.
    + exists []. split; [exact (inv_empty s [] HI eq_refl)|]. left. split; [reflexivity|]. split; [reflexivity|]. cbn. tauto.
    + exists [e]. split; [apply inv_one; assumption|]. right. rewrite SS. reflexivity.
  - assert (FR : match b_T s with [] => true | _ => false end = false) by (destruct (b_T s); [congruence|reflexivity]). rewrite FR. cbn [andb].
    pose proof (find_key (b_T s) E b A1 (i_sorted _ _ HI)) as FK. destruct (lookup b E) as [x|] eqn:LK.
    + destruct FK as (l & i & p & F1 & F2 & F3 & F4 & F5). rewrite F1. cbn [pn peq px].
      destruct (safe_strtoull (cstr (va x ++ tail))) as [v|]; [|apply same_state; [exact HI|rewrite SS; reflexivity]].
      destruct (Nat.eqb (length (va x)) 2); [apply same_state; [exact HI|rewrite SS; reflexivity]|].
      assert (VV : (if incr then ((v + delta) mod two64)%N else if (v <=? delta)%N then 0%N else (v - delta)%N) = if incr then ((v + delta) mod 2 ^ 64)%N else (v - delta)%N).
      { destruct incr; [reflexivity|]. destruct (N.leb_spec v delta); lia. }
      rewrite VV. set (v' := if incr then ((v + delta) mod 2 ^ 64)%N else (v - delta)%N) in *. clearbody v'.
      destruct (_ || mem_elem) eqn:EM.
      * exists (put (mkE (bk x) (ef x) (num_val v')) E). split; [eapply inv_set; try eassumption; reflexivity|]. right. rewrite SS. reflexivity.
      * exists E. split; [exact HI|]. left. apply orb_false_iff in EM. cbn. tauto.
    + destruct FK as (ps & p & F1). rewrite F1. destruct create; cbn [negb].
      2:{ apply same_state; [exact HI|rewrite SS; reflexivity]. }
      destruct mem_elem; cbn [negb].
      2:{ exists E. split; [exact HI|]. left. split; [reflexivity|]. split; [reflexivity|]. cbn. tauto. }
      fold e. pose proof (elem_link_spec s E e false sticky mem HI A1 (has_typed s E _ HI A2 KK BT)) as LP. unfold link_post in LP. unfold step_post.
      pose proof (i_depth _ _ HI) as DD.
      destruct (elem_link s e false sticky mem) as [[res s']|]; [|split; [exact LP|exact I]].
      destruct LP as (E' & J1 & [(-> & J2 & J3)|J2]).
      * exists E'. split; [exact J1|]. left. split; [reflexivity|]. split; [exact J2|]. cbn. destruct J3; [auto|right; right; right; lia].
      * rewrite SS, J2. destruct res; exists E'; auto.
Qed.

Lemma get_refines s E r fl ofs count del : inv s E -> ofilter_ok fl -> step_post s E (Get r fl ofs count del) (step s (Get r fl ofs count del)).
Proof.
  intros HI OK. unfold step. destruct (inv_cases s E HI) as [(A1 & A2 & A3)|(A1 & A2 & A3 & A4)].
  { subst E. rewrite A3. apply same_state; [exact HI|reflexivity]. }
  rewrite (proj2 (Nat.eqb_neq (b_n s) 0)) by lia. cbn [orb]. rewrite (i_n _ _ HI).
  destruct (Nat.leb (length E) ofs) eqn:OF.
  { apply same_state; [exact HI|]. cbn [s_step absE s_el]. rewrite OF. reflexivity. }
  destruct (bad_type s (r_from r)) eqn:BT.
  { apply same_state; [exact HI|]. cbn [s_step absE s_el]. rewrite OF. fold (absE s E). rewrite <- (bad_type_spec s E), BT. reflexivity. }
  assert (SS : s_step (absE s E) (Get r fl ofs count del) = match select r fl ofs count E with
           | [] => (absE s E, ORc (if trim_signal (absE s E) r fl ofs count then EBKEYOOR else ENOENT))
           | d => (if del then with_el (absE s E) (without d E) else absE s E,
                   OElems d (if del then false else trim_signal (absE s E) r fl ofs count))
           end).
  { cbn [s_step absE s_el]. rewrite OF. fold (absE s E). rewrite <- (bad_type_spec s E), BT. reflexivity. }
  destruct (elem_get_spec s E r fl ofs count del A1 (i_sorted _ _ HI) (i_n _ _ HI) OK) as (s' & G1 & G2). rewrite G1.
  destruct (select_sub r fl ofs count E (i_sorted _ _ HI)) as (ND & IN).
  destruct (select r fl ofs count E) as [|d l] eqn:ES.
  - rewrite andb_false_r in G2. subst s'. apply same_state; assumption.
  - destruct del; cbn [andb negb length Nat.eqb] in G2.
    + destruct (inv_deleted _ _ _ _ HI G2 ND IN) as (J1 & J2). exists (without (d :: l) E). split; [exact J1|]. right. rewrite SS, J2. reflexivity.
    + subst s'. apply same_state; assumption.
Qed.

Lemma count_refines s E r fl : inv s E -> ofilter_ok fl -> step_post s E (Count r fl) (step s (Count r fl)).
Proof.
  intros HI OK. unfold step. destruct (bad_type s (r_from r)) eqn:BT.
  { apply same_state; [exact HI|]. cbn [s_step]. rewrite <- (bad_type_spec s E), BT. reflexivity. }
  destruct (inv_cases s E HI) as [(A1 & A2 & A3)|(A1 & A2 & A3 & A4)].
  - subst E. unfold elem_count. rewrite A1. apply same_state; [exact HI|]. cbn [s_step]. rewrite <- (bad_type_spec s []), BT. unfold hits. cbn. destruct (desc r); reflexivity.
  - rewrite (elem_count_spec s E r fl A1 (i_sorted _ _ HI) (i_n _ _ HI) OK). apply same_state; [exact HI|]. cbn [s_step]. rewrite <- (bad_type_spec s E), BT. reflexivity.
Qed.

Lemma pos_of_rank E r x : sorted E -> nth_error E r = Some x -> pos_of (bk x) E = r.
Proof.
  intros HS HX. destruct (nth_error_split E r HX) as (a & b & -> & <-). unfold pos_of. rewrite filter_app. cbn [filter]. rewrite klt_irrefl.
  apply sorted_app_iff in HS. destruct HS as (_ & (H1 & _) & H2). rewrite (filter_none _ b).
  - rewrite app_nil_r. rewrite filter_ext_in with (g := fun _ => true).
    + clear. induction a as [|y a IH]; [reflexivity|]. cbn [filter length]. rewrite IH. reflexivity.
    + intros y HY. apply H2; [exact HY|left; reflexivity].
  - intros y HY. apply klt_asym. apply H1. exact HY.
Qed.

Lemma posi_find_spec s E b asc : inv s E -> btree (b_T s) E ->
  match lookup b E with
  | None => posi_find s b asc = Some None
  | Some x => exists l i, posi_find s b asc = Some (Some (if asc then pos_of b E else length E - pos_of b E - 1, x, l, i)) /\ i < used (lev (b_T s) 0) l /\
                flat (lev (b_T s) 0) l i = pos_of b E /\ nth_error E (pos_of b E) = Some x
  end.
Proof.
  intros HI HB. pose proof (find_key (b_T s) E b HB (i_sorted _ _ HI)) as FK. unfold posi_find. destruct (btree_nonempty _ _ HB) as (_ & NT).
  destruct (b_T s) as [|L Us] eqn:ET; [congruence|]. rewrite <- ET in *. clear L Us NT ET.
  destruct (lookup b E) as [x|].
  - destruct FK as (l & i & p & F1 & F2 & F3 & F4 & F5). rewrite F1. cbn [pn peq px]. exists l, i.
    pose proof (pos_of_rank E _ x (i_sorted _ _ HI) F3) as PR. rewrite F4 in PR. unfold posi_from_path. rewrite (rank_of_path (b_T s) E l i p (btree_tree _ _ HB) F2 F5), <- PR, (i_n _ _ HI).
    split; [reflexivity|]. split; [exact F2|]. rewrite PR in *. auto.
  - destruct FK as (ps & p & F1). rewrite F1. reflexivity.
Qed.

Lemma position_refines s E b asc : inv s E -> step_post s E (Position b asc) (step s (Position b asc)).
Proof.
  intros HI. unfold step. destruct (inv_cases s E HI) as [(A1 & A2 & A3)|(A1 & A2 & A3 & A4)].
  { subst E. rewrite A3. apply same_state; [exact HI|reflexivity]. }
  rewrite (proj2 (Nat.eqb_neq (b_n s) 0)) by lia.
  assert (SS : s_step (absE s E) (Position b asc) = if bad_type s b then (absE s E, ORc EBADBKEY)
          else match lookup b E with
               | None => (absE s E, ORc ENOENT)
               | Some _ => (absE s E, OCnt (if asc then pos_of b E else length E - pos_of b E - 1))
               end) by (cbn [s_step absE s_el]; destruct E; [congruence|reflexivity]).
  destruct (bad_type s b); [apply same_state; assumption|].
  pose proof (posi_find_spec s E b asc HI A1) as PF. destruct (lookup b E) as [x|].
  - destruct PF as (l & i & P1 & _). rewrite P1. apply same_state; assumption.
  - rewrite PF. apply same_state; assumption.
Qed.

Lemma skipn_cons {A} (l : list A) : forall r x, nth_error l r = Some x -> skipn r l = x :: skipn (S r) l.
Proof.
  induction l as [|y l IH]; intros [|r] x H; cbn [nth_error] in H; try discriminate.
  - injection H as ->. reflexivity.
  - exact (IH r x H).
Qed.

Lemma dirlist_asc E r : dirlist E true r = skipn r E. Proof. reflexivity. Qed.
Lemma dirlist_dsc E r : dirlist E false r = rev (firstn (S r) E). Proof. reflexivity. Qed.

Lemma firstn_S_nth {A} (l : list A) : forall r x, nth_error l r = Some x -> firstn (S r) l = firstn r l ++ [x].
Proof.
  induction l as [|y l IH]; intros [|r] x H; cbn [nth_error] in H; try discriminate.
  - injection H as ->. reflexivity.
  - change (y :: firstn (S r) l = y :: (firstn r l ++ [x])). f_equal. exact (IH r x H).
Qed.

Lemma rev_firstn {A} (l : list A) n : rev (firstn n l) = skipn (length l - n) (rev l).
Proof.
  destruct (Nat.leb_spec n (length l)) as [C|C].
  - rewrite <- (firstn_skipn n l) at 3. rewrite rev_app_distr, skipn_app, rev_length, skipn_length.
    rewrite skipn_all2 by (rewrite rev_length, skipn_length; lia). cbn [app]. rewrite Nat.sub_diag. reflexivity.
  - rewrite firstn_all2 by lia. replace (length l - n) with 0 by lia. reflexivity.
Qed.

(* the elements around rank r in the order asked for *)
Lemma around {A} (l : list A) p x n : nth_error l p = Some x ->
  rev (firstn (Nat.min p n) (rev (firstn p l))) ++ x :: firstn n (skipn (S p) l) = firstn (Nat.min p n + 1 + n) (skipn (p - n) l) /\
  length (firstn (Nat.min p n) (rev (firstn p l))) = Nat.min p n.
Proof.
  intros H. destruct (nth_error_split l p H) as (a & b & -> & <-).
  assert (F1 : firstn (length a) (a ++ x :: b) = a) by (rewrite firstn_app, Nat.sub_diag, firstn_all; cbn; apply app_nil_r). rewrite F1.
  assert (F2 : skipn (S (length a)) (a ++ x :: b) = b) by (clear; induction a as [|y a IH]; [reflexivity|exact IH]).
  rewrite F2. split.
  - rewrite rev_firstn, rev_involutive, rev_length. replace (length a - Nat.min (length a) n) with (length a - n) by lia.
    rewrite skipn_app. replace (length a - n - length a) with 0 by lia. cbn [skipn].
    rewrite firstn_app, skipn_length. rewrite (firstn_all2 (skipn (length a - n) a)) by (rewrite skipn_length; lia). f_equal.
    replace (Nat.min (length a) n + 1 + n - (length a - (length a - n))) with (S n) by lia. reflexivity.
  - rewrite firstn_length, rev_length. lia.
Qed.

Lemma nth_error_rev {A} (l : list A) r x : nth_error l r = Some x -> nth_error (rev l) (length l - r - 1) = Some x.
Proof.
  intros H. destruct (nth_error_split l r H) as (a & b & -> & <-). rewrite rev_app_distr, app_length. cbn [rev length].
  rewrite <- app_assoc. cbn [app]. rewrite nth_error_app2 by (rewrite rev_length; lia). rewrite rev_length.
  replace (length a + S (length b) - length a - 1 - length b) with 0 by lia. reflexivity.
Qed.

Lemma posget_refines s E b asc count : inv s E -> step_post s E (PosGet b asc count) (step s (PosGet b asc count)).
Proof.
  intros HI. unfold step. destruct (inv_cases s E HI) as [(A1 & A2 & A3)|(A1 & A2 & A3 & A4)].
  { subst E. rewrite A3. apply same_state; [exact HI|reflexivity]. }
  rewrite (proj2 (Nat.eqb_neq (b_n s) 0)) by lia.
  assert (SS : s_step (absE s E) (PosGet b asc count) = if bad_type s b then (absE s E, ORc EBADBKEY)
          else match lookup b E with
               | None => (absE s E, ORc ENOENT)
               | Some _ =>
                   let p := if asc then pos_of b E else length E - pos_of b E - 1 in
                   (absE s E, OPosGet p (firstn (Nat.min p count + 1 + count) (skipn (p - count) (ordered asc E))) (Nat.min p count))
               end) by (cbn [s_step absE s_el]; destruct E; [congruence|reflexivity]).
  destruct (bad_type s b); [apply same_state; assumption|]. unfold posi_find_with_get.
  pose proof (posi_find_spec s E b asc HI A1) as PF. destruct (lookup b E) as [x|].
  2:{ rewrite PF. apply same_state; assumption. }
  destruct PF as (l & i & P1 & P2 & P3 & P4). rewrite P1. clear P1. pose proof (btree_tree _ _ A1) as HT.
  rewrite !(batch_get_spec (b_T s) E _ HT _ l i P2). rewrite P3. set (r := pos_of b E) in *. clearbody r.
  assert (RL : r < length E) by (apply nth_error_Some; rewrite P4; discriminate).
  set (p := if asc then r else length E - r - 1) in *.
  assert (EI : (if Nat.ltb p count then p else count) = Nat.min p count) by (destruct (Nat.ltb_spec p count); lia). rewrite EI.
  assert (OX : nth_error (ordered asc E) p = Some x) by (unfold ordered, p; destruct asc; [exact P4|apply nth_error_rev; exact P4]).
  assert (D1 : tl (dirlist E asc r) = skipn (S p) (ordered asc E)).
  { unfold p, ordered. destruct asc.
    - rewrite dirlist_asc, (skipn_cons E _ _ P4). reflexivity.
    - rewrite dirlist_dsc, (firstn_S_nth E _ _ P4), rev_app_distr. cbn [rev app tl]. rewrite rev_firstn. f_equal. lia. }
  assert (D2 : tl (dirlist E (negb asc) r) = rev (firstn p (ordered asc E))).
  { unfold p, ordered. destruct asc; cbn [negb].
    - rewrite dirlist_dsc, (firstn_S_nth E _ _ P4), rev_app_distr. reflexivity.
    - rewrite dirlist_asc, (skipn_cons E _ _ P4). cbn [tl]. rewrite rev_firstn, rev_involutive, rev_length. f_equal. lia. }
  rewrite D1, D2. destruct (around (ordered asc E) p x count OX) as (AR1 & AR2). rewrite AR1, AR2, Nat.eqb_refl.
  apply same_state; [exact HI|]. exact SS.
Qed.

Lemma by_posi_spec s E fw r n : inv s E -> btree (b_T s) E -> r < length E -> 0 < n ->
  elem_get_by_posi s r n fw = Some (firstn n (dirlist E fw r)).
Proof.
  intros HI HB RL NP. pose proof (btree_tree _ _ HB) as HT. unfold elem_get_by_posi. destruct (by_rank_root (b_T s) E r HT RL) as (l & i & B1 & B2 & B3). rewrite B1.
  destruct (elem_at_spec (b_T s) E HT l i B2) as (EA & _). rewrite EA, B3. rewrite (batch_get_spec (b_T s) E fw HT _ l i B2), B3.
  destruct (nth_error E r) as [x|] eqn:EX; [|apply nth_error_None in EX; lia]. destruct (dirlist_cons E fw r x EX) as (V & -> & _). cbn [tl].
  destruct n as [|n]; [lia|]. cbn [firstn Nat.sub]. rewrite Nat.sub_0_r. reflexivity.
Qed.

Lemma skipn_exact {A} (a b : list A) n : n = length a -> skipn n (a ++ b) = b.
Proof. intros ->. induction a as [|x a IH]; [reflexivity|exact IH]. Qed.
Lemma firstn_exact {A} (a b : list A) n : n = length a -> firstn n (a ++ b) = a.
Proof. intros ->. induction a as [|x a IH]; [reflexivity|]. cbn. f_equal. exact IH. Qed.

Lemma rev_seg {A} (l : list A) a n : a + n <= length l -> rev (firstn n (skipn a (rev l))) = firstn n (skipn (length l - a - n) l).
Proof.
  intros H. assert (D : exists u v w, l = u ++ v ++ w /\ length w = a /\ length v = n).
  { exists (firstn (length l - a - n) l), (firstn n (skipn (length l - a - n) l)), (skipn n (skipn (length l - a - n) l)).
    split; [rewrite !firstn_skipn; reflexivity|]. rewrite firstn_length, !skipn_length. lia. }
  destruct D as (u & v & w & -> & <- & <-). rewrite !rev_app_distr, <- app_assoc, !app_length.
  rewrite skipn_exact by (rewrite rev_length; reflexivity). rewrite firstn_exact by (rewrite rev_length; reflexivity). rewrite rev_involutive.
  rewrite skipn_exact by lia. rewrite firstn_exact by reflexivity. reflexivity.
Qed.

Lemma getbypos_refines s E asc from to : inv s E -> step_post s E (GetByPos asc from to) (step s (GetByPos asc from to)).
Proof.
  intros HI. unfold step. destruct (inv_cases s E HI) as [(A1 & A2 & A3)|(A1 & A2 & A3 & A4)].
  { subst E. rewrite A3. apply same_state; [exact HI|reflexivity]. }
  rewrite (proj2 (Nat.eqb_neq (b_n s) 0)) by lia. pose proof (i_n _ _ HI) as N. rewrite N in *.
  assert (SS : s_step (absE s E) (GetByPos asc from to) = if Nat.leb (length E) from && Nat.leb (length E) to then (absE s E, ORc ENOENT)
      else
        let n := length E in
        let a := Nat.min from (n - 1) in
        let b := Nat.min to (n - 1) in
        let x := ordered asc E in
        (absE s E, OElems (if Nat.leb a b then firstn (b - a + 1) (skipn a x)
                    else rev (firstn (a - b + 1) (skipn b x))) false)) by reflexivity.
  destruct (Nat.leb (length E) from && Nat.leb (length E) to); [apply same_state; assumption|]. cbv zeta in SS |- *.
  assert (CL : forall z, (if Nat.leb (length E) z then length E - 1 else z) = Nat.min z (length E - 1)) by (intros z; destruct (Nat.leb_spec (length E) z); lia).
  rewrite !CL. set (a := Nat.min from (length E - 1)) in *. set (c := Nat.min to (length E - 1)) in *.
  assert (AL : a < length E) by lia. assert (BL : c < length E) by lia. clearbody a c. clear CL.
  assert (G : (if Nat.leb (if asc then a else length E - a - 1) (if asc then c else length E - c - 1)
       then elem_get_by_posi s (if asc then a else length E - a - 1) ((if asc then c else length E - c - 1) - (if asc then a else length E - a - 1) + 1) true
       else elem_get_by_posi s (if asc then a else length E - a - 1) ((if asc then a else length E - a - 1) - (if asc then c else length E - c - 1) + 1) false)
     = Some (if Nat.leb a c then firstn (c - a + 1) (skipn a (ordered asc E)) else rev (firstn (a - c + 1) (skipn c (ordered asc E))))).
  { assert (ASC : forall z w, z <= w -> w < length E -> elem_get_by_posi s z (w - z + 1) true = Some (firstn (w - z + 1) (skipn z E))).
    { intros z w ZW WL. rewrite (by_posi_spec s E true z _ HI A1) by lia. reflexivity. }
    assert (DSC : forall z w, w < z -> z < length E -> elem_get_by_posi s z (z - w + 1) false = Some (rev (firstn (z - w + 1) (skipn w E)))).
    { intros z w ZW WL. rewrite (by_posi_spec s E false z _ HI A1) by lia. rewrite dirlist_dsc, rev_firstn.
      f_equal. rewrite <- (rev_involutive E) at 3. rewrite rev_seg by (rewrite rev_length; lia). rewrite rev_length. f_equal. f_equal. lia. }
    unfold ordered. destruct asc.
    - destruct (Nat.leb_spec a c); [apply ASC; lia|apply DSC; lia].
    - destruct (Nat.leb_spec a c) as [C|C].
      + destruct (Nat.leb_spec (length E - a - 1) (length E - c - 1)) as [C2|C2].
        * assert (a = c) by lia. subst c. rewrite ASC by lia. f_equal. replace (length E - a - 1 - (length E - a - 1) + 1) with 1 by lia. replace (a - a + 1) with 1 by lia.
          destruct (nth_error E (length E - a - 1)) as [x|] eqn:EX; [|apply nth_error_None in EX; lia]. rewrite (skipn_cons _ _ _ EX). cbn [firstn].
          pose proof (nth_error_rev E _ x EX) as RX. replace (length E - (length E - a - 1) - 1) with a in RX by lia. rewrite (skipn_cons _ _ _ RX). reflexivity.
        * rewrite DSC by lia. f_equal. replace (length E - a - 1 - (length E - c - 1) + 1) with (c - a + 1) by lia.
          rewrite <- (rev_involutive E) at 2. rewrite rev_seg by (rewrite rev_length; lia). rewrite rev_length. f_equal. f_equal. lia.
      + rewrite (proj2 (Nat.leb_le _ _)) by lia. rewrite ASC by lia. f_equal. rewrite rev_seg by lia.
        replace (length E - c - 1 - (length E - a - 1) + 1) with (a - c + 1) by lia. f_equal. f_equal. lia. }
  rewrite G. apply same_state; assumption.
Qed.

Lemma setattr_refines s E a : inv s E -> match a with ARange (Some r) => kok r | _ => True end -> step_post s E (SetAttr a) (step s (SetAttr a)).
Proof.
  intros HI OK. unfold step. pose proof HI as HI0. destruct HI0 as [I1 I2 I3 I4 I5 I6]. destruct a as [n|o|[r|]]; cbn [set_attr].
  - rewrite I3. destruct (Nat.ltb n (length E)) eqn:C.
    + apply same_state; [exact HI|]. cbn [s_step absE s_el]. rewrite C. reflexivity.
    + exists E. split; [constructor; cbn [b_T b_n b_type b_range]; auto|]. right. cbn [s_step absE s_el]. rewrite C. rewrite <- I3. reflexivity.
  - exists E. split; [constructor; cbn [b_T b_n b_type b_range]; auto|]. right. cbn [s_step absE s_el s_ovf s_max s_trim s_type s_range b_max b_ovf b_trim b_type b_range].
    destruct (b_ovf s), o; reflexivity.
  - destruct (inv_cases s E HI) as [(A1 & A2 & A3)|(A1 & A2 & A3 & A4)].
    + subst E. rewrite A3. cbn [Nat.ltb Nat.leb]. exists []. split; [|right; reflexivity].
      constructor; cbn [b_T b_n b_type b_range]; auto. intros r0 [= <-]. split; [exact OK|reflexivity].
    + rewrite (proj2 (Nat.ltb_lt 0 _)) by exact A4. destruct (btree_ends _ _ A1) as (FE & LE). rewrite FE, LE.
      destruct (s_first E) as [mn|] eqn:EF; [|unfold s_first in EF; destruct E; [congruence|discriminate]].
      destruct (s_last E) as [mx|] eqn:EL.
      2:{ unfold s_last in EL. destruct (rev E) as [|x l] eqn:R; [|discriminate]. apply (f_equal (@rev _)) in R. rewrite rev_involutive in R. cbn in R. congruence. }
      assert (SS : s_step (absE s E) (SetAttr (ARange (Some r))) = if bad_type s r then (absE s E, ORc EBADVALUE)
              else if negb (match b_range s with Some q => keq r q | None => false end) &&
                      (measure r r <? measure r (bk mx) - measure r (bk mn))%N
                   then (absE s E, ORc EBADVALUE)
                   else (mkSp E (b_max s) (b_ovf s) (b_trim s) (b_type s) (Some r), ORc SUCC)) by (cbn [s_step absE s_el]; rewrite EF, EL; reflexivity).
      destruct (bad_type s r) eqn:BT; [apply same_state; assumption|].
      pose proof (proj1 (Forall_forall _ _) I5 mn (hd_in E mn EF)) as TMN. pose proof (proj1 (Forall_forall _ _) I5 mx (last_in E mx EL)) as TMX. cbn in TMN, TMX.
      assert (TR : typed (b_type s) r).
      { apply (has_typed s E r HI A2 OK). rewrite BT. apply andb_false_r. }
      pose proof (typed_like _ _ _ TR TMN) as LMN. pose proof (typed_like _ _ _ TR TMX) as LMX.
      destruct TMN as (KMN & _). destruct TMX as (KMX & _).
      pose proof (first_le E mn mx I4 EF (last_in E mx EL)) as MM. pose proof (measure_mono' r _ _ KMN KMX LMN LMX MM) as M1.
      assert (OKR : inv (mkBt (b_T s) (b_n s) (b_max s) (b_ovf s) (b_trim s) (b_type s) (Some r)) E).
      { constructor; cbn [b_T b_n b_type b_range]; auto. intros r0 [= <-]. exact TR. }
      assert (NEQ : match b_range s with Some q => b_isne r q | None => true end = negb match b_range s with Some q => keq r q | None => false end).
      { destruct (b_range s) as [q|]; [apply b_isne_spec|reflexivity]. }
      rewrite NEQ. destruct (Nat.leb_spec 2 (b_n s)) as [C2|C2]; cbn [andb].
      * destruct (negb match b_range s with Some q => keq r q | None => false end); cbn [andb] in SS.
        2:{ exists E. split; [exact OKR|]. right. rewrite SS. reflexivity. }
        rewrite (b_diff_spec r _ _ KMX KMN LMX LMN M1).
        rewrite b_isgt_key_of; [|exact (proj1 TR)|eapply room_le; [|apply (room_measure r (bk mx) KMX LMX)]; lia].
        destruct (N.ltb _ _); cbn [negb].
        -- apply same_state; assumption.
        -- exists E. split; [exact OKR|]. right. rewrite SS. reflexivity.
      * assert (L1 : exists x, E = [x]) by (destruct E as [|x [|y E]]; [congruence|eauto|cbn in I3; lia]). destruct L1 as (x & ->).
        cbn in EF, EL. injection EF as <-. injection EL as <-. rewrite N.sub_diag in SS. rewrite (proj2 (N.ltb_ge _ _)) in SS by lia. rewrite andb_false_r in SS.
        exists [x]. split; [exact OKR|]. right. rewrite SS. reflexivity.
  - exists E. split.
    + constructor; cbn [b_T b_n b_type b_range]; auto; [|discriminate]. rewrite I3. destruct (b_range s); [|exact I5]. destruct E; [constructor|exact I5].
    + right. cbn [s_step absE s_el s_range b_range]. rewrite I3. destruct E; destruct (b_range s); reflexivity.
Qed.

Lemma getattr_refines s E : inv s E -> step_post s E GetAttr (step s GetAttr).
Proof.
  intros HI. unfold step. destruct (inv_cases s E HI) as [(A1 & A2 & A3)|(A1 & A2 & A3 & A4)].
  { subst E. rewrite A3. apply same_state; [exact HI|]. reflexivity. }
  rewrite (proj2 (Nat.ltb_lt 0 _)) by exact A4. destruct (btree_ends _ _ A1) as (FE & LE). rewrite FE, LE.
  destruct (s_first E) as [mn|] eqn:EF; [|unfold s_first in EF; destruct E; [congruence|discriminate]].
  destruct (s_last E) as [mx|] eqn:EL.
  2:{ unfold s_last in EL. destruct (rev E) as [|x l] eqn:R; [|discriminate]. apply (f_equal (@rev _)) in R. rewrite rev_involutive in R. cbn in R. congruence. }
  apply same_state; [exact HI|]. cbn [s_step absE s_el]. rewrite EF, EL, (i_n _ _ HI). reflexivity.
Qed.

Lemma got_all cnt E : got true None None 0 cnt 0 [] E = take cnt E.
Proof.
  unfold got. cbn [Nat.sub skipn app length]. assert (F : filter (fun e => negb (beyond true None e) && passes None e) E = E).
  { induction E as [|x E IH]; [reflexivity|]. cbn [filter beyond passes negb andb]. f_equal. exact IH. }
  rewrite F. destruct cnt as [|cnt]; [reflexivity|]. cbn [Nat.eqb]. rewrite Nat.sub_0_r. reflexivity.
Qed.

Lemma take_sub {A} n (l : list A) : NoDup l -> NoDup (take n l) /\ incl (take n l) l.
Proof.
  intros ND. destruct n as [|n]; cbn [take]; [split; [exact ND|apply incl_refl]|]. split.
  - rewrite <- (firstn_skipn (S n) l) in ND. apply nodup_app in ND. tauto.
  - intros x HX. rewrite <- (firstn_skipn (S n) l). apply in_or_app. left. exact HX.
Qed.

Lemma deletesome_refines s E count : inv s E -> step_post s E (DeleteSome count) (step s (DeleteSome count)).
Proof.
  intros HI. unfold step, elem_delete. destruct (inv_cases s E HI) as [(A1 & A2 & A3)|(A1 & A2 & A3 & A4)].
  { subst E. rewrite A1. apply same_state; [exact HI|]. cbn [s_step absE s_el]. destruct count; reflexivity. }
  destruct (b_T s) as [|L Us] eqn:ET; [congruence|]. rewrite <- ET in *. clear L Us ET A3.
  pose proof (btree_tree _ _ A1) as HT. destruct (find_first_all _ _ HT) as (p & e & F1 & F2 & F3 & F4).
  unfold elem_get. rewrite F1. cbn [pn px peq negb andb].
  assert (E0 : nth_error E (flat (lev (b_T s) 0) 0 0) = Some e) by (change (flat (lev (b_T s) 0) 0 0) with 0; destruct E; [discriminate|exact F2]).
  destruct (run_walk true None None 0 count true (b_T s) E 0 0 p e A1 (i_sorted _ _ HI) F4 E0 (fun _ => F3) eq_refl) as (w & w' & W1 & W2 & W3 & _ & W5 & W6).
  rewrite W1, W2. change (dirlist E true (flat (lev (b_T s) 0) 0 0)) with E in *. rewrite got_all in W3, W5, W6. rewrite W3, W5.
  assert (NZ : take count E <> []) by (destruct E; [congruence|]; destruct count; discriminate).
  destruct (W6 eq_refl NZ) as (T' & M1 & M2 & M3). rewrite M1.
  assert (LP : 0 < length (take count E)) by (destruct (take count E); [congruence|cbn; lia]). rewrite (proj2 (Nat.ltb_lt 0 _)) by exact LP. cbn [andb].
  assert (ND : NoDup E) by (apply NoDup_map_inv with (f := bk); apply sorted_nodup; exact (i_sorted _ _ HI)).
  destruct (take_sub count E ND) as (TN & TI).
  assert (D : deleted s (set_T s T' (b_n s - length (take count E))) E (take count E)) by (exists T'; rewrite (i_n _ _ HI); auto).
  destruct (inv_deleted _ _ _ _ HI D TN TI) as (J1 & J2). exists (without (take count E) E). split; [exact J1|]. right. rewrite J2. reflexivity.
Qed.

Theorem step_refines s E o : inv s E -> op_ok o -> step_post s E o (step s o).
Proof.
  intros HI OK. destruct o; cbn [op_ok] in OK.
  - apply insert_refines; assumption.
  - apply update_refines; assumption.
  - apply delete_refines; assumption.
  - apply arith_refines; assumption.
  - apply get_refines; assumption.
  - apply count_refines; assumption.
  - apply position_refines; assumption.
  - apply posget_refines; assumption.
  - apply getbypos_refines; assumption.
  - apply setattr_refines; [assumption|]. destruct a as [| |[r|]]; auto.
  - apply getattr_refines; assumption.
  - apply deletesome_refines; assumption.
Qed.

Lemma init_inv max o : inv (init max o) [].
Proof. constructor; cbn; auto; [lia|discriminate]. Qed.
