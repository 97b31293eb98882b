From Verif Require Import Base RpModel RpSpec RpBody RpBody2.
From Verif Require BtModel BtSpec BtOrder BtOps BtIns BtRefine BtRun BtWalk BtGet2 ListModel ListSpec.
From Coq Require Import Permutation.
Local Open Scope nat_scope.

Definition redo_dels (drop : bool) (b : option body) (ds : list edel) : option body :=
  fold_left (fun ob d => match ob with Some b => redo_del b d drop | None => None end) ds b.
(* what a delete command leaves, and its records *)
Definition del_ok (it : item) (drop : bool) (x' : option item) (rs : list rec1) : Prop :=
  exists ds ob, rs = map (fun d => RDel d drop) ds /\ x' = settle it ob /\ sameo (redo_dels drop (Some (i_body it)) ds) ob /\
    (forall b', ob = Some b' -> wf_body b' /\ same_body (shell (i_body it)) (shell b')).

Lemma with_same it : with_body it (i_body it) = it.
Proof. destruct it; reflexivity. Qed.
Lemma del_none it drop : wf_body (i_body it) -> del_ok it drop (Some it) [].
Proof.
  intros W. exists [], (Some (i_body it)). split; [reflexivity|]. split; [cbn; rewrite with_same; reflexivity|]. split; [apply same_refl|].
  intros b' [= <-]. split; [exact W|apply same_refl].
Qed.

(* ---------- lists ---------- *)

Lemma outside_cut l : forall i lo hi, (lo <= hi + 1)%Z -> ListSpec.outside i lo hi l = firstn (Z.to_nat (lo - i)) l ++ skipn (Z.to_nat (hi + 1 - i)) l.
Proof.
  induction l as [|x l IH]; intros i lo hi H; cbn [ListSpec.outside]; [rewrite firstn_nil, skipn_nil; reflexivity|].
  rewrite IH by exact H. destruct (Z.leb_spec lo i) as [A|A]; cbn [andb].
  - replace (Z.to_nat (lo - i)) with 0 by lia; replace (Z.to_nat (lo - (i + 1))) with 0 by lia. cbn [firstn app].
    destruct (Z.leb_spec i hi) as [B|B].
    + replace (Z.to_nat (hi + 1 - i)) with (S (Z.to_nat (hi + 1 - (i + 1)))) by lia. reflexivity.
    + replace (Z.to_nat (hi + 1 - i)) with 0 by lia; replace (Z.to_nat (hi + 1 - (i + 1))) with 0 by lia. reflexivity.
  - replace (Z.to_nat (lo - i)) with (S (Z.to_nat (lo - (i + 1)))) by lia. cbn [firstn app]. f_equal. f_equal.
    replace (Z.to_nat (hi + 1 - i)) with (S (Z.to_nat (hi + 1 - (i + 1)))) by lia. reflexivity.
Qed.

Lemma cut_outside l f t get i c :
  list_range (ListSpec.size l) f t get = Some (i, c) ->
  let n := ListSpec.size l in let f' := ListSpec.from_head f n in let t' := ListSpec.from_head t n in
  cut i c l = ListSpec.outside 0 (Z.min f' t') (Z.max f' t') l.
Proof.
  unfold list_range, adjust. set (n := ListSpec.size l). cbv zeta. fold (ListSpec.from_head f n). fold (ListSpec.from_head t n).
  set (F := ListSpec.from_head f n). set (G := ListSpec.from_head t n). clearbody F G. clear f t.
  destruct (Z.leb_spec n 0) as [N0|N0]; [discriminate|].
  destruct ((F <? 0)%Z && (G <? 0)%Z) eqn:NN; [discriminate|]. destruct ((n <=? F)%Z && (n <=? G)%Z) eqn:PP; [discriminate|].
  apply andb_false_iff in NN. apply andb_false_iff in PP. rewrite !Z.ltb_ge in NN. rewrite !Z.leb_gt in PP.
  set (f := if (F <? 0)%Z then 0%Z else if (n <=? F)%Z then (n - 1)%Z else F).
  set (t := if (G <? 0)%Z then 0%Z else if (n <=? G)%Z then (n - 1)%Z else G).
  assert (HF : (f = Z.max 0 (Z.min F (n - 1)))%Z) by (unfold f; destruct (Z.ltb_spec F 0), (Z.leb_spec n F); lia).
  assert (HG : (t = Z.max 0 (Z.min G (n - 1)))%Z) by (unfold t; destruct (Z.ltb_spec G 0), (Z.leb_spec n G); lia).
  clearbody f t.
  assert (CUT : forall i c, (i = Z.min f t)%Z -> (Z.of_nat c = Z.max f t - i + 1)%Z -> cut i c l = ListSpec.outside 0 (Z.min F G) (Z.max F G) l).
  { clear i c. intros i c HI HC. unfold cut. fold n.
    assert (i0 : (0 <= i < n)%Z) by lia. rewrite (proj2 (Z.ltb_ge i 0) ltac:(lia)). cbn [orb].
    rewrite (proj2 (Z.leb_gt n i) ltac:(lia)), (proj2 (Z.ltb_ge i 0) ltac:(lia)). cbn [orb].
    rewrite (proj2 (Nat.eqb_neq c 0) ltac:(lia)). rewrite outside_cut by lia. f_equal.
    - f_equal. lia.
    - destruct (Z.ltb_spec (Z.max F G) n).
      + f_equal. lia.
      + rewrite !skipn_all2; [reflexivity| |]; unfold n, ListSpec.size in *; lia. }
  destruct (Z.leb_spec f t) as [C|C]; [intros [= <- <-]; apply CUT; lia|]. destruct get; [|intros [= <- <-]; apply CUT; lia].
  destruct (Z.ltb_spec f (f - t + 1)); intros [= <- <-]; apply CUT; lia.
Qed.

Lemma outside_le l : forall i lo hi, length (ListSpec.outside i lo hi l) <= length l.
Proof. induction l as [|x l IH]; intros i lo hi; cbn [ListSpec.outside length]; [lia|]. pose proof (IH (i + 1)%Z lo hi). destruct (_ && _); cbn [length]; lia. Qed.

Lemma list_del_ok it f t drop get x' rs : wf_body (i_body it) -> list_del it f t drop get = (x', rs) -> del_ok it drop x' rs.
Proof.
  intros W. unfold list_del. destruct (i_body it) as [|mx ov rd l| | |] eqn:B; try (intros [= <- <-]; rewrite <- B in W; apply del_none; exact W).
  destruct (get && negb rd); [intros [= <- <-]; rewrite <- B in W; apply del_none; exact W|].
  destruct (list_range _ f t get) as [[i c]|] eqn:R; [|intros [= <- <-]; rewrite <- B in W; apply del_none; exact W].
  intros [= <- <-]. pose proof (cut_outside l f t get i c R) as CO. cbv zeta in CO.
  eexists [DList (ListSpec.size l) i c], _. split; [reflexivity|]. split; [reflexivity|]. rewrite B. cbn [redo_dels fold_left redo_del]. rewrite Z.eqb_refl. cbn [negb]. rewrite CO.
  split; [apply sameo_refl|]. intros b'. unfold dropped. destruct (drop && _); [discriminate|]. intros [= <-]. cbn [wf_body] in *. split; [|cbn; auto].
  pose proof (outside_le l 0 (Z.min (ListSpec.from_head f (ListSpec.size l)) (ListSpec.from_head t (ListSpec.size l))) (Z.max (ListSpec.from_head f (ListSpec.size l)) (ListSpec.from_head t (ListSpec.size l)))).
  unfold ListSpec.size in *. lia.
Qed.

(* ---------- sets and maps ---------- *)

Lemma filter_filter {A} (f g : A -> bool) l : filter f (filter g l) = filter (fun x => g x && f x) l.
Proof. induction l as [|x l IH]; [reflexivity|]. cbn. destruct (g x); cbn; [destruct (f x)|]; rewrite IH; reflexivity. Qed.
Lemma filter_all {A} (f : A -> bool) l : (forall x, In x l -> f x = true) -> filter f l = l.
Proof. induction l as [|x l IH]; intros H; [reflexivity|]. cbn. rewrite (H x (or_introl eq_refl)), IH; [reflexivity|]. intros y HY. apply H. right. exact HY. Qed.

Lemma set_dels mx rd drop d : forall l, NoDup d -> incl d l -> d <> [] ->
  redo_dels drop (Some (St mx rd l)) (map DSet d) = dropped drop (is_nil (filter (fun v => negb (memb v d)) l)) (St mx rd (filter (fun v => negb (memb v d)) l)).
Proof.
  induction d as [|v d IH]; intros l ND IN NE; [congruence|]. cbn [map redo_dels fold_left redo_del]. cbv zeta.
  inversion ND as [|? ? NV ND']; subst.
  assert (FE : filter (fun x => negb (memb x (v :: d))) l = filter (fun x => negb (memb x d)) (rem v l)).
  { unfold rem. rewrite filter_filter. apply filter_ext. intros x. unfold memb. cbn [existsb]. rewrite negb_orb. rewrite (beqb_sym x v). reflexivity. }
  rewrite FE. destruct d as [|w d'].
  - cbn [map fold_left]. rewrite (filter_all (fun x => negb (memb x [])) (rem v l)); [reflexivity|]. reflexivity.
  - assert (IW : incl (w :: d') (rem v l)).
    { intros x HX. apply filter_In. split; [apply IN; right; exact HX|]. apply negb_true_iff, beqb_neq. intros ->. apply NV. exact HX. }
    assert (NI : is_nil (rem v l) = false) by (destruct (rem v l); [specialize (IW w (or_introl eq_refl)); contradiction|reflexivity]).
    unfold dropped at 1. rewrite NI, andb_false_r. exact (IH (rem v l) ND' IW ltac:(discriminate)).
Qed.

Lemma set_del_ok it d drop x' rs : wf_body (i_body it) -> set_del it d drop = (x', rs) -> del_ok it drop x' rs.
Proof.
  intros W. unfold set_del. destruct (i_body it) as [| |mx rd l| |] eqn:B; try (intros [= <- <-]; rewrite <- B in W; apply del_none; exact W).
  destruct d as [|v d]; [intros [= <- <-]; rewrite <- B in W; apply del_none; exact W|]. set (D := v :: d).
  destruct (forallb _ D && _) eqn:C; [|intros [= <- <-]; rewrite <- B in W; apply del_none; exact W].
  apply andb_true_iff in C. destruct C as (C1 & C2). apply Nat.eqb_eq in C2.
  assert (ND : NoDup D).
  { eapply NoDup_incl_NoDup; [apply (NoDup_nodup (list_eq_dec N.eq_dec) D)| |].
    - apply Nat.eq_le_incl. symmetry. exact C2.
    - intros x HX. apply nodup_In in HX. exact HX. }
  assert (IN : incl D l) by (intros x HX; apply memb_In; exact (proj1 (forallb_forall _ _) C1 x HX)).
  intros [= <- <-]. eexists (map DSet D), _. split; [rewrite map_map; reflexivity|]. split; [reflexivity|]. rewrite B.
  rewrite (set_dels mx rd drop D l ND IN) by discriminate. split; [apply sameo_refl|]. intros b'. unfold dropped. destruct (drop && _); [discriminate|]. intros [= <-].
  destruct W as (W0 & W1 & W2). split; [|cbn; auto]. cbn. split; [exact W0|]. split; [|apply NoDup_filter; exact W2].
  eapply Nat.le_trans; [apply BtRun.filter_le|exact W1].
Qed.

Lemma NoDup_map_filter {A B} (g : A -> B) f l : NoDup (map g l) -> NoDup (map g (filter f l)).
Proof.
  induction l as [|x l IH]; cbn [map filter]; intros H; [exact H|]. inversion H as [|? ? N1 N2]; subst. destruct (f x); cbn [map]; [|apply IH; exact N2].
  constructor; [|apply IH; exact N2]. intros HI. apply N1. apply in_map_iff in HI. destruct HI as (y & Y1 & Y2). apply filter_In in Y2. apply in_map_iff. exists y. tauto.
Qed.

Lemma map_dels mx rd drop d : forall l, NoDup d -> incl d (map fst l) -> d <> [] ->
  redo_dels drop (Some (Mp mx rd l)) (map DMap d) =
  dropped drop (is_nil (filter (fun p => negb (memb (fst p) d)) l)) (Mp mx rd (filter (fun p => negb (memb (fst p) d)) l)).
Proof.
  induction d as [|v d IH]; intros l ND IN NE; [congruence|]. cbn [map redo_dels fold_left redo_del]. cbv zeta.
  inversion ND as [|? ? NV ND']; subst.
  assert (FE : filter (fun x => negb (memb (fst x) (v :: d))) l = filter (fun x => negb (memb (fst x) d)) (remf v l)).
  { unfold remf. rewrite filter_filter. apply filter_ext. intros x. unfold memb. cbn [existsb]. rewrite negb_orb. rewrite (beqb_sym (fst x) v). reflexivity. }
  rewrite FE. destruct d as [|w d'].
  - cbn [map fold_left]. rewrite (filter_all (fun x => negb (memb (fst x) [])) (remf v l)); [reflexivity|]. reflexivity.
  - assert (IW : incl (w :: d') (map fst (remf v l))).
    { intros x HX. specialize (IN x (or_intror HX)). apply in_map_iff in IN. destruct IN as (p & <- & P). apply in_map_iff. exists p. split; [reflexivity|]. apply filter_In.
      split; [exact P|]. apply negb_true_iff, beqb_neq. intros ->. apply NV. exact HX. }
    assert (NI : is_nil (remf v l) = false) by (destruct (remf v l); [specialize (IW w (or_introl eq_refl)); contradiction|reflexivity]).
    unfold dropped at 1. rewrite NI, andb_false_r. exact (IH (remf v l) ND' IW ltac:(discriminate)).
Qed.

Lemma map_del_ok it fl drop x' rs : wf_body (i_body it) -> map_del it fl drop = (x', rs) -> del_ok it drop x' rs.
Proof.
  intros W. unfold map_del. destruct (i_body it) as [| | |mx rd l|] eqn:B; try (intros [= <- <-]; rewrite <- B in W; apply del_none; exact W).
  cbv zeta. set (hit := fun p : bytes * bytes => match fl with [] => true | _ => memb (fst p) fl end).
  destruct (filter hit l) as [|p d] eqn:D; [intros [= <- <-]; rewrite <- B in W; apply del_none; exact W|]. rewrite <- D in *.
  destruct W as (W0 & W1 & W2). assert (NE : map fst (filter hit l) <> []) by (rewrite D; discriminate). clear p d D.
  assert (HK : forall p, In p l -> memb (fst p) (map fst (filter hit l)) = hit p).
  { intros p HP. destruct (hit p) eqn:H.
    - apply memb_In. apply in_map. apply filter_In. auto.
    - destruct (memb (fst p) _) eqn:M; [|reflexivity]. exfalso. apply memb_In, in_map_iff in M. destruct M as (q & Q1 & Q2). apply filter_In in Q2.
      unfold hit in *. rewrite Q1 in Q2. destruct fl; [discriminate|]. destruct Q2 as (_ & Q2). congruence. }
  intros [= <- <-]. exists (map DMap (map fst (filter hit l))), (dropped drop (is_nil (filter (fun p => negb (hit p)) l)) (Mp mx rd (filter (fun p => negb (hit p)) l))). split; [rewrite !map_map; reflexivity|].
  split; [reflexivity|]. rewrite B, (map_dels mx rd drop); [|apply NoDup_map_filter; exact W2| |exact NE].
  - assert (FE : filter (fun p => negb (memb (fst p) (map fst (filter hit l)))) l = filter (fun p => negb (hit p)) l).
    { apply filter_ext_in. intros p HP. rewrite (HK p HP). reflexivity. }
    rewrite FE. split; [apply sameo_refl|]. intros b'. unfold dropped. destruct (drop && _); [discriminate|]. intros [= <-]. split; [|cbn; auto]. cbn. split; [exact W0|].
    split; [|apply NoDup_map_filter; exact W2]. eapply Nat.le_trans; [apply BtRun.filter_le|exact W1].
  - intros x HX. apply in_map_iff in HX. destruct HX as (p & <- & HP). apply filter_In in HP. apply in_map. tauto.
Qed.

(* ---------- B+trees ---------- *)

Lemma without_wf s d : wf_bt s -> wf_bt (BtSpec.with_el s (BtSpec.without d (BtSpec.s_el s))).
Proof.
  intros W. pose proof W as (W1 & W2 & W3 & W4 & W5). apply wf_sub; auto.
  - apply BtIns.sorted_filter. exact W1.
  - pose proof (BtRun.without_le d (BtSpec.s_el s)). lia.
  - eapply Forall_sub; [|exact W4]. intros x HX. apply filter_In in HX. tauto.
Qed.

Lemma bt_dels rd drop d : forall s, wf_bt s -> NoDup (map BtModel.bk d) -> incl d (BtSpec.s_el s) -> d <> [] ->
  redo_dels drop (Some (Bt rd s)) (map (fun e => DBt (BtModel.bk e)) d) =
  dropped drop (is_nil (BtSpec.without d (BtSpec.s_el s))) (Bt rd (BtSpec.with_el s (BtSpec.without d (BtSpec.s_el s)))).
Proof.
  induction d as [|e d IH]; intros s W ND IN NE; [congruence|]. cbn [map redo_dels fold_left redo_del].
  inversion ND as [|? ? NV ND']; subst. pose proof W as (W1 & W2 & W3 & W4 & W5).
  assert (IE : In e (BtSpec.s_el s)) by (apply IN; left; reflexivity).
  assert (LK : BtSpec.lookup (BtModel.bk e) (BtSpec.s_el s) = Some e) by (apply (BtRun.lookup_In _ _ _ W1); auto).
  assert (ONE : redo_bt_del rd s (BtModel.mkR (BtModel.bk e) None) None 0 0 drop =
     dropped drop (is_nil (BtSpec.without [e] (BtSpec.s_el s))) (Bt rd (BtSpec.with_el s (BtSpec.without [e] (BtSpec.s_el s))))).
  { unfold redo_bt_del. destruct (BtSpec.s_el s) as [|z l] eqn:EL; [contradiction|]. rewrite <- EL in *.
    destruct (found_free s _ e W LK) as (_ & FF). unfold BtSpec.s_has_type in FF. rewrite EL in FF. cbn in FF. cbn [BtModel.r_from]. rewrite FF.
    rewrite (BtRun.select_single _ None (BtSpec.s_el s) W1), LK. reflexivity. }
  rewrite ONE. clear ONE.
  set (s1 := BtSpec.with_el s (BtSpec.without [e] (BtSpec.s_el s))).
  assert (WW : BtSpec.without (e :: d) (BtSpec.s_el s) = BtSpec.without d (BtSpec.s_el s1)).
  { unfold s1. cbn [BtSpec.with_el BtSpec.s_el]. unfold BtSpec.without. rewrite filter_filter. apply filter_ext. intros x. unfold BtSpec.has_key. cbn [existsb]. rewrite orb_false_r, negb_orb. reflexivity. }
  rewrite WW. destruct d as [|w d'].
  - cbn [map fold_left]. assert (W0 : BtSpec.without [] (BtSpec.s_el s1) = BtSpec.s_el s1) by (apply filter_all; reflexivity).
    rewrite W0. reflexivity.
  - assert (IW : incl (w :: d') (BtSpec.s_el s1)).
    { intros x HX. apply filter_In. split; [apply IN; right; exact HX|]. unfold BtSpec.has_key. cbn [existsb]. rewrite orb_false_r. apply negb_true_iff.
      destruct (BtSpec.keq _ _) eqn:K; [|reflexivity]. exfalso. apply BtOrder.keq_eq in K. apply NV. rewrite <- K. apply in_map. exact HX. }
    assert (NI : is_nil (BtSpec.s_el s1) = false) by (destruct (BtSpec.s_el s1); [specialize (IW w (or_introl eq_refl)); contradiction|reflexivity]).
    change (BtSpec.without [e] (BtSpec.s_el s)) with (BtSpec.s_el s1). unfold dropped at 1. rewrite NI, andb_false_r.
    exact (IH s1 (without_wf s [e] W) ND' IW ltac:(discriminate)).
Qed.

Lemma bt_del_ne rd s r fl ofs cnt drop : BtSpec.s_el s <> [] -> redo_bt_del rd s r fl ofs cnt drop =
  if BtSpec.s_bad_type s (BtModel.r_from r) then None
  else let s' := BtSpec.with_el s (BtSpec.without (BtSpec.select r fl ofs cnt (BtSpec.s_el s)) (BtSpec.s_el s)) in
       dropped drop (is_nil (BtSpec.s_el s')) (Bt rd s').
Proof. intros NE. unfold redo_bt_del. destruct (BtSpec.s_el s); [congruence|reflexivity]. Qed.

Lemma bt_del_ok it o drop logical x' rs : wf_body (i_body it) -> bt_del it o drop logical = (x', rs) -> del_ok it drop x' rs.
Proof.
  intros W. unfold bt_del. destruct (i_body it) as [| | | |rd s] eqn:B; try (intros [= <- <-]; rewrite <- B in W; apply del_none; exact W).
  cbv zeta. cbn [wf_body] in W. pose proof W as (W1 & W2 & W3 & W4 & W5).
  assert (SAME : del_ok it drop (Some it) []) by (apply del_none; rewrite B; exact W).
  assert (SAME' : forall s' : BtSpec.sp, s' = s -> del_ok it drop (Some (with_body it (Bt rd s'))) []) by (intros s' ->; rewrite <- B, with_same; exact SAME).
  assert (GO : forall r fl ofs cnt, BtSpec.s_el s <> [] -> BtSpec.s_bad_type s (BtModel.r_from r) = false -> BtSpec.select r fl ofs cnt (BtSpec.s_el s) <> [] ->
    let s' := BtSpec.with_el s (BtSpec.without (BtSpec.select r fl ofs cnt (BtSpec.s_el s)) (BtSpec.s_el s)) in
    del_ok it drop (settle it (dropped drop (is_nil (BtSpec.s_el s')) (Bt rd s')))
      (if logical then [RDel (DBtL r fl ofs cnt) drop] else map (fun e => RDel (DBt (BtModel.bk e)) drop) (BtSpec.select r fl ofs cnt (BtSpec.s_el s)))).
  { intros r fl ofs cnt NE BT NS s'. destruct (BtGet2.select_sub r fl ofs cnt (BtSpec.s_el s) W1) as (S1 & S2).
    set (d := BtSpec.select r fl ofs cnt (BtSpec.s_el s)) in *.
    exists (if logical then [DBtL r fl ofs cnt] else map (fun e => DBt (BtModel.bk e)) d), (dropped drop (is_nil (BtSpec.s_el s')) (Bt rd s')).
    split; [destruct logical; [reflexivity|rewrite map_map; reflexivity]|]. split; [reflexivity|]. rewrite B. split.
    - destruct logical.
      + cbn [redo_dels fold_left redo_del]. rewrite (bt_del_ne rd s r fl ofs cnt drop NE), BT. apply sameo_refl.
      + rewrite (bt_dels rd drop d s W); [apply sameo_refl| |exact S2|exact NS].
        assert (ND : NoDup (map BtModel.bk (BtSpec.s_el s))) by (apply BtGet2.sorted_nodup; exact W1).
        clear -S1 S2 ND. induction d as [|e d IH]; cbn; constructor.
        * intros H. apply in_map_iff in H. destruct H as (y & Y1 & Y2). inversion S1; subst. assert (y = e); [|subst; contradiction].
          assert (Q : forall l (a b : BtModel.elem), NoDup (map BtModel.bk l) -> In a l -> In b l -> BtModel.bk a = BtModel.bk b -> a = b).
          { clear. induction l as [|z l IH]; intros a b ND HA HB E; [contradiction|]. inversion ND; subst. destruct HA as [->|HA], HB as [->|HB]; auto.
            - exfalso. apply H1. rewrite E. apply in_map. exact HB.
            - exfalso. apply H1. rewrite <- E. apply in_map. exact HA. }
          apply (Q (BtSpec.s_el s)); auto; apply S2; [right; exact Y2|left; reflexivity].
        * apply IH; [inversion S1; assumption|]. intros x HX. apply S2. right. exact HX.
    - intros b'. unfold dropped. destruct (drop && _); [discriminate|]. intros [= <-]. split; [apply without_wf; exact W|]. cbn. auto 10. }
  cbv zeta in GO.
  destruct o; try (intros [= <- <-]; exact SAME).
  - cbn [BtSpec.s_step]. destruct (BtSpec.s_el s) as [|z l] eqn:EL; [intros [= <- <-]; apply SAME'; reflexivity|]. rewrite <- EL in *.
    assert (NE : BtSpec.s_el s <> []) by (rewrite EL; discriminate). clear z l EL.
    destruct (BtSpec.s_bad_type s _) eqn:BT; [intros [= <- <-]; apply SAME'; reflexivity|].
    specialize (GO r fl 0 count NE BT).
    destruct (BtSpec.select r fl 0 count (BtSpec.s_el s)) as [|x d] eqn:SE; [intros [= <- <-]; apply SAME'; reflexivity|].
    rewrite <- SE in *. intros [= <- <-]. apply GO. rewrite SE. discriminate.
  - destruct del; [|intros [= <- <-]; exact SAME]. destruct rd; [|intros [= <- <-]; exact SAME].
    cbn [BtSpec.s_step]. destruct (Nat.leb_spec (length (BtSpec.s_el s)) ofs) as [LE|LE]; [intros [= <- <-]; apply SAME'; reflexivity|].
    assert (NE : BtSpec.s_el s <> []) by (destruct (BtSpec.s_el s); [cbn in LE; lia|discriminate]).
    destruct (BtSpec.s_bad_type s _) eqn:BT; [intros [= <- <-]; apply SAME'; reflexivity|].
    specialize (GO r fl ofs count NE BT).
    destruct (BtSpec.select r fl ofs count (BtSpec.s_el s)) as [|x d] eqn:SE; [intros [= <- <-]; apply SAME'; reflexivity|].
    rewrite <- SE in *. intros [= <- <-]. apply GO. rewrite SE. discriminate.
Qed.
