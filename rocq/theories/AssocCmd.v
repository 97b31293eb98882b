(* SCAN sessions: calls of assoc_scan_direct with other operations in between. *)
From Verif Require Import Base UtilModel AssocModel AssocSpec AssocRev AssocProofs AssocScan AssocRun AssocHist AssocDirect.
Local Open Scope N_scope.

Section Cmd.
Variables (hp : N) (hash : bytes -> N).
Notation hsize := (hsize hp).
Notation bkt k := (bucket_of hp (hash k)).
Notation X k := (N.shiftr (hash k) hp).
Notation base := (base hp hash).
Notation inv := (inv hp hash).
Notation kpos := (kpos hp hash).
Notation cpos := (cpos hp hash).
Notation fits := (fits hp hash).
Notation last_pos := (last_pos hp).

(* a client's scan: before each call other operations run.  The result: the items, and whether the scan is complete *)
Fixpoint session (a : assoc) (cur : bytes) (l : list (list op * (N * N))) : option (list (bytes * N) * bool) :=
  match l with
  | [] => Some ([], false)
  | (ops, (req, asz)) :: r =>
      match run hp hash a ops with
      | None => None
      | Some (a1, _) =>
          match scan_direct hp a1 cur req asz with
          | Some (Scanned cur' d) =>
              if beqb cur' [48] then match r with [] => Some (d, true) | _ :: _ => None end
              else match session a1 cur' r with Some (ds, e) => Some (d ++ ds, e) | None => None end
          | _ => None
          end
      end
  end.

(* the array is large enough in every call *)
Fixpoint roomy (a : assoc) (w : world) (l : list (list op * (N * N))) : Prop :=
  match l with
  | [] => True
  | (ops, (req, asz)) :: r =>
      0 < req <= asz /\ forall a1 xs, run hp hash a ops = Some (a1, xs) -> fits a1 (kv (final w ops)) req asz /\ roomy a1 (final w ops) r
  end.

(* ---------- the table only grows ---------- *)
Definition grows (a a' : assoc) : Prop := rpow a < rpow a' \/ rpow a' = rpow a /\ (expg a' = true -> expg a = true).
Lemma grows_refl a : grows a a.
Proof. right. split; [reflexivity|exact (fun H => H)]. Qed.
Lemma grows_trans a b c : grows a b -> grows b c -> grows a c.
Proof. intros [H1|[H1 H1']] [H2|[H2 H2']]; unfold grows; [left; lia|left; lia|left; lia|right; split; [lia|auto]]. Qed.

Lemma redist_grow n : forall a, rpow (redist hp hash n a) = rpow a.
Proof.
  induction n as [|n IH]; intro a; [reflexivity|]. rewrite redist_S. destruct (split1_fields hp hash a) as (F1 & _).
  destruct (psz a <=? etab a + 1); [exact F1|]. rewrite IH. exact F1.
Qed.
Lemma redistribute_grow a : expg a = true -> grows a (redistribute hp hash a).
Proof.
  intro E. right. split; [|intros _; exact E]. unfold redistribute. set (a1 := redist hp hash 4 a).
  assert (R : rpow a1 = rpow a) by apply redist_grow. destruct (psz a1 <=? etab a1); [destruct (0 <? ebkt a1)|]; exact R.
Qed.
Lemma scan_tabs_grow asz elim ccnt s : forall n a sc out ec cost a' sc' out' ec' cost' fin,
  scan_tabs n asz elim ccnt s a sc out ec cost = Some (a', sc', out', ec', cost', fin) -> rpow a' = rpow a /\ expg a' = expg a.
Proof.
  induction n as [|n IH]; intros a sc out ec cost a' sc' out' ec' cost' fin H; cbn [scan_tabs] in H; [injection H as <- _ _ _ _ _; auto|].
  destruct ((2 * asz <? cost) && _); [injection H as <- _ _ _ _ _; auto|].
  destruct (if s_linked sc then _ else _) as [(pre, todo)|]; [|discriminate].
  destruct (take asz elim ccnt todo out ec (cost + 1) []) as [[[o1 e1] c1] [(seen, [|c rest])|]].
  - injection H as <- _ _ _ _ _. auto.
  - injection H as <- _ _ _ _ _. auto.
  - apply IH in H. exact H.
Qed.
Lemma scan_buckets_grow asz elim ccnt s : forall n a sc out ec cost a' sc' out',
  scan_buckets n asz elim ccnt s a sc out ec cost = Some (a', sc', out') -> rpow a' = rpow a /\ expg a' = expg a.
Proof.
  induction n as [|n IH]; intros a sc out ec cost a' sc' out' H; cbn [scan_buckets] in H; [injection H as <- _ _; auto|].
  set (a1 := if s_tabcnt sc =? 0 then _ else a) in H. assert (E1 : rpow a1 = rpow a /\ expg a1 = expg a) by (unfold a1; destruct (s_tabcnt sc =? 0); auto).
  destruct (scan_tabs _ _ _ _ _ a1 _ _ _ _) as [[[[[[a2 sc2] out2] ec2] cost2] [|]]|] eqn:T; [| |discriminate].
  - injection H as <- _ _. apply scan_tabs_grow in T. destruct E1, T. split; congruence.
  - apply IH in H. cbn [set_refc rpow expg] in H. apply scan_tabs_grow in T. destruct E1, T, H. split; congruence.
Qed.

Lemma step_grows a o a' x : step hp hash a o = Some (a', x) -> grows a a'.
Proof.
  destruct o as [k v m1 m2|k|k v|k|s g|s asz el cc|s|s k]; cbn [step]; intro H.
  - unfold insert in H. destruct (find hp hash a k); [discriminate|]. set (a1 := set_items _ _) in H.
    apply (f_equal (fun r => match r with Some (y, _) => y | None => a end)) in H. cbv beta iota in H. rewrite <- H. clear H a' x. assert (G1 : grows a a1) by (right; split; [reflexivity|exact (fun H => H)]).
    destruct (expg a1) eqn:E.
    + destruct (refc a1 (ebkt a1) =? 0); [|exact G1]. apply (grows_trans a a1); [exact G1|]. apply redistribute_grow. exact E.
    + destruct (negb (limit a1 =? 0) && (limit a1 <? items a1)); [|exact G1]. apply (grows_trans a a1); [exact G1|]. unfold expand.
      destruct ((rtsz a1 <? rsize a1 * 2) && negb m1); [apply grows_refl|]. destruct m2; cbn [negb]; [left; cbn [rpow]; lia|right; split; [reflexivity|exact (fun H => H)]].
  - unfold delete in H. destruct (before k _) as [(p, q)|]; [|discriminate]. injection H as <- _. right. split; [reflexivity|exact (fun H => H)].
  - unfold replace in H. destruct (before k _) as [(p, q)|]; [|discriminate]. injection H as <- _. right. split; [reflexivity|exact (fun H => H)].
  - injection H as <- _. apply grows_refl.
  - injection H as <- _. right. split; [reflexivity|exact (fun H => H)].
  - unfold scan_next in H. destruct (nth_error (scans a) s) as [sc|]; [|discriminate]. destruct (negb (s_on sc) || (asz =? 0)); [discriminate|].
    destruct (scan_buckets _ _ _ _ _ _ _ _ _ _) as [[[a1 sc1] out1]|] eqn:T; [|discriminate]. injection H as <- _. apply scan_buckets_grow in T as [T1 T2].
    right. cbn [set_scans rpow expg]. split; [exact T1|]. rewrite T2. exact (fun H => H).
  - unfold scan_final in H. destruct (nth_error (scans a) s) as [sc|]; [|discriminate]. destruct (negb (s_on sc)); [discriminate|].
    destruct (s_linked sc); [destruct (cut_ph s _) as [(p, q)|]; [|discriminate]|]; destruct ((s_bucket sc <? hsize) && (0 <? s_tabcnt sc)); injection H as <- _;
      (right; split; [reflexivity|exact (fun H => H)]).
  - injection H as <- _. apply grows_refl.
Qed.
Lemma run_grows : forall l a a' xs, run hp hash a l = Some (a', xs) -> grows a a'.
Proof.
  induction l as [|o l IH]; intros a a' xs R; cbn [run] in R; [injection R as <- _; apply grows_refl|].
  destruct (step hp hash a o) as [(a1, x)|] eqn:E; [|discriminate]. destruct (run hp hash a1 l) as [(a2, ys)|] eqn:R1; [|discriminate].
  injection R as <- _. apply (grows_trans a a1); [apply (step_grows a o a1 x E)|apply (IH a1 a2 ys R1)].
Qed.

(* a position is the same after the table has grown *)
Definition even_at (a : assoc) (t b : N) : Prop := expg a = true -> N.even (pos a t b) = true.
Lemma grow_scale a a' : rpow a <= rpow a' -> exists d, pw a' = (pw a + d)%nat /\ rsize a' = rsize a * 2 ^ N.of_nat d.
Proof.
  intro H. exists (N.to_nat (rpow a' - rpow a)). split; [unfold pw; lia|]. unfold rsize. rewrite <- N.pow_add_r. f_equal. lia.
Qed.
Lemma grow_pos a a' t b : geo hp a' -> grows a a' -> t < rsize a -> even_at a t b -> even_at a' t b.
Proof.
  intros G GR T E EX. destruct (g_exp hp a' G EX) as (P0 & _). destruct GR as [GR|[GR GE]].
  - rewrite pos_even by exact P0. rewrite <- (negb_involutive (N.even _)). rewrite <- (upper_odd a' t P0).
    + apply negb_true_iff. apply N.leb_gt. unfold rsize in T. eapply N.lt_le_trans; [exact T|]. apply N.pow_le_mono_r; [discriminate|lia].
    + unfold rsize in *. eapply N.lt_le_trans; [exact T|]. apply N.pow_le_mono_r; [discriminate|lia].
  - unfold even_at in E. specialize (E (GE EX)). unfold pos, pw, rsize in *. rewrite GR. exact E.
Qed.
Lemma grow_kpos a a' t b k : grows a a' -> t < rsize a -> (kpos a' k <? pos a' t b) = (kpos a k <? pos a t b).
Proof.
  intros GR T. assert (LE : rpow a <= rpow a') by (destruct GR as [GR|[GR _]]; lia). destruct (grow_scale a a' LE) as (d & D1 & D2).
  unfold AssocDirect.kpos, pos. rewrite D2, D1. rewrite (rsize_pw a) in *. rewrite (revn_scale (pw a) d t) by exact T.
  replace (2 ^ N.of_nat (pw a) * 2 ^ N.of_nat d) with (2 ^ N.of_nat (pw a + d)) by (rewrite Nat2N.inj_add, N.pow_add_r; reflexivity).
  destruct (revn_scale_mod (pw a) d (X k)) as (e & -> & LE2). rewrite Nat2N.inj_add, N.pow_add_r.
  set (Z := 2 ^ N.of_nat d) in *. set (Y := 2 ^ N.of_nat (pw a)) in *. set (r1 := revn (pw a) (X k mod Y)). set (r2 := revn (pw a) t). set (bk := bkt k).
  replace (bk * (Y * Z) + (r1 * Z + e)) with ((bk * Y + r1) * Z + e) by lia. replace (b * (Y * Z) + r2 * Z) with ((b * Y + r2) * Z) by lia.
  set (u := bk * Y + r1). set (v := b * Y + r2). clearbody u v.
  destruct (u <? v) eqn:C.
  - apply N.ltb_lt. assert ((u + 1) * Z <= v * Z) by (apply N.mul_le_mono_r; lia). lia.
  - apply N.ltb_ge. assert (v * Z <= u * Z) by (apply N.mul_le_mono_r; lia). lia.
Qed.

(* ---------- one call ---------- *)
Lemma call_ok a m cur req asz t b : hp <= 17 -> base a m -> fits a m req asz -> 0 < asz -> req <= asz -> decode hp cur = Some (t, b) -> t < rsize a ->
  exists n cur', scan_direct hp a cur req asz = Some (Scanned cur' (seg a n (pos a t b))) /\
    pos a t b + N.of_nat n <= last_pos a /\ (0 < req -> 0 < N.of_nat n) /\
    ((cur' = encode hp 0 0 /\ pos a t b + N.of_nat n = last_pos a) \/
     (exists t' b', cur' = encode hp t' b' /\ t' < rsize a /\ b' < hsize /\ pos a t' b' = pos a t b + N.of_nat n /\ even_at a t' b' /\ pos a t b + N.of_nat n < last_pos a)).
Proof.
  intros Hh B FT A1 A2 D T. assert (G := b_geo hp hash a m B). pose proof (rsize_pos a) as RP. unfold scan_direct.
  replace ((asz =? 0) || (asz <? req)) with false by lia. rewrite D. replace (rsize a <=? t) with false by lia.
  assert (BL : b < hsize).
  { unfold decode in D. destruct (safe_strtoul cur) as [n0|]; [|discriminate]. injection D as _ <-. unfold hmask, AssocModel.hsize. rewrite land_mask. apply N.mod_upper_bound. pose proof (pow_pos hp). lia. }
  pose proof (pos_lt hp a t b BL) as PL.
  destruct (loop_ok hp hash a m req asz B FT (N.to_nat (req * 4 + 2)) (pos a t b) 0 [] PL) as (n & R & L1 & L2 & L3).
  { left. lia. } { lia. }
  { intros _ _. destruct (chain_le hp hash a m (pos a t b) B) as (h & LE). specialize (FT h). cbn [length N.of_nat]. lia. }
  rewrite pos_t, pos_div in R by exact T. rewrite R. cbn [app]. set (p' := pos a t b + N.of_nat n) in *.
  exists n. eexists. split; [reflexivity|]. split; [exact L1|]. split; [intro H; specialize (L3 H eq_refl eq_refl); lia|].
  destruct (N.eq_dec p' (last_pos a)) as [E|NE].
  - left. split; [|exact E]. rewrite E. unfold AssocDirect.last_pos. rewrite N.div_mul by lia. rewrite N.leb_refl. reflexivity.
  - right. assert (LT : p' < last_pos a) by lia. assert (BL' : p' / rsize a < hsize) by (apply N.div_lt_upper_bound; [lia|]; unfold AssocDirect.last_pos in LT; lia).
    exists (revn (pw a) (p' mod rsize a)), (p' / rsize a). replace (hsize <=? p' / rsize a) with false by lia. split; [reflexivity|].
    split; [rewrite rsize_pw; apply revn_lt|]. split; [exact BL'|]. split; [apply pos_back|]. split; [|exact LT].
    intro E. rewrite pos_back. destruct L2 as [L2|L2]; [contradiction|auto].
Qed.

(* the keys of a call are those between its positions *)
Lemma call_times a m n p k : base a m -> stored m k = true -> (expg a = true -> N.even p = true) -> (p + N.of_nat n = last_pos a \/ (expg a = true -> N.even (p + N.of_nat n) = true)) ->
  times k (seg a n p) = if (p <=? kpos a k) && (kpos a k <? p + N.of_nat n) then 1%nat else 0%nat.
Proof.
  intros B ST E1 E2. rewrite times_nodup by (apply (seg_nodup hp hash a m n B)). assert (G := b_geo hp hash a m B).
  assert (IFF : existsb (beqb k) (map fst (seg a n p)) = (p <=? kpos a k) && (kpos a k <? p + N.of_nat n)); [|rewrite IFF; reflexivity].
  apply eq_true_iff_eq. rewrite existsb_in, andb_true_iff, N.leb_le, N.ltb_lt, in_map_iff.
  assert (KL : kpos a k < last_pos a) by (apply pos_lt; apply bkt_lt).
  assert (R : (p <= cpos a k < p + N.of_nat n) <-> (p <= kpos a k < p + N.of_nat n)).
  { destruct (cpos_kpos hp hash a k G) as [Z|(EX & EV & Z)]; [rewrite Z; reflexivity|]. rewrite Z. rewrite Z in KL. specialize (E1 EX). split; intro H.
    + split; [lia|]. destruct E2 as [E2|E2]; [lia|]. specialize (E2 EX).
      assert (cpos a k + 1 <> p + N.of_nat n); [|lia]. intro Q. rewrite <- Q, N.add_1_r, N.even_succ, <- N.negb_even, EV in E2. discriminate.
    + split; [|lia]. assert (p <> cpos a k + 1); [|lia]. intro Q. rewrite Q, N.add_1_r, N.even_succ, <- N.negb_even, EV in E1. discriminate. }
  rewrite <- R. apply stored_in, in_map_iff in ST as ((k0, v0) & E & ST). cbn in E. subst k0. split.
  - intros ((k1, v1) & E & H). cbn in E. subst k1. apply (seg_in hp hash a m n B) in H. tauto.
  - intro H. exists (k, v0). split; [reflexivity|]. apply (seg_in hp hash a m n B). auto.
Qed.

Lemma encode_zero : encode hp 0 0 = [48].
Proof. unfold encode. rewrite N.shiftl_0_l, N.mod_0_l by discriminate. reflexivity. Qed.
Lemma decode_zero : decode hp [48] = Some (0, 0).
Proof.
  unfold decode. change [48] with (dec_text 0). rewrite strtoul_dec_text by reflexivity. rewrite N.shiftr_0_l. reflexivity.
Qed.

Definition all_ops (l : list (list op * (N * N))) : list op := flat_map fst l.

Lemma stored_run k : forall l w, legal_run w l -> forallb (keeps_key k) l = true -> stored (kv w) k = true -> stored (kv (final w l)) k = true.
Proof.
  induction l as [|o l IH]; intros w L K H; [exact H|]. destruct L as [L1 L2]. cbn [forallb] in K. apply andb_true_iff in K as [K1 K2].
  unfold final. cbn [fold_left]. apply (IH (effect w o) L2 K2). apply stored_effect; assumption.
Qed.

Lemma session_ok : hp <= 17 -> forall l a w cur t b, inv a w -> legal_run w (all_ops l) -> roomy a w l ->
  decode hp cur = Some (t, b) -> t < rsize a -> even_at a t b ->
  forall ds e, session a cur l = Some (ds, e) ->
  forall k, stored (kv w) k = true -> forallb (keeps_key k) (all_ops l) = true ->
   Nat.le (times k ds) (if kpos a k <? pos a t b then 0%nat else 1%nat) /\
   (e = true -> times k ds = if kpos a k <? pos a t b then 0%nat else 1%nat).
Proof.
  intros Hh. induction l as [|(ops, (req, asz)) l IH]; intros a w cur t b IV LG RM D T EV ds e H k ST KK.
  - cbn in H. injection H as <- <-. cbn. split; [lia|discriminate].
  - cbn [session] in H. unfold all_ops in LG, KK. cbn [flat_map fst] in LG, KK. fold (all_ops l) in LG, KK. apply legal_split in LG as [LG1 LG2].
    rewrite forallb_app in KK. apply andb_true_iff in KK as [KK1 KK2].
    destruct (run_ok hp hash ops a w IV LG1) as (a1 & xs & R & I1 & _). rewrite R in H. cbn [roomy] in RM. destruct RM as [RQ RM]. destruct (RM a1 xs R) as [FT RM1].
    pose proof (run_grows ops a a1 xs R) as GR. set (w1 := final w ops) in *. assert (B1 := i_base hp hash a1 w1 I1). assert (G1 := b_geo hp hash a1 _ B1).
    assert (T1 : t < rsize a1). { unfold rsize in *. eapply N.lt_le_trans; [exact T|]. apply N.pow_le_mono_r; [discriminate|]. destruct GR as [GR|[GR _]]; lia. }
    pose proof (grow_pos a a1 t b G1 GR T EV) as EV1.
    assert (ST1 : stored (kv w1) k = true).
    { apply stored_run; assumption. }
    destruct (call_ok a1 (kv w1) cur req asz t b Hh B1 FT ltac:(lia) ltac:(lia) D T1) as (n & cur' & RS & L1 & L2 & CASE). rewrite RS in H.
    rewrite <- (grow_kpos a a1 t b k GR T). set (p := pos a1 t b) in *.
    assert (KL : kpos a1 k < last_pos a1) by (apply pos_lt; apply bkt_lt).
    destruct CASE as [[-> E]|(t' & b' & -> & T' & B' & P' & EV' & LT)].
    + rewrite encode_zero in H. change (beqb [48] [48]) with true in H. destruct l; [|discriminate]. injection H as <- <-.
      assert (C : times k (seg a1 n p) = if kpos a1 k <? p then 0%nat else 1%nat).
      { rewrite (call_times a1 (kv w1) n p k B1 ST1 EV1 (or_introl E)). destruct (kpos a1 k <? p) eqn:C.
        - replace (p <=? kpos a1 k) with false by lia. reflexivity.
        - replace (p <=? kpos a1 k) with true by lia. replace (kpos a1 k <? p + N.of_nat n) with true by lia. reflexivity. }
      rewrite C. split; [lia|reflexivity].
    + assert (NZ : beqb (encode hp t' b') [48] = false).
      { apply not_true_is_false. intro Q. apply beqb_eq in Q. assert (Z := decode_encode hp t' b' Hh).
        rewrite Q, decode_zero in Z. assert (T15 : t' < 2 ^ 15). { unfold rsize in T'. eapply N.lt_le_trans; [exact T'|]. apply N.pow_le_mono_r; [discriminate|]. apply (g_pow hp a1 G1). }
        specialize (Z T15 B'). injection Z as <- <-. unfold pos in P'. rewrite revn_0 in P'. lia. }
      rewrite NZ in H. destruct (session a1 (encode hp t' b') l) as [(ds2, e2)|] eqn:S2; [|discriminate]. injection H as <- <-.
      assert (D' : decode hp (encode hp t' b') = Some (t', b')).
      { apply decode_encode; [exact Hh| |exact B']. unfold rsize in T'. eapply N.lt_le_trans; [exact T'|]. apply N.pow_le_mono_r; [discriminate|]. apply (g_pow hp a1 G1). }
      destruct (IH a1 w1 (encode hp t' b') t' b' I1 LG2 RM1 D' T' EV' ds2 e2 S2 k ST1 KK2) as [C1 C2]. rewrite P' in C1, C2. rewrite times_app.
      assert (C : times k (seg a1 n p) = if (p <=? kpos a1 k) && (kpos a1 k <? p + N.of_nat n) then 1%nat else 0%nat).
      { apply (call_times a1 (kv w1) n p k B1 ST1 EV1). right. intro E. rewrite <- P'. apply EV'. exact E. }
      rewrite C. destruct (kpos a1 k <? p) eqn:C3.
      * replace (p <=? kpos a1 k) with false by lia. cbn [andb]. replace (kpos a1 k <? p + N.of_nat n) with true in C1, C2 by lia. split; [lia|]. intro Q. rewrite (C2 Q). reflexivity.
      * replace (p <=? kpos a1 k) with true by lia. cbn [andb]. destruct (kpos a1 k <? p + N.of_nat n) eqn:C4; cbn [Nat.add] in *; (split; [lia|]; intro Q; rewrite (C2 Q); reflexivity).
Qed.

(* a session ends, fails or is cut short only for the reasons the client sees *)
Lemma session_runs : hp <= 17 -> forall l a w cur t b, inv a w -> legal_run w (all_ops l) -> roomy a w l ->
  decode hp cur = Some (t, b) -> t < rsize a -> exists n ds e, session a cur (firstn n l) = Some (ds, e) /\ (e = true \/ (n >= length l)%nat).
Proof.
  intros Hh. induction l as [|(ops, (req, asz)) l IH]; intros a w cur t b IV LG RM D T.
  - exists O, [], false. split; [reflexivity|right; cbn; lia].
  - unfold all_ops in LG. cbn [flat_map fst] in LG. fold (all_ops l) in LG. apply legal_split in LG as [LG1 LG2].
    destruct (run_ok hp hash ops a w IV LG1) as (a1 & xs & R & I1 & _). cbn [roomy] in RM. destruct RM as [RQ RM]. destruct (RM a1 xs R) as [FT RM1].
    pose proof (run_grows ops a a1 xs R) as GR. set (w1 := final w ops) in *. assert (B1 := i_base hp hash a1 w1 I1). assert (G1 := b_geo hp hash a1 _ B1).
    assert (T1 : t < rsize a1). { unfold rsize in *. eapply N.lt_le_trans; [exact T|]. apply N.pow_le_mono_r; [discriminate|]. destruct GR as [GR|[GR _]]; lia. }
    destruct (call_ok a1 (kv w1) cur req asz t b Hh B1 FT ltac:(lia) ltac:(lia) D T1) as (n & cur' & RS & L1 & L2 & CASE).
    destruct CASE as [[-> E]|(t' & b' & -> & T' & B' & P' & EV' & LT)].
    + exists 1%nat. cbn [firstn session]. rewrite R, RS, encode_zero. change (beqb [48] [48]) with true. eexists _, true. split; [reflexivity|left; reflexivity].
    + assert (D' : decode hp (encode hp t' b') = Some (t', b')).
      { apply decode_encode; [exact Hh| |exact B']. unfold rsize in T'. eapply N.lt_le_trans; [exact T'|]. apply N.pow_le_mono_r; [discriminate|]. apply (g_pow hp a1 G1). }
      destruct (IH a1 w1 (encode hp t' b') t' b' I1 LG2 RM1 D' T') as (n2 & ds & e & S2 & F).
      assert (NZ : beqb (encode hp t' b') [48] = true -> l = [] \/ True) by tauto. clear NZ.
      destruct (beqb (encode hp t' b') [48]) eqn:Z.
      * exists 1%nat. cbn [firstn session]. rewrite R, RS, Z. eexists _, true. split; [reflexivity|left; reflexivity].
      * exists (S n2). cbn [firstn session]. rewrite R, RS, Z, S2. eexists _, e. split; [reflexivity|]. destruct F as [F|F]; [left; exact F|right; cbn; lia].
Qed.
End Cmd.
