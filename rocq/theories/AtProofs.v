From Coq Require Import String Ascii.
From Verif Require Import Base UtilModel UtilSpec UtilProofs ArgTypes ArgModel ArgSpec ArgProofs AtModel AtSpec.
From Verif Require BtModel BtSpec BtKeys.
From Coq Require Import List ZArith NArith Lia Bool.
Local Open Scope nat_scope.
Local Open Scope list_scope.

(* ---------- the words of a setattr line ---------- *)
Lemma cut_equal_app a b : ~ In 61%N a -> cut_equal (a ++ 61%N :: b) = Some (a, b).
Proof.
  induction a as [|x a IH]; cbn; intro H; [reflexivity|].
  destruct (N.eqb_spec x 61) as [->|E]; [exfalso; auto|]. rewrite IH; auto.
Qed.
Lemma cut_equal_inv s : forall a b, cut_equal s = Some (a, b) -> s = a ++ 61%N :: b.
Proof.
  induction s as [|x s IH]; cbn; intros a b H; [discriminate|].
  destruct (N.eqb_spec x 61) as [->|E]; [injection H as <- <-; reflexivity|].
  destruct (cut_equal s) as [[a' b']|] eqn:C; [|discriminate]. injection H as <- <-. cbn. f_equal. now apply IH.
Qed.

Lemma ovfl_num_ok s n : ovfl_num s = Some n <-> exists o, s = ovfl_word o /\ n = ovfl_code o.
Proof.
  split.
  - unfold ovfl_num. intro H.
    repeat match goal with
    | H : (if beqb ?x ?y then _ else _) = Some _ |- _ => destruct (beqb_spec x y) as [->|]; [injection H as <-|]
    end; try discriminate.
    + now exists OError. + now exists OHeadTrim. + now exists OTailTrim. + now exists OSmallest.
    + now exists OLargest. + now exists OSmallestSilent. + now exists OLargestSilent.
  - intros (o & -> & ->). destruct o; reflexivity.
Qed.
Lemma range_value_ok s r : range_value s = Some r <-> range_arg s r.
Proof.
  unfold range_value. split.
  - destruct (get_bkey_from_str s) as [[n|b]|] eqn:E; intro H; [| |discriminate]; apply bkey_ok in E; injection H as <-.
    + destruct (N.eqb_spec n 0) as [->|]; [now apply ra_zero|now apply ra_int].
    + now apply ra_hex.
  - intros [t n H N0|t H|t b H]; apply bkey_ok in H; rewrite H; try reflexivity.
    destruct (N.eqb_spec n 0); [congruence|reflexivity].
Qed.

Definition idc (ch : change) : aid :=
  match ch with CExpire _ => AExpire | CMax _ => AMaxcount | COvfl _ => AOvfl | CReadable => AReadable | CRange _ => ARange end.
Definition upd (c : clock) (d : adata) (ch : change) : adata :=
  match ch with
  | CExpire e => w_exp d (realtime c e) | CMax n => w_max d n | COvfl o => w_ovfl d (ovfl_code o)
  | CReadable => w_read d 1 | CRange r => w_range d r
  end.

Lemma set_loop_ok c args cs : Forall2 asks args cs -> forall d,
  set_loop c d args = inl (fold_left (upd c) cs d, map idc cs).
Proof.
  induction 1 as [|s ch args cs A F IH]; intro d; [reflexivity|].
  cbn [set_loop fold_left map].
  assert (X : forall w v, ~ In 61%N w -> cut_equal ((w ++ [61%N]) ++ v) = Some (w, v)).
  { intros w v I. rewrite <- app_assoc. now apply cut_equal_app. }
  destruct A as [v e H|v n H|o| |v r H].
  - change (txt "expiretime=") with (txt "expiretime" ++ [61%N]).
    rewrite X by (cbn; intuition discriminate). cbv beta iota zeta.
    rewrite beqb_refl. rewrite (proj2 (i64_ok v e) H). rewrite IH. reflexivity.
  - change (txt "maxcount=") with (txt "maxcount" ++ [61%N]).
    rewrite X by (cbn; intuition discriminate). cbv beta iota zeta.
    change (beqb (txt "maxcount") (txt "expiretime")) with false. cbv iota.
    rewrite beqb_refl. rewrite (proj2 (i32_ok v n) H). rewrite IH. reflexivity.
  - change (txt "overflowaction=") with (txt "overflowaction" ++ [61%N]).
    rewrite X by (cbn; intuition discriminate). cbv beta iota zeta.
    change (beqb (txt "overflowaction") (txt "expiretime")) with false. change (beqb (txt "overflowaction") (txt "maxcount")) with false.
    cbv iota. rewrite beqb_refl. rewrite (proj2 (ovfl_num_ok _ (ovfl_code o))) by (exists o; auto). rewrite IH. reflexivity.
  - change (cut_equal (txt "readable=on")) with (Some (txt "readable", txt "on")). cbv beta iota zeta.
    change (beqb (txt "readable") (txt "expiretime")) with false. change (beqb (txt "readable") (txt "maxcount")) with false.
    change (beqb (txt "readable") (txt "overflowaction")) with false. cbv iota.
    rewrite !beqb_refl. rewrite IH. reflexivity.
  - change (txt "maxbkeyrange=") with (txt "maxbkeyrange" ++ [61%N]).
    rewrite X by (cbn; intuition discriminate). cbv beta iota zeta.
    change (beqb (txt "maxbkeyrange") (txt "expiretime")) with false. change (beqb (txt "maxbkeyrange") (txt "maxcount")) with false.
    change (beqb (txt "maxbkeyrange") (txt "overflowaction")) with false. change (beqb (txt "maxbkeyrange") (txt "readable")) with false.
    cbv iota. rewrite beqb_refl. rewrite (proj2 (range_value_ok v r) H). rewrite IH. reflexivity.
Qed.

Lemma set_loop_inv c args : forall d p, set_loop c d args = inl p -> exists cs, Forall2 asks args cs.
Proof.
  induction args as [|s args IH]; intros d p H; [exists []; constructor|].
  cbn [set_loop] in H. destruct (cut_equal s) as [[name value]|] eqn:C; [|discriminate].
  apply cut_equal_inv in C. cbv beta zeta in H.
  assert (K : forall a d', match set_loop c d' args with inl (d, ids) => inl (d, a :: ids) | inr e => inr e end = inl p :> (adata * list aid) + serr ->
    exists cs, Forall2 asks args cs).
  { intros a d' E. destruct (set_loop c d' args) as [q|] eqn:S; [|discriminate]. now apply IH in S. }
  destruct (beqb_spec name (txt "expiretime")) as [->|].
  { destruct (safe_strtoll value) eqn:V; [|discriminate]. apply i64_ok in V. destruct (K _ _ H) as [cs F].
    exists (CExpire z :: cs). constructor; [|exact F]. subst s. exact (k_exp value z V). }
  destruct (beqb_spec name (txt "maxcount")) as [->|].
  { destruct (safe_strtol value) eqn:V; [|discriminate]. apply i32_ok in V. destruct (K _ _ H) as [cs F].
    exists (CMax z :: cs). constructor; [|exact F]. subst s. exact (k_max value z V). }
  destruct (beqb_spec name (txt "overflowaction")) as [->|].
  { destruct (ovfl_num value) eqn:V; [|discriminate]. apply ovfl_num_ok in V. destruct V as (o & -> & ->). destruct (K _ _ H) as [cs F].
    exists (COvfl o :: cs). constructor; [|exact F]. subst s. exact (k_ovfl o). }
  destruct (beqb_spec name (txt "readable")) as [->|].
  { destruct (beqb_spec value (txt "on")) as [->|]; [|discriminate]. destruct (K _ _ H) as [cs F].
    exists (CReadable :: cs). constructor; [|exact F]. subst s. exact k_read. }
  destruct (beqb_spec name (txt "maxbkeyrange")) as [->|]; [|discriminate].
  destruct (range_value value) eqn:V; [|discriminate]. apply range_value_ok in V. destruct (K _ _ H) as [cs F].
  exists (CRange b :: cs). constructor; [|exact F]. subst s. exact (k_range value b V).
Qed.

(* ---------- the structure holds the last value of each word ---------- *)
Lemma fold_exp c cs : forall d, d_exp (fold_left (upd c) cs d) = match new_exp cs with Some e => realtime c e | None => d_exp d end.
Proof.
  unfold new_exp. induction cs as [|ch cs IH]; intro d; [reflexivity|]. cbn [fold_left final]. rewrite IH.
  destruct (final _ cs); [reflexivity|]. destruct ch; reflexivity.
Qed.
Lemma fold_max c cs : forall d, d_max (fold_left (upd c) cs d) = match new_max cs with Some n => n | None => d_max d end.
Proof.
  unfold new_max. induction cs as [|ch cs IH]; intro d; [reflexivity|]. cbn [fold_left final]. rewrite IH.
  destruct (final _ cs); [reflexivity|]. destruct ch; reflexivity.
Qed.
Lemma fold_ovfl c cs : forall d, d_ovfl (fold_left (upd c) cs d) = match new_ovfl cs with Some o => ovfl_code o | None => d_ovfl d end.
Proof.
  unfold new_ovfl. induction cs as [|ch cs IH]; intro d; [reflexivity|]. cbn [fold_left final]. rewrite IH.
  destruct (final _ cs); [reflexivity|]. destruct ch; reflexivity.
Qed.
Lemma fold_range c cs : forall d, d_range (fold_left (upd c) cs d) = match new_range cs with Some r => r | None => d_range d end.
Proof.
  unfold new_range. induction cs as [|ch cs IH]; intro d; [reflexivity|]. cbn [fold_left final]. rewrite IH.
  destruct (final _ cs); [reflexivity|]. destruct ch; reflexivity.
Qed.
Lemma fold_read c cs : forall d, d_read (fold_left (upd c) cs d) = if made_readable cs then 1%N else d_read d.
Proof.
  unfold made_readable. induction cs as [|ch cs IH]; intro d; [reflexivity|]. cbn [fold_left existsb]. rewrite IH.
  destruct (existsb _ cs); [now rewrite orb_true_r|]. destruct ch; reflexivity.
Qed.

Definition isS {A} (o : option A) : bool := match o with Some _ => true | None => false end.
Definition named (a : aid) (ids : list aid) : bool := existsb (aid_beq a) ids.
Lemma named_exp cs : named AExpire (map idc cs) = isS (new_exp cs).
Proof.
  unfold named, new_exp. induction cs as [|ch cs IH]; [reflexivity|]. cbn [map existsb final]. rewrite IH.
  destruct (final _ cs); cbn [isS]; [now rewrite orb_true_r|]. destruct ch; reflexivity.
Qed.
Lemma named_max cs : named AMaxcount (map idc cs) = isS (new_max cs).
Proof.
  unfold named, new_max. induction cs as [|ch cs IH]; [reflexivity|]. cbn [map existsb final]. rewrite IH.
  destruct (final _ cs); cbn [isS]; [now rewrite orb_true_r|]. destruct ch; reflexivity.
Qed.
Lemma named_ovfl cs : named AOvfl (map idc cs) = isS (new_ovfl cs).
Proof.
  unfold named, new_ovfl. induction cs as [|ch cs IH]; [reflexivity|]. cbn [map existsb final]. rewrite IH.
  destruct (final _ cs); cbn [isS]; [now rewrite orb_true_r|]. destruct ch; reflexivity.
Qed.
Lemma named_range cs : named ARange (map idc cs) = isS (new_range cs).
Proof.
  unfold named, new_range. induction cs as [|ch cs IH]; [reflexivity|]. cbn [map existsb final]. rewrite IH.
  destruct (final _ cs); cbn [isS]; [now rewrite orb_true_r|]. destruct ch; reflexivity.
Qed.
Lemma named_read cs : named AReadable (map idc cs) = made_readable cs.
Proof.
  unfold named, made_readable. induction cs as [|ch cs IH]; [reflexivity|]. cbn [map existsb]. rewrite IH. destruct ch; reflexivity.
Qed.

(* ---------- the loop of the checks ---------- *)
Lemma real_again z t n : (4000 <= z t)%Z -> real_maxcount z t (real_maxcount z t n) = real_maxcount z t n.
Proof.
  intro Z4. unfold real_maxcount.
  destruct (Z.ltb_spec n 0); [reflexivity|]. destruct (Z.eqb_spec n 0).
  - change (4000 <? 0)%Z with false. change (4000 =? 0)%Z with false. cbv iota. destruct (Z.ltb_spec (z t) 4000); lia.
  - destruct (Z.ltb_spec (z t) n).
    + destruct (Z.ltb_spec (z t) 0); [lia|]. destruct (Z.eqb_spec (z t) 0); [lia|]. destruct (Z.ltb_spec (z t) (z t)); lia.
    + destruct (Z.ltb_spec n 0); [lia|]. destruct (Z.eqb_spec n 0); [lia|]. destruct (Z.ltb_spec (z t) n); [lia|reflexivity].
Qed.
Definition is_btree (t : ityp) : bool := match t with BTREE => true | _ => false end.
Definition passes (z : sizes) (t : ityp) (m : meta) (ids : list aid) (d : adata) : bool :=
  (negb (named AMaxcount ids) || negb (Z.ltb 0 (real_maxcount z t (d_max d)) && Z.ltb (real_maxcount z t (d_max d)) (m_ccnt m))) &&
  (negb (named AOvfl ids) || ovfl_allowed t (d_ovfl d)) &&
  (negb (named AReadable ids) || N.eqb (d_read d) 1) &&
  (negb (named ARange ids && is_btree t) || range_allowed m (d_range d)).
Lemma coll_check_ok z t m ids : (4000 <= z t)%Z -> forall d,
  snd (coll_check z t m ids d) = passes z t m ids d /\
  (snd (coll_check z t m ids d) = true ->
   fst (coll_check z t m ids d) = (if named AMaxcount ids then w_max d (real_maxcount z t (d_max d)) else d)).
Proof.
  intros Z4. induction ids as [|a ids IH]; intro d; [split; reflexivity|].
  assert (Pass : passes z t m ids (w_max d (real_maxcount z t (d_max d))) = passes z t m ids d).
  { unfold passes, w_max. cbn [d_max d_ovfl d_read d_range]. now rewrite real_again. }
  destruct a; cbn [coll_check]; try exact (IH d).
  - (* maxcount *)
    fold (w_max d (real_maxcount z t (d_max d))).
    specialize (IH (w_max d (real_maxcount z t (d_max d)))). destruct IH as [I1 I2].
    destruct (Z.ltb 0 (real_maxcount z t (d_max d)) && Z.ltb (real_maxcount z t (d_max d)) (m_ccnt m)) eqn:C.
    + split; [|discriminate]. unfold passes, named. cbn [existsb aid_beq]. rewrite C. reflexivity.
    + rewrite Pass in I1. split.
      * rewrite I1. unfold passes, named. cbn [existsb aid_beq orb negb]. rewrite C. cbn. 
        destruct (existsb _ ids); reflexivity.
      * intro T. rewrite (I2 T). unfold named. cbn [existsb aid_beq orb]. destruct (existsb _ ids); [|reflexivity].
        unfold w_max. cbn. now rewrite real_again.
  - (* overflow action *)
    destruct (IH d) as [I1 I2]. destruct (ovfl_allowed t (d_ovfl d)) eqn:C.
    + split; [|intro T; rewrite (I2 T); reflexivity]. rewrite I1. unfold passes, named. cbn [existsb aid_beq orb negb]. rewrite C.
      rewrite !orb_true_r. reflexivity.
    + split; [|discriminate]. cbn [snd]. unfold passes, named. cbn [existsb aid_beq orb negb]. rewrite C.
      rewrite andb_false_r. reflexivity.
  - (* readable *)
    destruct (IH d) as [I1 I2]. destruct (N.eqb (d_read d) 1) eqn:C.
    + split; [|intro T; rewrite (I2 T); reflexivity]. rewrite I1. unfold passes, named. cbn [existsb aid_beq orb negb]. rewrite C.
      rewrite !orb_true_r. reflexivity.
    + split; [|discriminate]. cbn [snd]. unfold passes, named. cbn [existsb aid_beq orb negb]. rewrite C.
      rewrite andb_false_r. reflexivity.
  - (* range *)
    destruct (IH d) as [I1 I2].
    assert (G : is_btree t = false -> passes z t m (ARange :: ids) d = passes z t m ids d).
    { intro B. unfold passes, named. cbn [existsb aid_beq orb negb]. rewrite B, !andb_false_r. reflexivity. }
    destruct t; try (rewrite G by reflexivity; split; [exact I1|intro T; rewrite (I2 T); reflexivity]).
    destruct (range_allowed m (d_range d)) eqn:C.
    + split; [|intro T; rewrite (I2 T); reflexivity]. rewrite I1. unfold passes, named. cbn [existsb aid_beq orb negb is_btree]. rewrite C.
      rewrite !orb_true_r. reflexivity.
    + split; [|discriminate]. cbn [snd]. unfold passes, named. cbn [existsb aid_beq orb negb is_btree andb]. rewrite C.
      rewrite andb_false_r. reflexivity.
Qed.

(* ---------- the loop that sets ---------- *)
Definition set_all (t : ityp) (d : adata) (ids : list aid) (m : meta) : meta :=
  mkM (if named AMaxcount ids then d_max d else m_mcnt m) (m_ccnt m)
      (if named AOvfl ids then d_ovfl d else m_ovfl m)
      (m_read m || named AReadable ids)
      (if (named AOvfl ids && is_btree t && negb (N.eqb (m_ovfl m) (d_ovfl d)))%bool then false else m_trim m)
      (if (named ARange ids && is_btree t && Z.eqb (m_ccnt m) 0)%bool then
         match d_range d with
         | None => match m_range m with Some _ => 0%N | None => m_bktype m end
         | Some k => kind_code k
         end
       else m_bktype m)
      (if (named ARange ids && is_btree t)%bool then d_range d else m_range m)
      (m_min m) (m_top m).
Lemma fold_set t d ids : forall m, fold_left (coll_set1 t d) ids m = set_all t d ids m.
Proof.
  induction ids as [|a ids IH]; intro m.
  - destruct m; unfold set_all; cbn. rewrite orb_false_r. reflexivity.
  - cbn [fold_left]. rewrite IH. unfold set_all, named. destruct m as [mc cc ov rd tr bt rg mn mx].
    destruct a; cbn [coll_set1 existsb aid_beq orb]; try reflexivity; cbn [m_mcnt m_ccnt m_ovfl m_read m_trim m_bktype m_range m_min m_top].
    + destruct (existsb _ ids); reflexivity.
    + rewrite N.eqb_refl. destruct t; cbn [is_btree]; rewrite ?andb_false_r; cbn [negb andb];
        destruct (existsb (aid_beq AOvfl) ids); cbn [andb]; try reflexivity; destruct (N.eqb ov (d_ovfl d)); reflexivity.
    + cbn [orb]. rewrite orb_true_r. reflexivity.
    + destruct t; cbn [is_btree]; rewrite ?andb_false_r; cbn [andb]; try reflexivity.
      cbn [m_mcnt m_ccnt m_ovfl m_read m_trim m_bktype m_range m_min m_top].
      destruct (existsb (aid_beq ARange) ids); cbn [andb]; destruct (Z.eqb cc 0); destruct (d_range d) as [[|]|]; cbn [kind_code]; destruct rg; reflexivity.
Qed.
