(* One key: a command and its records *)
From Verif Require Import Base RpModel RpSpec RpBody RpBody2 RpDel.
From Verif Require BtModel BtSpec ListModel ListSpec.
From Coq Require Import Permutation.
Local Open Scope nat_scope.

Definition wf_opt (x : option item) : Prop := match x with Some it => wf_body (i_body it) | None => True end.

(* equal at time T; q: expiry times as well *)
Definition eqv (T : N) (q : bool) (x y : option item) : Prop :=
  match valid T x, valid T y with
  | None, None => True
  | Some a, Some b => i_fl a = i_fl b /\ (q = true -> i_exp a = i_exp b) /\ same_body (i_body a) (i_body b)
  | _, _ => False
  end.

Lemma valid_some T x it : valid T x = Some it -> x = Some it /\ expired T (i_exp it) = false.
Proof. destruct x as [a|]; cbn; [|discriminate]. destruct (expired T (i_exp a)) eqn:E; [discriminate|]. intros [= ->]. auto. Qed.
Lemma valid_of T it : expired T (i_exp it) = false -> valid T (Some it) = Some it.
Proof. intros H. cbn. rewrite H. reflexivity. Qed.
Lemma valid_idem T x : valid T (valid T x) = valid T x.
Proof. destruct (valid T x) as [it|] eqn:E; [|reflexivity]. destruct (valid_some _ _ _ E) as (-> & H). exact E. Qed.
Lemma expired_mono a b e : (a <= b)%N -> expired a e = true -> expired b e = true.
Proof. intros H. destruct e; cbn; auto. rewrite !N.leb_le. lia. Qed.
Lemma valid_later now T x : (now <= T)%N -> valid T (valid now x) = valid T x.
Proof.
  intros H. destruct x as [it|]; [|reflexivity]. cbn. destruct (expired now (i_exp it)) eqn:E; [|reflexivity].
  rewrite (expired_mono _ _ _ H E). reflexivity.
Qed.
Lemma abs_expired now T e : (now <= T)%N -> expired T (abs_exp now e) = expired T e.
Proof.
  intros H. destruct e; cbn; auto. destruct (N.ltb_spec now t); [reflexivity|]. rewrite (proj2 (N.leb_le now T)), (proj2 (N.leb_le t T)) by lia. reflexivity.
Qed.
Lemma abs_same now T e : (now <= T)%N -> expired T e = false -> abs_exp now e = e.
Proof. intros H. destruct e; cbn; auto. rewrite N.leb_gt. intros X. rewrite (proj2 (N.ltb_lt now t)) by lia. reflexivity. Qed.

Lemma eqv_refl T q x : eqv T q x x.
Proof. unfold eqv. destruct (valid T x); auto using same_refl. Qed.
Lemma eqv_sym T q x y : eqv T q x y -> eqv T q y x.
Proof. unfold eqv. destruct (valid T x), (valid T y); auto. intros (A & B & C). split; [auto|]. split; [intros Q; symmetry; auto|apply same_sym; exact C]. Qed.
Lemma eqv_trans T q x y z : eqv T q x y -> eqv T q y z -> eqv T q x z.
Proof.
  unfold eqv. destruct (valid T x), (valid T y), (valid T z); try tauto. intros (A & B & C) (A' & B' & C'). split; [congruence|].
  split; [intros Q; rewrite (B Q); auto|eapply same_trans; eassumption].
Qed.
Lemma eqv_valid_l T q x y : eqv T q (valid T x) y <-> eqv T q x y.
Proof. unfold eqv. rewrite valid_idem. tauto. Qed.
Lemma eqv_none T q x y : valid T x = None -> valid T y = None -> eqv T q x y.
Proof. unfold eqv. intros -> ->. exact Logic.I. Qed.
Lemma eqv_none_r T q x y : eqv T q x y -> valid T x = None -> valid T y = None.
Proof. unfold eqv. intros H E. rewrite E in H. destruct (valid T y); [contradiction|reflexivity]. Qed.
Lemma eqv_intro T q a b : i_fl a = i_fl b -> i_exp a = i_exp b \/ q = false /\ expired T (i_exp a) = false /\ expired T (i_exp b) = false ->
  same_body (i_body a) (i_body b) -> eqv T q (Some a) (Some b).
Proof.
  intros F X S. unfold eqv. cbn [valid]. destruct X as [X|(-> & X & Y)].
  - rewrite X. destruct (expired T (i_exp b)); auto.
  - rewrite X, Y. split; [auto|]. split; [discriminate|exact S].
Qed.
Lemma eqv_settle T q a b oa ob : i_fl a = i_fl b -> i_exp a = i_exp b \/ q = false /\ expired T (i_exp a) = false /\ expired T (i_exp b) = false ->
  sameo oa ob -> eqv T q (settle a oa) (settle b ob).
Proof.
  intros F X S. destruct oa, ob; cbn in S; try contradiction; [|exact Logic.I]. apply eqv_intro; auto.
Qed.

(* records that only change an item that is there *)
Definition soft (r : rec1) : Prop := match r with RIns None _ | RDel _ _ | RAttr _ | RInfo _ _ None => True | _ => False end.
Definition norng (r : rec1) : Prop := match r with RInfo _ _ (Some _) => False | _ => True end.
Lemma soft_norng r : soft r -> norng r.
Proof. destruct r; cbn; auto. Qed.

Lemma redo1_eqv T q y1 y2 r : norng r -> (q = false -> soft r) -> eqv T q y1 y2 -> eqv T q (redo1 T y1 r) (redo1 T y2 r).
Proof.
  intros NR SO H. unfold eqv in H.
  destruct (valid T y1) as [a|] eqn:V1; destruct (valid T y2) as [b|] eqn:V2; try contradiction.
  2:{ unfold redo1. rewrite V1, V2. apply eqv_refl. }
  destruct H as (HF & HE & HB). destruct (valid_some _ _ _ V1) as (-> & X1). destruct (valid_some _ _ _ V2) as (-> & X2).
  assert (HX : i_exp a = i_exp b \/ q = false /\ expired T (i_exp a) = false /\ expired T (i_exp b) = false) by (destruct q; [left; auto|right; auto]).
  assert (SAME : eqv T q (Some a) (Some b)) by (apply eqv_intro; auto).
  unfold redo1. rewrite V1, V2. destruct r as [fl e bo| |e|e nb rng|cr x|x drop|fl e bo xs].
  - destruct (expired T e); [exact SAME|apply eqv_refl].
  - apply eqv_refl.
  - apply eqv_intro; cbn; auto.
  - cbn in NR. destruct rng; [contradiction|]. pose proof (redo_info_same (i_body a) (i_body b) nb HB) as S.
    destruct (redo_info (i_body a) nb None), (redo_info (i_body b) nb None); cbn in S; try contradiction; [|apply eqv_refl]. apply eqv_intro; cbn; auto.
  - destruct cr as [[[fl e] bo]|]; [exact SAME|]. apply eqv_settle; auto. apply redo_ins_same. exact HB.
  - apply eqv_settle; auto. apply redo_del_same. exact HB.
  - destruct (expired T e); [exact SAME|apply eqv_refl].
Qed.
Lemma fold_eqv T q rs : forall y1 y2, Forall norng rs -> (q = false -> Forall soft rs) -> eqv T q y1 y2 -> eqv T q (fold_left (redo1 T) rs y1) (fold_left (redo1 T) rs y2).
Proof.
  induction rs as [|r rs IH]; intros y1 y2 N SO H; [exact H|]. cbn [fold_left]. inversion N; subst. apply IH; auto.
  - intros Q. specialize (SO Q). inversion SO; auto.
  - apply redo1_eqv; auto. intros Q. specialize (SO Q). inversion SO; auto.
Qed.

Lemma soft_none T rs : forall y, Forall (fun r => soft r \/ r = RUnlink) rs -> valid T y = None -> valid T (fold_left (redo1 T) rs y) = None.
Proof.
  induction rs as [|r rs IH]; intros y F V; [exact V|]. cbn [fold_left]. inversion F as [|? ? F1 F2]; subst. apply IH; [exact F2|].
  unfold redo1. rewrite V. destruct F1 as [F1| ->]; [|reflexivity]. destruct r; cbn in F1; try contradiction; try reflexivity. destruct cr; [contradiction|reflexivity].
Qed.

(* ---------- element records ---------- *)

Definition elemrec (r : rec1) : Prop := match r with RIns None _ | RDel _ _ => True | _ => False end.
Lemma elem_soft r : elemrec r -> soft r.
Proof. destruct r; cbn; tauto. Qed.
Definition bredo (b : option body) (r : rec1) : option body :=
  match b with
  | None => None
  | Some b => match r with RIns None x => redo_ins b x | RDel d drop => redo_del b d drop | _ => Some b end
  end.
Lemma fold_bredo T it rs : expired T (i_exp it) = false -> forall ob, Forall elemrec rs -> fold_left (redo1 T) rs (settle it ob) = settle it (fold_left bredo rs ob).
Proof.
  intros X. induction rs as [|r rs IH]; intros ob F; [reflexivity|]. inversion F as [|? ? F1 F2]; subst. cbn [fold_left]. rewrite <- IH by exact F2. f_equal.
  destruct ob as [b|]; cbn [settle]; unfold redo1; cbn [valid].
  - cbn [with_body i_exp]. rewrite X. destruct r; cbn in F1; try contradiction.
    + destruct cr; [contradiction|]. cbn [i_body with_body bredo]. destruct (redo_ins b x); reflexivity.
    + cbn [i_body with_body bredo]. destruct (redo_del b x drop); reflexivity.
  - destruct r; cbn in F1; try contradiction; try reflexivity. destruct cr; [contradiction|reflexivity].
Qed.
Lemma dels_bredo drop ds : forall ob, fold_left bredo (map (fun d => RDel d drop) ds) ob = redo_dels drop ob ds.
Proof. induction ds as [|d ds IH]; intros ob; [reflexivity|]. cbn [map fold_left redo_dels]. apply IH. Qed.

(* ---------- a command on an item ---------- *)

Inductive outcome (now nid : N) (it : item) (c : kcmd) : option item -> list rec1 -> Prop :=
| oc_gone : outcome now nid it c None [RUnlink]
| oc_store fl e v w : c = KStore fl e v -> i_body it = KV w -> outcome now nid it c (Some (mkItem nid fl e (KV v))) [RLink fl (abs_exp now e) (KV v)]
| oc_elem ob rs : Forall elemrec rs -> sameo (fold_left bredo rs (Some (i_body it))) ob ->
    (forall b', ob = Some b' -> wf_body b' /\ same_body (shell (i_body it)) (shell b')) -> outcome now nid it c (settle it ob) rs
| oc_attr a e' : c = KAttr a -> has_info a = false -> x_exp a = Some e' -> outcome now nid it c (Some (with_exp it e')) [RAttr (abs_exp now e')]
| oc_info a b e' : c = KAttr a -> has_info a = true -> (e' = i_exp it \/ x_exp a = Some e') -> wf_body b ->
    sameo (redo_info (i_body it) (shell b) None) (Some b) ->
    outcome now nid it c (Some (mkItem (i_id it) (i_fl it) e' b)) [RInfo (abs_exp now e') (shell b) None].

Lemma oc_same now nid it c : wf_body (i_body it) -> outcome now nid it c (Some it) [].
Proof.
  intros W. replace (Some it) with (settle it (Some (i_body it))) by (cbn; rewrite with_same; reflexivity). apply oc_elem; [constructor|apply same_refl|].
  intros b' [= <-]. split; [exact W|apply same_refl].
Qed.
Lemma oc_del now nid it c drop x' rs : del_ok it drop x' rs -> outcome now nid it c x' rs.
Proof.
  intros (ds & ob & -> & -> & S & W). apply oc_elem; [|rewrite dels_bredo; exact S|exact W]. apply Forall_forall. intros r HR. apply in_map_iff in HR.
  destruct HR as (d & <- & _). exact Logic.I.
Qed.
Lemma oc_ins now nid it c cr f x' rs : wf_body (i_body it) -> (forall b b' r, wf_body b -> f b = Some (b', r) -> ins_ok b b' r) ->
  insert_cmd now nid (Some it) cr f = (x', rs) -> outcome now nid it c x' rs.
Proof.
  intros W H. cbn [insert_cmd]. destruct (f (i_body it)) as [[b r]|] eqn:E.
  - destruct (H _ _ _ W E) as (I1 & I2 & I3). 
    assert (G : forall b', Some b = Some b' -> wf_body b' /\ same_body (shell (i_body it)) (shell b')) by (intros b' [= <-]; auto).
    destruct r as [x|]; intros [= <- <-].
    + change (Some (with_body it b)) with (settle it (Some b)). apply oc_elem; [repeat constructor|exact I3|exact G].
    + change (Some (with_body it b)) with (settle it (Some b)). apply oc_elem; [constructor|exact I3|exact G].
  - intros [= <- <-]. apply oc_same. exact W.
Qed.

Lemma bt_set_ok s o s' : wf_bt s -> (forall r, o <> Some (BtModel.ARange r)) -> o <> Some (BtModel.AMaxCount 0) -> bt_set s o = Some s' ->
  wf_bt s' /\ BtSpec.s_el s' = BtSpec.s_el s /\ BtSpec.s_type s' = BtSpec.s_type s.
Proof.
  intros W NR N0. destruct o as [[n|o|r]|]; cbn [bt_set BtSpec.s_step].
  - destruct (Nat.ltb_spec n (length (BtSpec.s_el s))); [discriminate|]. intros [= <-]. cbn. split; [|auto].
    destruct W as (W1 & W2 & W3 & W4 & W5). split; [exact W1|]. split; [exact H|]. split; [|split; [exact W4|exact W5]]. cbn. destruct n; [congruence|lia].
  - intros [= <-]. cbn. split; [exact W|auto].
  - congruence.
  - intros [= <-]. auto.
Qed.

Lemma set_body_ok b a b' : wf_body b -> x_rng a = None -> x_max a <> Some 0 -> set_body b a = Some b' -> wf_body b' /\
  match b with KV _ => b' = b | _ => sameo (redo_info b (shell b') None) (Some b') end.
Proof.
  intros W NR N0. destruct b as [v|mx ov rd l|mx rd l|mx rd l|rd s]; cbn [set_body].
  - intros [= <-]. auto.
  - destruct (match x_ov a with Some o => lov_of o | None => Some ov end) as [ov'|]; [|discriminate]. destruct W as (W1 & W2). destruct (x_max a) as [m|].
    + destruct (Nat.ltb_spec m (length l)); [discriminate|]. intros [= <-]. cbn. split; [|auto]. unfold ListSpec.size. destruct m; [congruence|lia].
    + intros [= <-]. cbn. auto.
  - unfold set_small. destruct (match x_ov a with None | Some FErr => _ | _ => None end) as [m|] eqn:M; [|discriminate]. intros [= <-]. cbn. split; [|auto].
    assert (HM : match x_max a with Some m0 => if Nat.ltb m0 (length l) then None else Some m0 | None => Some mx end = Some m) by (destruct (x_ov a) as [[]|]; try discriminate; exact M).
    destruct W as (W0 & W1 & W2). destruct (x_max a) as [n|]; [|injection HM as <-; auto]. destruct (Nat.ltb_spec n (length l)); [discriminate|]. injection HM as <-. destruct n; [congruence|]. split; [lia|auto].
  - unfold set_small. destruct (match x_ov a with None | Some FErr => _ | _ => None end) as [m|] eqn:M; [|discriminate]. intros [= <-]. cbn. split; [|auto].
    assert (HM : match x_max a with Some m0 => if Nat.ltb m0 (length l) then None else Some m0 | None => Some mx end = Some m) by (destruct (x_ov a) as [[]|]; try discriminate; exact M).
    destruct W as (W0 & W1 & W2). destruct (x_max a) as [n|]; [|injection HM as <-; auto]. destruct (Nat.ltb_spec n (length l)); [discriminate|]. injection HM as <-. destruct n; [congruence|]. split; [lia|auto].
  - rewrite NR. cbn [option_map].
    assert (A : forall r, option_map BtModel.AMaxCount (x_max a) <> Some (BtModel.ARange r)) by (destruct (x_max a); cbn; congruence).
    assert (B : option_map BtModel.AMaxCount (x_max a) <> Some (BtModel.AMaxCount 0)) by (destruct (x_max a); cbn; congruence).
    assert (FIN : forall s', wf_bt s' -> BtSpec.s_el s' = BtSpec.s_el s -> BtSpec.s_type s' = BtSpec.s_type s -> forall rd', wf_body (Bt rd' s') /\ sameo (redo_info (Bt rd s) (shell (Bt rd' s')) None) (Some (Bt rd' s'))).
    { intros s' W' E1 E2 rd'. split; [exact W'|]. cbn. rewrite E1, E2. repeat (split; [reflexivity|]). split; [|auto].
      destruct W as (_ & _ & _ & _ & R). destruct W' as (_ & _ & _ & _ & R'). congruence. }
    destruct (x_ov a) as [o|].
    + destruct (bov_of o) as [o'|]; [|discriminate]. destruct (bt_set s _) as [s1|] eqn:S1; [|discriminate]. destruct (bt_set_ok _ _ _ W A B S1) as (W1 & E1 & T1).
      destruct (bt_set s1 (Some (BtModel.AOvf o'))) as [s2|] eqn:S2; [|discriminate]. destruct (bt_set_ok s1 (Some (BtModel.AOvf o')) s2 W1 ltac:(intros; discriminate) ltac:(discriminate) S2) as (W2 & E2 & T2).
      cbn [bt_set]. intros [= <-]. apply FIN; congruence.
    + destruct (bt_set s _) as [s1|] eqn:S1; [|discriminate]. destruct (bt_set_ok _ _ _ W A B S1) as (W1 & E1 & T1). cbn [bt_set]. intros [= <-]. apply FIN; congruence.
Qed.

Lemma set_body_none b a : has_info a = false -> forall b', set_body b a = Some b' -> b' = b.
Proof.
  unfold has_info. destruct (x_max a) eqn:M, (x_ov a) eqn:O, (x_rng a) eqn:R; try discriminate. intros RD b'. destruct b; cbn [set_body]; unfold set_small; rewrite ?M, ?O, ?R, ?RD; cbn;
    rewrite ?orb_false_r; congruence.
Qed.

Lemma act_some T now nid it c x' rs : wf_body (i_body it) -> carried T (Some it) c -> act now nid (Some it) c = (x', rs) -> outcome now nid it c x' rs.
Proof.
  intros W C. destruct c; cbn [act].
  - destruct it as [id f0 e0 b0]. destruct b0; intros [= <- <-]; try (apply oc_same; exact W). eapply oc_store; reflexivity.
  - intros [= <- <-]. constructor.
  - intros [= <- <-]. constructor.
  - intros [= <- <-]. apply oc_same; exact W.
  - apply oc_ins; [exact W|apply lst_ins_ok].
  - intros H. eapply oc_del, list_del_ok; eassumption.
  - apply oc_ins; [exact W|apply set_ins_ok].
  - intros H. eapply oc_del, set_del_ok; eassumption.
  - apply oc_ins; [exact W|apply map_ins_ok].
  - apply oc_ins; [exact W|apply map_upd_ok].
  - intros H. eapply oc_del, map_del_ok; eassumption.
  - apply oc_ins; [exact W|apply bt_ins_ok].
  - intros H. eapply oc_del, bt_del_ok; eassumption.
  - cbn [carried] in C. destruct C as (C1 & C2 & C3 & C4). unfold attr_cmd. cbv zeta.
    destruct (negb _); [intros [= <- <-]; apply oc_same; exact W|].
    destruct (set_body (i_body it) x) as [b|] eqn:SB; [|intros [= <- <-]; apply oc_same; exact W].
    destruct (set_body_ok _ _ _ W C1 C2 SB) as (W' & S). destruct (has_info x) eqn:HI.
    + intros [= <- <-]. unfold rec_range. rewrite C1. eapply oc_info; eauto.
      * destruct (x_exp x); auto.
      * destruct (i_body it); [congruence|exact S..].
    + rewrite (set_body_none _ _ HI _ SB) in *. destruct (x_exp x) as [e|] eqn:XE; intros [= <- <-].
      * apply (oc_attr now nid it (KAttr x) x e); auto.
      * destruct it; apply oc_same; exact W.
Qed.

(* ---------- the records of a command redo it ---------- *)

Lemma made_wf cr : match cr with (fl, e, b) => made_ok (Some (fl, e, b)) -> wf_body (cshell b) end.
Proof.
  destruct cr as [[fl e] b]. destruct b; cbn; auto; unfold ListSpec.size; cbn.
  - intros H. split; lia.
  - intros H. repeat split; [lia|lia|constructor].
  - intros H. repeat split; [lia|lia|constructor].
  - intros H. repeat split; cbn; auto; lia.
Qed.

Lemma act_none T now nid c x' rs y : (now <= T)%N -> carried T None c -> act now nid None c = (x', rs) -> valid T y = None ->
  wf_opt x' /\ Forall norng rs /\ eqv T true x' (fold_left (redo1 T) rs y) /\ (forall it, x' = Some it -> i_id it = nid).
Proof.
  intros NT C A V.
  assert (SAME : forall r, (None, []) = (x', r) -> r = rs -> wf_opt x' /\ Forall norng rs /\ eqv T true x' (fold_left (redo1 T) rs y) /\ (forall it, x' = Some it -> i_id it = nid)).
  { intros r [= <- <-] <-. split; [exact Logic.I|]. split; [constructor|]. split; [|discriminate]. apply eqv_none; [reflexivity|exact V]. }
  assert (LINK : forall fl e b, wf_body b -> (Some (mkItem nid fl e b), [RLink fl (abs_exp now e) b]) = (x', rs) ->
    wf_opt x' /\ Forall norng rs /\ eqv T true x' (fold_left (redo1 T) rs y) /\ (forall it, x' = Some it -> i_id it = nid)).
  { intros fl e b W [= <- <-]. split; [exact W|]. split; [repeat constructor|]. split; [|intros it [= <-]; reflexivity]. cbn [fold_left]. unfold redo1.
    rewrite (abs_expired now T e NT). destruct (expired T e) eqn:X.
    - apply eqv_none; [cbn; rewrite X; reflexivity|rewrite valid_idem; exact V].
    - rewrite (abs_same now T e NT X). apply eqv_intro; cbn; auto using same_refl. }
  assert (INS : forall cr f, (forall b b' r, wf_body b -> f b = Some (b', r) -> ins_ok b b' r) -> made_ok cr -> insert_cmd now nid None cr f = (x', rs) ->
    wf_opt x' /\ Forall norng rs /\ eqv T true x' (fold_left (redo1 T) rs y) /\ (forall it, x' = Some it -> i_id it = nid)).
  { intros cr f H MO. cbn [insert_cmd]. destruct cr as [[[fl e] b0]|]; [|intros E; eapply SAME; [exact E|congruence]].
    pose proof (made_wf (fl, e, b0) MO) as W0. destruct (f (cshell b0)) as [[b r]|] eqn:E; [|intros Q; eapply SAME; [exact Q|congruence]].
    destruct (H _ _ _ W0 E) as (I1 & I2 & I3). destruct r as [r|]; intros [= <- <-].
    - split; [exact I1|]. split; [repeat constructor|]. split; [|intros it [= <-]; reflexivity]. cbn [fold_left]. unfold redo1. rewrite V, (abs_expired now T e NT).
      destruct (expired T e) eqn:X; [apply eqv_none; [cbn; rewrite X; reflexivity|reflexivity]|]. rewrite (abs_same now T e NT X).
      destruct (redo_ins (cshell b0) r) as [b'|]; cbn in I3; [|contradiction]. apply eqv_intro; cbn; auto using same_sym.
    - split; [exact Logic.I|]. split; [repeat constructor|]. split; [|discriminate]. apply eqv_none; reflexivity. }
  destruct c; cbn [act] in A; cbn [carried] in C; try (eapply SAME; [exact A|congruence]).
  - apply (LINK fl e (KV v)); [exact Logic.I|exact A].
  - destruct b; try (eapply SAME; [exact A|congruence]).
    + apply (LINK fl e (cshell (Lst mx ov rd l))); [exact (made_wf (fl, e, Lst mx ov rd l) C)|exact A].
    + apply (LINK fl e (cshell (St mx rd l))); [exact (made_wf (fl, e, St mx rd l) C)|exact A].
    + apply (LINK fl e (cshell (Mp mx rd l))); [exact (made_wf (fl, e, Mp mx rd l) C)|exact A].
    + apply (LINK fl e (cshell (Bt rd s))); [exact (made_wf (fl, e, Bt rd s) C)|exact A].
  - eapply INS; [apply lst_ins_ok|exact C|exact A].
  - eapply INS; [apply set_ins_ok|exact C|exact A].
  - eapply INS; [apply map_ins_ok|exact C|exact A].
  - eapply INS; [apply bt_ins_ok|exact C|exact A].
Qed.

Lemma elem_norng rs : Forall elemrec rs -> Forall norng rs.
Proof. apply Forall_impl. intros r H. apply soft_norng, elem_soft, H. Qed.

Lemma outcome_sim T now nid it c x' rs y : (now <= T)%N -> wf_body (i_body it) -> carried T (Some it) c -> outcome now nid it c x' rs ->
  eqv T true (Some it) y -> wf_opt x' /\ Forall norng rs /\ eqv T true x' (fold_left (redo1 T) rs y).
Proof.
  intros NT W C O E.
  assert (EXP : forall e', x_exp (match c with KAttr a => a | _ => mkX None None None false None None end) = Some e' -> expired T (i_exp it) = true -> expired T e' = true).
  { destruct c; try discriminate. cbn [carried] in C. destruct C as (_ & _ & _ & C4). intros e' X1 X2. apply C4; auto. }
  destruct O as [|fl e v w -> B|ob rs F S G|a e' -> HI XE|a b e' -> HI XE W' S].
  - split; [exact Logic.I|]. split; [repeat constructor|]. apply eqv_refl.
  - split; [exact Logic.I|]. split; [repeat constructor|]. cbn [fold_left]. unfold redo1. rewrite (abs_expired now T e NT). cbn [carried] in C.
    destruct (expired T e) eqn:X.
    + destruct C as [C|C]; [|discriminate]. apply eqv_none; [cbn; rewrite X; reflexivity|]. rewrite valid_idem. eapply eqv_none_r; eassumption.
    + rewrite (abs_same now T e NT X). apply eqv_intro; cbn; auto.
  - split; [destruct ob as [b|]; [apply (G b eq_refl)|exact Logic.I]|]. split; [apply elem_norng; exact F|].
    destruct (expired T (i_exp it)) eqn:X.
    + assert (V : valid T (Some it) = None) by (cbn; rewrite X; reflexivity). apply eqv_none; [destruct ob; cbn; rewrite ?X; reflexivity|].
      apply soft_none; [|eapply eqv_none_r; eassumption]. eapply Forall_impl; [|exact F]. intros r H. left. apply elem_soft, H.
    + eapply eqv_trans; [|apply (fold_eqv T true rs (Some it) y); [apply elem_norng; exact F|discriminate|exact E]].
      replace (Some it) with (settle it (Some (i_body it))) by (cbn; rewrite with_same; reflexivity). rewrite (fold_bredo T it rs X) by exact F. apply eqv_settle; auto.
      apply eqv_sym in E. clear -S. destruct (fold_left bredo rs (Some (i_body it))), ob; cbn in *; auto using same_sym.
  - split; [exact W|]. split; [repeat constructor|]. cbn [fold_left]. unfold redo1. unfold eqv in E. destruct (valid T y) as [b|] eqn:V.
    + cbn [valid] in E. destruct (expired T (i_exp it)) eqn:X; [contradiction|]. destruct E as (E1 & E2 & E3).
      destruct (expired T e') eqn:X'.
      * apply eqv_none; cbn; [rewrite X'; reflexivity|]. rewrite (abs_expired now T e' NT), X'. reflexivity.
      * rewrite (abs_same now T e' NT X'). apply eqv_intro; cbn; auto.
    + cbn [valid] in E. destruct (expired T (i_exp it)) eqn:X; [|contradiction]. specialize (EXP e' XE eq_refl). apply eqv_none; [|reflexivity]. cbn. rewrite EXP. reflexivity.
  - split; [exact W'|]. split; [repeat constructor|]. cbn [fold_left]. unfold redo1. unfold eqv in E. destruct (valid T y) as [q|] eqn:V.
    + cbn [valid] in E. destruct (expired T (i_exp it)) eqn:X; [contradiction|]. destruct E as (E1 & E2 & E3).
      pose proof (redo_info_same _ _ (shell b) E3) as S'. pose proof (sameo_trans _ _ _ (match redo_info (i_body it) (shell b) None as u, redo_info (i_body q) (shell b) None as v return sameo u v -> sameo v u with Some _, Some _ => fun h => same_sym _ _ h | None, None => fun h => h | Some _, None => fun h => h | None, Some _ => fun h => h end S') S) as S2.
      destruct (redo_info (i_body q) (shell b) None) as [b2|]; cbn in S2; [|contradiction].
      destruct (expired T e') eqn:X'.
      * apply eqv_none; cbn; [rewrite X'; reflexivity|]. rewrite (abs_expired now T e' NT), X'. reflexivity.
      * rewrite (abs_same now T e' NT X'). apply eqv_intro; cbn; auto using same_sym.
    + cbn [valid] in E. destruct (expired T (i_exp it)) eqn:X; [|contradiction]. apply eqv_none; [|reflexivity]. cbn. destruct XE as [-> |XE]; [rewrite X; reflexivity|]. rewrite (EXP e' XE eq_refl). reflexivity.
Qed.

Theorem act_sim T now nid x c x' rs y : (now <= T)%N -> wf_opt x -> carried T x c -> act now nid x c = (x', rs) -> eqv T true x y ->
  wf_opt x' /\ Forall norng rs /\ eqv T true x' (fold_left (redo1 T) rs y).
Proof.
  intros NT W C A E. destruct x as [it|].
  - eapply outcome_sim; eauto. eapply act_some; eauto.
  - destruct (act_none T now nid c x' rs y NT C A (eqv_none_r _ _ _ _ E eq_refl)) as (H1 & H2 & H3 & _). auto.
Qed.
