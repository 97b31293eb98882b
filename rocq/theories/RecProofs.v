(* Every record is decoded to the operation it was made from. *)
From Verif Require Import Base RecModel RecSpec.
Local Open Scope N_scope.
Ltac Zify.zify_post_hook ::= Z.to_euclidean_division_equations.

(* the record written for an operation: the cmdlog_generate_* functions, cmdlogmgr.c 530-690, each of which
   constructs the record and hands it to cmdlog_buff_write *)
Definition write (jk : nat -> N) (c : clock) (o : lop) : bytes :=
  match o with
  | OLink it => w_link jk c it
  | OUnlink it => w_unlink jk it
  | OSetExp it => w_setattr jk c 2 it
  | OSetInfo it => w_setattr jk c 3 it
  | OSetRange it => w_setattr jk c 4 it
  | OFlush p => w_flush jk p
  | OListIns it total index value create => w_list_ins jk c it total index value create
  | OListDel it total index count drop => w_list_del jk it total index count drop
  | OSetIns it value create => w_set_ins jk c it value create
  | OSetDel it value drop => w_set_del jk it value drop
  | OMapIns it field value create => w_map_ins jk c it field value create
  | OMapDel it field value drop => w_map_del jk it field value drop
  | OBtIns it bk eflag value create => w_bt_ins jk c it bk eflag value create
  | OBtDel it bk rest drop => w_bt_del jk it bk rest drop
  | OBtLgc it from to ef offset count drop => w_bt_lgc jk it from to ef offset count drop
  | OBegin => w_range jk true
  | OEnd => w_range jk false
  end.

(* numbers *)
Lemma rd16 n : n < 65536 -> n mod 256 + 256 * (n / 256 mod 256) = n.
Proof. lia. Qed.
Lemma rd32 n : n < 4294967296 ->
  n mod 256 + 256 * (n / 256 mod 256) + 65536 * (n / 65536 mod 256) + 16777216 * (n / 16777216 mod 256) = n.
Proof. lia. Qed.
Lemma rd64 n : n < 18446744073709551616 ->
  (let a := n mod 4294967296 in
   a mod 256 + 256 * (a / 256 mod 256) + 65536 * (a / 65536 mod 256) + 16777216 * (a / 16777216 mod 256)) +
  4294967296 *
  (let a := n / 4294967296 in
   a mod 256 + 256 * (a / 256 mod 256) + 65536 * (a / 65536 mod 256) + 16777216 * (a / 16777216 mod 256)) = n.
Proof.
  intros H. cbv zeta. rewrite !rd32; [lia| |].
  - apply N.div_lt_upper_bound; lia.
  - apply N.mod_lt; lia.
Qed.
Lemma int_inv z : (-2147483648 <= z < 2147483648)%Z -> to_int (of_int z) = z /\ of_int z < 4294967296.
Proof.
  intros H. unfold to_int, of_int.
  destruct (N.ltb_spec (Z.to_N (z mod 4294967296)) 2147483648); split; lia.
Qed.
Lemma int_nat n : n < 2147483648 -> to_int n = Z.of_N n.
Proof. intros H. unfold to_int. destruct (N.ltb_spec n 2147483648); lia. Qed.

(* slices *)
Lemma sub_l F D k o n : blen F = k -> sub_at (F ++ D) (k + o) n = sub_at D o n.
Proof.
  intros <-. unfold sub_at, blen. f_equal.
  rewrite N2Nat.inj_add, Nat2N.id.
  rewrite skipn_app. rewrite skipn_all2 by lia. cbn [app]. f_equal. lia.
Qed.
Lemma sub_l0 F D k n : blen F = k -> sub_at (F ++ D) k n = sub_at D 0 n.
Proof. intros H. rewrite <- (sub_l F D k 0 n H). f_equal. lia. Qed.
Lemma sub_here F D k : blen F = k -> sub_at (F ++ D) 0 k = F.
Proof.
  intros <-. unfold sub_at, blen. change (N.to_nat 0) with 0%nat. cbn [skipn].
  rewrite Nat2N.id, firstn_app, Nat.sub_diag, firstn_all. cbn [firstn]. apply app_nil_r.
Qed.
Lemma sub_0 D o : sub_at D o 0 = [].
Proof. reflexivity. Qed.
Lemma copy_all p k : blen p = k -> copy k p = p.
Proof. intros <-. unfold copy, blen. rewrite Nat2N.id. apply firstn_all. Qed.
Lemma blen_app a b : blen (a ++ b) = blen a + blen b.
Proof. unfold blen. rewrite app_length. lia. Qed.
Lemma copy_prefix p q k : blen p = k -> copy k (p ++ q) = p.
Proof. intros H. apply (sub_here p q k H). Qed.

(* expiry times *)
Lemma rel_abs c c' it : r_exp it < 4294967296 -> clocks c c' it ->
  abs_exptime c (r_exp it) < 4294967296 /\
  rel_exptime c' (abs_exptime c (r_exp it)) =
  match still c' (meaning c (r_exp it)) with None => 1 | Some e => e end /\
  expired (rel_exptime c' (abs_exptime c (r_exp it))) =
  match still c' (meaning c (r_exp it)) with None => true | Some e => false end.
Proof.
  unfold clocks, meaning, expired. intros HE HC. set (e := r_exp it) in *.
  destruct (N.eqb_spec e 0) as [E0|E0].
  - rewrite E0. cbn. repeat split; lia.
  - destruct (N.eqb_spec e 4294967295) as [E1|E1].
    + rewrite E1. cbn. repeat split; lia.
    + destruct HC as [(H1 & H1' & H2 & H3)|[H _]]; [|lia].
      unfold abs_exptime. rewrite (proj2 (N.eqb_neq _ _) E0), (proj2 (N.eqb_neq _ _) E1). cbn [orb still].
      rewrite (N.mod_small (c_unix c)) by lia.
      destruct (N.ltb_spec (c_cur c) e) as [L|L].
      * rewrite N.mod_small by lia. split; [lia|].
        set (t := c_unix c + (e - c_cur c)).
        unfold rel_exptime.
        destruct (N.eqb_spec t 0); [lia|]. destruct (N.eqb_spec t 4294967295); [lia|]. cbn [orb].
        rewrite (N.mod_small (c_unix c')) by lia.
        destruct (N.ltb_spec (c_unix c') t) as [M|M].
        -- destruct (Z.leb_spec (Z.of_N (c_unix c) + Z.of_N e - Z.of_N (c_cur c)) (Z.of_N (c_unix c'))); [lia|].
           rewrite N.mod_small by lia. split; [lia|].
           apply N.eqb_neq. lia.
        -- destruct (Z.leb_spec (Z.of_N (c_unix c) + Z.of_N e - Z.of_N (c_cur c)) (Z.of_N (c_unix c'))); [|lia].
           split; reflexivity.
      * split; [lia|]. unfold rel_exptime.
        destruct (N.eqb_spec (c_unix c) 0); [lia|]. destruct (N.eqb_spec (c_unix c) 4294967295); [lia|]. cbn [orb].
        rewrite (N.mod_small (c_unix c')) by lia.
        destruct (N.ltb_spec (c_unix c') (c_unix c)) as [M|M]; [lia|].
        destruct (Z.leb_spec (Z.of_N (c_unix c) + Z.of_N e - Z.of_N (c_cur c)) (Z.of_N (c_unix c'))); [|lia].
        split; reflexivity.
Qed.

Lemma readable_bit m : readable m = N.testbit m 1.
Proof.
  unfold readable. destruct (N.testbit m 1) eqn:E.
  - destruct (N.eqb_spec (N.land m 2) 0) as [H|H]; [|reflexivity].
    assert (N.testbit (N.land m 2) 1 = true) by (rewrite N.land_spec, E; reflexivity).
    rewrite H in H0. discriminate.
  - destruct (N.eqb_spec (N.land m 2) 0) as [H|H]; [reflexivity|]. exfalso. apply H.
    apply N.bits_inj. intros k. rewrite N.land_spec, N.bits_0.
    destruct (N.eq_dec k 1) as [->|NE]; [rewrite E; reflexivity|].
    change 2 with (2 ^ 1). rewrite N.pow2_bits_false by lia. apply andb_false_r.
Qed.
Lemma trimmed_bit m : trimmed m = N.testbit m 3.
Proof.
  unfold trimmed. destruct (N.testbit m 3) eqn:E.
  - destruct (N.eqb_spec (N.land m 8) 0) as [H|H]; [|reflexivity].
    assert (N.testbit (N.land m 8) 3 = true) by (rewrite N.land_spec, E; reflexivity).
    rewrite H in H0. discriminate.
  - destruct (N.eqb_spec (N.land m 8) 0) as [H|H]; [reflexivity|]. exfalso. apply H.
    apply N.bits_inj. intros k. rewrite N.land_spec, N.bits_0.
    destruct (N.eq_dec k 3) as [->|NE]; [rewrite E; reflexivity|].
    change 8 with (2 ^ 3). rewrite N.pow2_bits_false by lia. apply andb_false_r.
Qed.

Ltac frame b F D :=
  match goal with
  | |- context [put ?jk ?ty ?upd ?bl ?fx ?dt ++ ?rest] =>
      unfold put; rewrite <- (app_assoc _ _ rest), <- (app_assoc dt _ rest);
      set (D := dt ++ _); set (F := [ty; upd; jk 2%nat; jk 3%nat] ++ le32 bl ++ fx)
  end; set (b := F ++ D).

Lemma link_ok jk c c' rest it : wf_item it -> clocks c c' it ->
  redo c' (w_link jk c it ++ rest) = Some (expected c c' (OLink it)).
Proof.
  intros (W1 & W2 & W3 & W4 & W5 & W6 & W7 & W8) HC.
  destruct (rel_abs c c' it W5 HC) as (A1 & A2 & A3).
  destruct (int_inv _ W7) as (I1 & I2).
  unfold expected, w_link.
  set (mb := if r_type it =? 4 then fst (r_maxbkr it) else BKEY_NULL).
  frame b F D.
  change (redo_link c' b = Some match still c' (meaning c (r_exp it)) with
      | None => CNothing
      | Some e =>
          if r_type it =? 0 then CKvLink (r_key it) (r_flags it) e (r_data it) (r_cas it)
          else CCollLink (r_type it) (r_key it)
                 (attrs it e true (if r_type it =? 4 then Some (range_of it) else None))
      end).
  unfold redo_link.
  change (u8_at b 8) with (r_type it).
  assert (E1 : u16_at b 10 = blen (r_key it)) by exact (rd16 _ W2). rewrite E1. clear E1.
  assert (E1 : u32_at b 12 = blen (r_data it)) by (apply (rd32 (blen (r_data it))); lia).
  rewrite E1. clear E1.
  assert (E1 : u32_at b 16 = r_flags it) by exact (rd32 _ W4). rewrite E1. clear E1.
  assert (E1 : u32_at b 20 = abs_exptime c (r_exp it)) by exact (rd32 _ A1). rewrite E1. clear E1.
  rewrite A3, A2.
  destruct (still c' (meaning c (r_exp it))) as [e|]; [|reflexivity]. clear A2 A3.
  destruct (N.eqb_spec (r_type it) 0) as [T|T].
  - assert (BF : blen F = 32) by (unfold F; rewrite T; reflexivity).
    assert (DE : exists R, D = r_key it ++ r_data it ++ R).
    { unfold D. rewrite T. cbn [N.eqb andb app].
      rewrite (copy_all (r_key it ++ r_data it)) by apply blen_app. rewrite <- app_assoc. eexists; reflexivity. }
    destruct DE as (R & DE). f_equal. f_equal.
    + unfold b. rewrite (sub_l0 F D 32 _ BF), DE. apply sub_here; reflexivity.
    + unfold b. rewrite (sub_l F D 32 _ _ BF), DE.
      rewrite (sub_l0 (r_key it)) by reflexivity. apply sub_here; reflexivity.
    + unfold b, F. rewrite T. exact (rd64 _ W6).
  - assert (TN : (r_type it =? 0) = false) by (apply N.eqb_neq; exact T).
    assert (BF : blen F = 32) by (unfold F; try rewrite TN; reflexivity).
    assert (E1 : u8_at b 25 = r_mflags it) by (unfold b, F; try rewrite TN; reflexivity). rewrite E1. clear E1.
    assert (E1 : u8_at b 24 = r_ovfl it) by (unfold b, F; try rewrite TN; reflexivity). rewrite E1. clear E1.
    assert (E1 : u8_at b 26 = mb) by (unfold b, F; try rewrite TN; reflexivity). rewrite E1. clear E1.
    assert (E1 : to_int (u32_at b 28) = r_mcnt it).
    { transitivity (to_int (of_int (r_mcnt it))); [|exact I1]. f_equal. unfold b, F. try rewrite TN. exact (rd32 _ I2). }
    rewrite E1. clear E1.
    rewrite readable_bit, trimmed_bit.
    destruct (N.eqb_spec (r_type it) 4) as [T4|T4].
    + rewrite T4. cbn [N.eqb Pos.eqb orb]. unfold range_of.
      assert (MB : mb = fst (r_maxbkr it)) by reflexivity.
      unfold BKEY_NULL. rewrite MB.
      destruct (N.eqb_spec (fst (r_maxbkr it)) 255) as [Z|Z].
      * cbn [negb].
        assert (DE : exists R, D = r_key it ++ r_data it ++ R).
        { unfold D, BKEY_NULL. rewrite MB, Z, N.eqb_refl, andb_false_r. cbn [app].
          rewrite (copy_all (r_key it ++ r_data it)) by apply blen_app. rewrite <- app_assoc. eexists; reflexivity. }
        destruct DE as (R & DE). do 2 f_equal.
        unfold b. rewrite (sub_l0 F D 32 _ BF), DE. apply sub_here; reflexivity.
      * cbn [negb]. destruct W8 as [W8|[W8 W9]]; [congruence|].
        assert (ZN : (fst (r_maxbkr it) =? 255) = false) by (apply N.eqb_neq; exact Z).
        assert (W9' : blen (snd (r_maxbkr it)) = real_nbkey (fst (r_maxbkr it))) by exact W9.
        assert (DE : exists R, D = snd (r_maxbkr it) ++ r_key it ++ r_data it ++ R).
        { unfold D, BKEY_NULL. rewrite MB, T4, ZN. cbn [N.eqb Pos.eqb negb andb].
          rewrite (copy_all (snd (r_maxbkr it))) by exact W9'.
          rewrite (copy_all (r_key it ++ r_data it)) by apply blen_app. rewrite <- !app_assoc. eexists; reflexivity. }
        destruct DE as (R & DE). unfold attrs. do 2 f_equal.
        -- unfold b. rewrite (sub_l F D 32 _ _ BF), DE.
           rewrite (sub_l0 (snd (r_maxbkr it))) by exact W9'. apply sub_here; reflexivity.
        -- do 2 f_equal. unfold b. rewrite (sub_l0 F D 32 _ BF), DE.
           rewrite (sub_here (snd (r_maxbkr it))) by exact W9'. symmetry. apply surjective_pairing.
    + assert (TT : (r_type it =? 1) || (r_type it =? 2) || (r_type it =? 3) = true).
      { destruct (N.eqb_spec (r_type it) 1), (N.eqb_spec (r_type it) 2), (N.eqb_spec (r_type it) 3); cbn; lia. }
      rewrite TT.
      assert (DE : exists R, D = r_key it ++ r_data it ++ R).
      { unfold D. try rewrite (proj2 (N.eqb_neq _ _) T4). cbn [andb app].
        rewrite (copy_all (r_key it ++ r_data it)) by apply blen_app. rewrite <- app_assoc. eexists; reflexivity. }
      destruct DE as (R & DE). do 2 f_equal.
      unfold b. rewrite (sub_l0 F D 32 _ BF), DE. apply sub_here; reflexivity.
Qed.

Tactic Notation "read" constr(l) "as" constr(v) "by" tactic(t) :=
  let E := fresh in assert (E : l = v) by t; rewrite E; clear E.

Lemma unlink_ok jk c c' rest it : wf_item it -> redo c' (w_unlink jk it ++ rest) = Some (expected c c' (OUnlink it)).
Proof.
  intros (W1 & W2 & _). unfold expected, w_unlink. frame b F D.
  change (redo_unlink b = Some (CUnlink (r_key it))). unfold redo_unlink.
  read (u16_at b 8) as (blen (r_key it)) by exact (rd16 _ W2).
  do 2 f_equal. unfold b. rewrite (sub_l0 F D 10 _ eq_refl).
  unfold D. rewrite copy_all by reflexivity. apply sub_here; reflexivity.
Qed.

Lemma setexp_ok jk c c' rest it : wf_item it -> clocks c c' it ->
  redo c' (w_setattr jk c 2 it ++ rest) = Some (expected c c' (OSetExp it)).
Proof.
  intros (W1 & W2 & W3 & W4 & W5 & W6 & W7 & W8) HC.
  destruct (rel_abs c c' it W5 HC) as (A1 & A2 & A3).
  unfold expected, w_setattr. cbn [N.eqb Pos.eqb orb negb BKEY_NULL]. frame b F D.
  change (redo_setattr c' b = Some (CSetExp (r_key it) match still c' (meaning c (r_exp it)) with None => 1 | Some e => e end)).
  unfold redo_setattr. change (u8_at b 1) with 2. cbn [N.eqb Pos.eqb].
  read (u16_at b 8) as (blen (r_key it)) by exact (rd16 _ W2).
  read (u32_at b 12) as (abs_exptime c (r_exp it)) by exact (rd32 _ A1).
  rewrite A2. do 2 f_equal. unfold b. rewrite (sub_l0 F D 24 _ eq_refl).
  unfold D. cbn [app]. rewrite copy_all by reflexivity. apply sub_here; reflexivity.
Qed.

Lemma setinfo_ok jk c c' rest it : wf_item it -> clocks c c' it ->
  redo c' (w_setattr jk c 3 it ++ rest) = Some (expected c c' (OSetInfo it)).
Proof.
  intros (W1 & W2 & W3 & W4 & W5 & W6 & W7 & W8) HC.
  destruct (rel_abs c c' it W5 HC) as (A1 & A2 & A3). destruct (int_inv _ W7) as (I1 & I2).
  unfold expected, w_setattr. cbn [N.eqb Pos.eqb orb negb BKEY_NULL]. frame b F D.
  change (redo_setattr c' b = Some (CSetColl (r_key it) match still c' (meaning c (r_exp it)) with None => 1 | Some e => e end
     (r_mcnt it) (r_ovfl it) (r_mflags it) None)).
  unfold redo_setattr. change (u8_at b 1) with 3. change (u8_at b 18) with 255. cbn [N.eqb Pos.eqb negb BKEY_NULL].
  change (u8_at b 16) with (r_ovfl it). change (u8_at b 17) with (r_mflags it).
  read (u16_at b 8) as (blen (r_key it)) by exact (rd16 _ W2).
  read (u32_at b 12) as (abs_exptime c (r_exp it)) by exact (rd32 _ A1).
  read (u32_at b 20) as (of_int (r_mcnt it)) by exact (rd32 _ I2).
  rewrite A2, I1. do 2 f_equal. unfold b. rewrite (sub_l0 F D 24 _ eq_refl).
  unfold D. cbn [app]. rewrite copy_all by reflexivity. apply sub_here; reflexivity.
Qed.

Lemma setrange_ok jk c c' rest it : wf_item it -> fst (r_maxbkr it) <> 255 -> clocks c c' it ->
  redo c' (w_setattr jk c 4 it ++ rest) = Some (expected c c' (OSetRange it)).
Proof.
  intros (W1 & W2 & W3 & W4 & W5 & W6 & W7 & W8) Z HC.
  destruct (rel_abs c c' it W5 HC) as (A1 & A2 & A3). destruct (int_inv _ W7) as (I1 & I2).
  destruct W8 as [W8|[W8 W9]]; [congruence|].
  assert (ZN : (fst (r_maxbkr it) =? 255) = false) by (apply N.eqb_neq; exact Z).
  assert (W9' : blen (snd (r_maxbkr it)) = real_nbkey (fst (r_maxbkr it))) by exact W9.
  unfold expected, w_setattr. cbn [N.eqb Pos.eqb orb]. unfold range_of, BKEY_NULL. rewrite ZN. cbn [negb].
  frame b F D.
  change (redo_setattr c' b = Some (CSetColl (r_key it) match still c' (meaning c (r_exp it)) with None => 1 | Some e => e end
     (r_mcnt it) (r_ovfl it) (r_mflags it) (Some (r_maxbkr it)))).
  unfold redo_setattr. change (u8_at b 1) with 4. change (u8_at b 18) with (fst (r_maxbkr it)).
  unfold BKEY_NULL. rewrite ZN. cbn [N.eqb Pos.eqb negb].
  change (u8_at b 16) with (r_ovfl it). change (u8_at b 17) with (r_mflags it).
  read (u16_at b 8) as (blen (r_key it)) by exact (rd16 _ W2).
  read (u32_at b 12) as (abs_exptime c (r_exp it)) by exact (rd32 _ A1).
  read (u32_at b 20) as (of_int (r_mcnt it)) by exact (rd32 _ I2).
  rewrite A2, I1.
  assert (DE : exists R, D = snd (r_maxbkr it) ++ r_key it ++ R).
  { unfold D. rewrite (copy_all (snd (r_maxbkr it))) by exact W9'.
    rewrite (copy_all (r_key it)) by reflexivity. rewrite <- !app_assoc. eexists; reflexivity. }
  destruct DE as (R & DE). do 2 f_equal.
  - unfold b. rewrite (sub_l F D 24 _ _ eq_refl), DE.
    rewrite (sub_l0 (snd (r_maxbkr it))) by exact W9'. apply sub_here; reflexivity.
  - f_equal. unfold b. rewrite (sub_l0 F D 24 _ eq_refl), DE.
    rewrite (sub_here (snd (r_maxbkr it))) by exact W9'. symmetry. apply surjective_pairing.
Qed.

Lemma flush_ok jk c c' rest p : wf (OFlush p) -> redo c' (w_flush jk p ++ rest) = Some (expected c c' (OFlush p)).
Proof.
  intros W. unfold expected, w_flush. destruct p as [p|]; [|reflexivity].
  cbn [wf] in W. rewrite (N.mod_small (blen p)) by lia. frame b F D.
  change (redo_flush b = Some (CFlush (Some p))). unfold redo_flush.
  change (u8_at b 8) with (blen p).
  destruct (N.eqb_spec (blen p) 255); [lia|].
  destruct (N.eqb_spec (blen p) 0) as [Z|Z].
  - destruct p; [reflexivity|discriminate].
  - do 3 f_equal. unfold b. rewrite (sub_l0 F D 9 _ eq_refl). unfold D.
    destruct (N.ltb_spec 0 (blen p)); [|lia]. destruct (N.ltb_spec (blen p) 255); [|lia]. cbn [andb].
    rewrite copy_all by reflexivity. apply sub_here; reflexivity.
Qed.

Lemma n2b_b2n x : n2b (b2n x) = x.
Proof. destruct x; reflexivity. Qed.

(* attributes of created collections *)
Lemma attr_at jk c c' it b o R : wf_item it -> clocks c c' it ->
  sub_at b o 16 = sub_at (attr_info jk c it ++ R) 0 16 ->
  item_attr c' b o =
  attrs it (match still c' (meaning c (r_exp it)) with None => 1 | Some e => e end) false None /\
  expired (t_exp (item_attr c' b o)) =
  match still c' (meaning c (r_exp it)) with None => true | Some e => false end.
Proof.
  intros (W1 & W2 & W3 & W4 & W5 & W6 & W7 & W8) HC E.
  destruct (rel_abs c c' it W5 HC) as (A1 & A2 & A3). destruct (int_inv _ W7) as (I1 & I2).
  rewrite (sub_here (attr_info jk c it) R 16 eq_refl) in E.
  assert (E1 : item_attr c' b o = attrs it (match still c' (meaning c (r_exp it)) with None => 1 | Some e => e end) false None).
  { unfold item_attr, attrs. rewrite E. cbn [andb].
    change (u8_at (attr_info jk c it) 15) with (r_mflags it).
    change (u8_at (attr_info jk c it) 14) with (r_ovfl it).
    read (u32_at (attr_info jk c it) 0) as (r_flags it) by exact (rd32 _ W4).
    read (u32_at (attr_info jk c it) 4) as (abs_exptime c (r_exp it)) by exact (rd32 _ A1).
    read (u32_at (attr_info jk c it) 8) as (of_int (r_mcnt it)) by exact (rd32 _ I2).
    rewrite I1, A2, readable_bit. reflexivity. }
  split; [exact E1|]. rewrite E1. cbn [attrs t_exp]. rewrite <- A3, A2. reflexivity.
Qed.

Lemma with_create_ok jk c c' it b o (create : bool) k1 k2 range :
  wf_item it -> (create = true -> clocks c c' it) ->
  (create = true -> exists R, sub_at b o 16 = sub_at (attr_info jk c it ++ R) 0 16) ->
  k1 None = k2 None ->
  (forall e, k1 (Some (attrs it e false None)) = k2 (Some (attrs it e false range))) ->
  with_create c' b create o k1 = Some (ins c c' it create range k2).
Proof.
  intros W HC HS K1 K2. unfold with_create, ins. destruct create; [|rewrite K1; reflexivity].
  destruct (HS eq_refl) as (R & E).
  destruct (attr_at jk c c' it b o R W (HC eq_refl) E) as (E1 & E2).
  cbv zeta. rewrite E2, E1.
  destruct (still c' (meaning c (r_exp it))); [|reflexivity]. rewrite K2. reflexivity.
Qed.

Lemma attr_opt_true jk c it : attr_opt jk c it true = attr_info jk c it.
Proof. reflexivity. Qed.

Lemma list_ins_ok jk c c' rest it total index value create :
  wf (OListIns it total index value create) -> timed c c' (OListIns it total index value create) ->
  redo c' (w_list_ins jk c it total index value create ++ rest) =
  Some (expected c c' (OListIns it total index value create)).
Proof.
  intros (W & WT & WI & WV) HC. assert (W2 : blen (r_key it) < 65536) by apply W.
  destruct (int_inv _ WI) as (I1 & I2). unfold small in WV.
  unfold expected, w_list_ins. frame b F D.
  change (redo_list_ins c' b = Some (ins c c' it create None
     (fun a => CListIns (r_key it) a (Z.of_N total) index value))).
  unfold redo_list_ins. change (u8_at b 10) with (b2n create). rewrite n2b_b2n.
  read (u16_at b 8) as (blen (r_key it)) by exact (rd16 _ W2).
  read (u32_at b 12) as (blen value) by (apply (rd32 (blen value)); lia).
  read (u32_at b 16) as total by (apply (rd32 total); lia).
  read (u32_at b 20) as (of_int index) by exact (rd32 _ I2).
  rewrite I1, int_nat by exact WT.
  assert (DE : exists R, D = r_key it ++ value ++ attr_opt jk c it create ++ R).
  { unfold D. rewrite (copy_all (r_key it)), (copy_all value) by reflexivity. rewrite <- !app_assoc. eexists; reflexivity. }
  destruct DE as (R & DE).
  assert (S1 : sub_at b 24 (blen (r_key it)) = r_key it).
  { unfold b. rewrite (sub_l0 F D 24 _ eq_refl), DE. apply sub_here; reflexivity. }
  assert (S2 : sub_at b (24 + blen (r_key it)) (blen value) = value).
  { unfold b. rewrite (sub_l F D 24 _ _ eq_refl), DE. rewrite (sub_l0 (r_key it)) by reflexivity.
    apply sub_here; reflexivity. }
  rewrite S1, S2.
  apply (with_create_ok jk); [exact W| | |reflexivity|reflexivity].
  - intros ->. exact HC.
  - intros ->. exists R. rewrite <- (N.add_assoc 24). unfold b. rewrite (sub_l F D 24 _ _ eq_refl), DE.
    rewrite (sub_l (r_key it)), (sub_l0 value) by reflexivity. rewrite attr_opt_true. reflexivity.
Qed.

Lemma list_del_ok jk c c' rest it total index count drop :
  wf (OListDel it total index count drop) ->
  redo c' (w_list_del jk it total index count drop ++ rest) = Some (expected c c' (OListDel it total index count drop)).
Proof.
  intros (W & WT & WI & WC). assert (W2 : blen (r_key it) < 65536) by apply W.
  destruct (int_inv _ WI) as (I1 & I2).
  unfold expected, w_list_del. frame b F D.
  change (redo_list_del b = Some (CListDel (r_key it) (Z.of_N total) index (Z.of_N count) drop)).
  unfold redo_list_del. change (u8_at b 10) with (b2n drop). rewrite n2b_b2n.
  read (u16_at b 8) as (blen (r_key it)) by exact (rd16 _ W2).
  read (u32_at b 12) as total by (apply (rd32 total); lia).
  read (u32_at b 16) as (of_int index) by exact (rd32 _ I2).
  read (u32_at b 20) as count by (apply (rd32 count); lia).
  rewrite I1, !int_nat by assumption. do 2 f_equal.
  unfold b. rewrite (sub_l0 F D 24 _ eq_refl). unfold D. rewrite copy_all by reflexivity. apply sub_here; reflexivity.
Qed.

Lemma set_ins_ok jk c c' rest it value create :
  wf (OSetIns it value create) -> timed c c' (OSetIns it value create) ->
  redo c' (w_set_ins jk c it value create ++ rest) = Some (expected c c' (OSetIns it value create)).
Proof.
  intros (W & WV) HC. assert (W2 : blen (r_key it) < 65536) by apply W. unfold small in WV.
  unfold expected, w_set_ins. frame b F D.
  change (redo_set_ins c' b = Some (ins c c' it create None (fun a => CSetIns (r_key it) a value))).
  unfold redo_set_ins. change (u8_at b 10) with (b2n create). rewrite n2b_b2n.
  read (u16_at b 8) as (blen (r_key it)) by exact (rd16 _ W2).
  read (u32_at b 12) as (blen value) by (apply (rd32 (blen value)); lia).
  assert (DE : exists R, D = r_key it ++ value ++ attr_opt jk c it create ++ R).
  { unfold D. rewrite (copy_all (r_key it)), (copy_all value) by reflexivity. rewrite <- !app_assoc. eexists; reflexivity. }
  destruct DE as (R & DE).
  assert (S1 : sub_at b 16 (blen (r_key it)) = r_key it).
  { unfold b. rewrite (sub_l0 F D 16 _ eq_refl), DE. apply sub_here; reflexivity. }
  assert (S2 : sub_at b (16 + blen (r_key it)) (blen value) = value).
  { unfold b. rewrite (sub_l F D 16 _ _ eq_refl), DE. rewrite (sub_l0 (r_key it)) by reflexivity.
    apply sub_here; reflexivity. }
  rewrite S1, S2.
  apply (with_create_ok jk); [exact W| | |reflexivity|reflexivity].
  - intros ->. exact HC.
  - intros ->. exists R. rewrite <- (N.add_assoc 16). unfold b. rewrite (sub_l F D 16 _ _ eq_refl), DE.
    rewrite (sub_l (r_key it)), (sub_l0 value) by reflexivity. rewrite attr_opt_true. reflexivity.
Qed.

Lemma set_del_ok jk c c' rest it value drop :
  wf (OSetDel it value drop) ->
  redo c' (w_set_del jk it value drop ++ rest) = Some (expected c c' (OSetDel it value drop)).
Proof.
  intros (W & WV). assert (W2 : blen (r_key it) < 65536) by apply W. unfold small in WV.
  unfold expected, w_set_del. frame b F D.
  change (redo_set_del b = Some (CSetDel (r_key it) value drop)).
  unfold redo_set_del. change (u8_at b 10) with (b2n drop). rewrite n2b_b2n.
  read (u16_at b 8) as (blen (r_key it)) by exact (rd16 _ W2).
  read (u32_at b 12) as (blen value) by (apply (rd32 (blen value)); lia).
  assert (DE : exists R, D = r_key it ++ value ++ R).
  { unfold D. rewrite (copy_all (r_key it)), (copy_all value) by reflexivity. rewrite <- !app_assoc. eexists; reflexivity. }
  destruct DE as (R & DE). do 2 f_equal.
  - unfold b. rewrite (sub_l0 F D 16 _ eq_refl), DE. apply sub_here; reflexivity.
  - unfold b. rewrite (sub_l F D 16 _ _ eq_refl), DE. rewrite (sub_l0 (r_key it)) by reflexivity.
    apply sub_here; reflexivity.
Qed.

Lemma map_ins_ok jk c c' rest it field value create :
  wf (OMapIns it field value create) -> timed c c' (OMapIns it field value create) ->
  redo c' (w_map_ins jk c it field value create ++ rest) = Some (expected c c' (OMapIns it field value create)).
Proof.
  intros (W & WF & WV) HC. assert (W2 : blen (r_key it) < 65536) by apply W. unfold small in WV.
  unfold expected, w_map_ins. frame b F D.
  change (redo_map_ins c' b = Some (ins c c' it create None (fun a => CMapIns (r_key it) a field value))).
  unfold redo_map_ins. change (u8_at b 10) with (b2n create). rewrite n2b_b2n.
  change (u8_at b 11) with (blen field).
  read (u16_at b 8) as (blen (r_key it)) by exact (rd16 _ W2).
  read (u32_at b 12) as (blen value) by (apply (rd32 (blen value)); lia).
  assert (DE : exists R, D = r_key it ++ field ++ value ++ attr_opt jk c it create ++ R).
  { unfold D. rewrite (copy_all (r_key it)) by reflexivity.
    rewrite (copy_all (field ++ value)) by apply blen_app. rewrite <- !app_assoc. eexists; reflexivity. }
  destruct DE as (R & DE).
  assert (S1 : sub_at b 16 (blen (r_key it)) = r_key it).
  { unfold b. rewrite (sub_l0 F D 16 _ eq_refl), DE. apply sub_here; reflexivity. }
  assert (S2 : sub_at b (16 + blen (r_key it)) (blen field) = field).
  { unfold b. rewrite (sub_l F D 16 _ _ eq_refl), DE. rewrite (sub_l0 (r_key it)) by reflexivity.
    apply sub_here; reflexivity. }
  assert (S3 : sub_at b (16 + blen (r_key it) + blen field) (blen value) = value).
  { rewrite <- N.add_assoc. unfold b. rewrite (sub_l F D 16 _ _ eq_refl), DE.
    rewrite (sub_l (r_key it)), (sub_l0 field) by reflexivity. apply sub_here; reflexivity. }
  rewrite S1, S2, S3.
  apply (with_create_ok jk); [exact W| | |reflexivity|reflexivity].
  - intros ->. exact HC.
  - intros ->. exists R. rewrite <- !(N.add_assoc). unfold b. rewrite (sub_l F D 16 _ _ eq_refl), DE.
    rewrite (sub_l (r_key it)), (sub_l field), (sub_l0 value) by reflexivity. rewrite attr_opt_true. reflexivity.
Qed.

Lemma map_del_ok jk c c' rest it field value drop :
  wf (OMapDel it field value drop) ->
  redo c' (w_map_del jk it field value drop ++ rest) = Some (expected c c' (OMapDel it field value drop)).
Proof.
  intros (W & WF & WV). assert (W2 : blen (r_key it) < 65536) by apply W.
  unfold expected, w_map_del. frame b F D.
  change (redo_map_del b = Some (CMapDel (r_key it) field drop)).
  unfold redo_map_del. change (u8_at b 10) with (b2n drop). rewrite n2b_b2n.
  change (u8_at b 11) with (blen field).
  read (u16_at b 8) as (blen (r_key it)) by exact (rd16 _ W2).
  assert (DE : exists R, D = r_key it ++ field ++ R).
  { unfold D. rewrite (copy_all (r_key it)), (copy_prefix field) by reflexivity.
    rewrite <- !app_assoc. eexists; reflexivity. }
  destruct DE as (R & DE). do 2 f_equal.
  - unfold b. rewrite (sub_l0 F D 12 _ eq_refl), DE. apply sub_here; reflexivity.
  - unfold b. rewrite (sub_l F D 12 _ _ eq_refl), DE. rewrite (sub_l0 (r_key it)) by reflexivity.
    apply sub_here; reflexivity.
Qed.

Lemma bt_ins_ok jk c c' rest it bk eflag value create :
  wf (OBtIns it bk eflag value create) -> timed c c' (OBtIns it bk eflag value create) ->
  redo c' (w_bt_ins jk c it bk eflag value create ++ rest) = Some (expected c c' (OBtIns it bk eflag value create)).
Proof.
  intros (W & (WB & WB') & WE & WV) HC. assert (W2 : blen (r_key it) < 65536) by apply W. unfold small in WV.
  assert (WB2 : blen (snd bk) = real_nbkey (fst bk)) by exact WB'. clear WB'.
  unfold expected, w_bt_ins. frame b F D.
  change (redo_bt_ins c' b = Some (ins c c' it create (Some (255, [])) (fun a => CBtIns (r_key it) a bk eflag value))).
  unfold redo_bt_ins. change (u8_at b 10) with (b2n create). rewrite n2b_b2n.
  change (u8_at b 11) with (fst bk). change (u8_at b 12) with (blen eflag).
  read (u16_at b 8) as (blen (r_key it)) by exact (rd16 _ W2).
  read (u32_at b 16) as (blen value) by (apply (rd32 (blen value)); lia).
  assert (DE : exists R, D = r_key it ++ snd bk ++ eflag ++ value ++ attr_opt jk c it create ++ R).
  { unfold D. rewrite (copy_all (r_key it)) by reflexivity.
    rewrite (copy_all (snd bk ++ eflag ++ value)) by (rewrite !blen_app, WB2; lia).
    rewrite <- !app_assoc. eexists; reflexivity. }
  destruct DE as (R & DE).
  assert (S1 : sub_at b 20 (blen (r_key it)) = r_key it).
  { unfold b. rewrite (sub_l0 F D 20 _ eq_refl), DE. apply sub_here; reflexivity. }
  assert (S2 : sub_at b (20 + blen (r_key it)) (real_nbkey (fst bk)) = snd bk).
  { unfold b. rewrite (sub_l F D 20 _ _ eq_refl), DE. rewrite (sub_l0 (r_key it)) by reflexivity.
    apply sub_here; exact WB2. }
  assert (S3 : sub_at b (20 + blen (r_key it) + real_nbkey (fst bk)) (blen eflag) = eflag).
  { rewrite <- N.add_assoc. unfold b. rewrite (sub_l F D 20 _ _ eq_refl), DE.
    rewrite (sub_l (r_key it)) by reflexivity. rewrite (sub_l0 (snd bk)) by exact WB2. apply sub_here; reflexivity. }
  assert (S4 : sub_at b (20 + blen (r_key it) + real_nbkey (fst bk) + blen eflag) (blen value) = value).
  { rewrite <- !N.add_assoc. unfold b. rewrite (sub_l F D 20 _ _ eq_refl), DE.
    rewrite (sub_l (r_key it)) by reflexivity. rewrite (sub_l (snd bk)) by exact WB2.
    rewrite (sub_l0 eflag) by reflexivity. apply sub_here; reflexivity. }
  rewrite S1, S2, S3, S4.
  apply (with_create_ok jk); [exact W| | | |].
  - intros ->. exact HC.
  - intros ->. exists R. rewrite <- !(N.add_assoc). unfold b. rewrite (sub_l F D 20 _ _ eq_refl), DE.
    rewrite (sub_l (r_key it)) by reflexivity. rewrite (sub_l (snd bk)) by exact WB2.
    rewrite (sub_l eflag), (sub_l0 value) by reflexivity. rewrite attr_opt_true. reflexivity.
  - rewrite <- surjective_pairing. reflexivity.
  - intros e. rewrite <- surjective_pairing. reflexivity.
Qed.

Lemma bt_del_ok jk c c' rest it bk more drop :
  wf (OBtDel it bk more drop) ->
  redo c' (w_bt_del jk it bk more drop ++ rest) = Some (expected c c' (OBtDel it bk more drop)).
Proof.
  intros (W & (WB & WB')). assert (W2 : blen (r_key it) < 65536) by apply W.
  assert (WB2 : blen (snd bk) = real_nbkey (fst bk)) by exact WB'. clear WB'.
  unfold expected, w_bt_del. frame b F D.
  change (redo_bt_del b = Some (CBtDel (r_key it) bk drop)).
  unfold redo_bt_del. change (u8_at b 10) with (b2n drop). rewrite n2b_b2n.
  change (u8_at b 11) with (fst bk).
  read (u16_at b 8) as (blen (r_key it)) by exact (rd16 _ W2).
  assert (DE : exists R, D = r_key it ++ snd bk ++ R).
  { unfold D. rewrite (copy_all (r_key it)) by reflexivity. rewrite (copy_prefix (snd bk)) by exact WB2.
    rewrite <- !app_assoc. eexists; reflexivity. }
  destruct DE as (R & DE). do 2 f_equal.
  - unfold b. rewrite (sub_l0 F D 12 _ eq_refl), DE. apply sub_here; reflexivity.
  - unfold b. rewrite (sub_l F D 12 _ _ eq_refl), DE. rewrite (sub_l0 (r_key it)) by reflexivity.
    rewrite (sub_here (snd bk)) by exact WB2. symmetry. apply surjective_pairing.
Qed.

Lemma copy_nonempty p : (if 0 <? blen p then copy (blen p) p else []) = p.
Proof. destruct p as [|x p]; [reflexivity|]. cbn [N.ltb]. rewrite copy_all by reflexivity. reflexivity. Qed.

Lemma bt_lgc_ok jk c c' rest it from to ef offset count drop :
  wf (OBtLgc it from to ef offset count drop) ->
  redo c' (w_bt_lgc jk it from to ef offset count drop ++ rest) =
  Some (expected c c' (OBtLgc it from to ef offset count drop)).
Proof.
  intros (W & (WF & WF') & WT & WEF & WO & WC). assert (W2 : blen (r_key it) < 65536) by apply W.
  assert (WF2 : blen (snd from) = real_nbkey (fst from)) by exact WF'. clear WF'.
  unfold expected, w_bt_lgc. frame b F D.
  change (redo_bt_lgc b = Some (CBtLgc (r_key it) from to ef offset count drop)).
  unfold redo_bt_lgc. change (u8_at b 10) with (b2n drop). rewrite n2b_b2n.
  change (u8_at b 11) with (fst from). change (u8_at b 12) with (fst to).
  read (u16_at b 8) as (blen (r_key it)) by exact (rd16 _ W2).
  read (u32_at b 20) as offset by exact (rd32 _ WO).
  read (u32_at b 24) as count by exact (rd32 _ WC).
  set (tob := if negb (real_nbkey (fst to) =? BKEY_NULL) then snd to else []).
  assert (TB : blen tob = (if real_nbkey (fst to) =? BKEY_NULL then 0 else real_nbkey (fst to)) /\
               (if negb (real_nbkey (fst to) =? BKEY_NULL)
                then copy (real_nbkey (fst to)) (snd to) else []) = tob /\
               tob = snd to).
  { unfold tob. destruct WT as [->|[T1 T2]]; [repeat split; reflexivity|].
    assert (T2' : blen (snd to) = real_nbkey (fst to)) by exact T2.
    assert (NB : (real_nbkey (fst to) =? BKEY_NULL) = false).
    { apply N.eqb_neq. unfold real_nbkey, BKEY_NULL. destruct (N.eqb_spec (fst to) 0); lia. }
    rewrite NB. cbn [negb]. repeat split; [exact T2'|]. apply copy_all. exact T2'. }
  destruct TB as (T1 & T2 & T3).
  set (efb := match ef with None => [] | Some f => f_bitw f ++ f_comp f end).
  assert (DE : exists R, D = r_key it ++ snd from ++ tob ++ efb ++ R).
  { unfold D.
    repeat match goal with |- context [?x] =>
      match x with
      | (if negb (real_nbkey (fst to) =? BKEY_NULL) then copy _ _ else _) => replace x with tob by (symmetry; exact T2)
      end end.
    rewrite (copy_all (r_key it)) by reflexivity. rewrite (copy_all (snd from)) by exact WF2.
    unfold efb. destruct ef as [f|].
    - destruct WEF as (WE1 & WE2 & _).
      repeat match goal with |- context [?x] =>
        match x with
        | (if 0 <? blen (f_bitw f) then copy _ _ else _) =>
            replace x with (f_bitw f) by (symmetry; exact (copy_nonempty (f_bitw f)))
        end end.
      rewrite (copy_all (f_comp f)) by exact WE2. rewrite <- !app_assoc. eexists.
      rewrite <- (app_assoc (f_bitw f)). reflexivity.
    - rewrite <- !app_assoc. eexists; reflexivity. }
  destruct DE as (R & DE).
  assert (S1 : sub_at b 28 (blen (r_key it)) = r_key it).
  { unfold b. rewrite (sub_l0 F D 28 _ eq_refl), DE. apply sub_here; reflexivity. }
  assert (S2 : sub_at b (28 + blen (r_key it)) (real_nbkey (fst from)) = snd from).
  { unfold b. rewrite (sub_l F D 28 _ _ eq_refl), DE. rewrite (sub_l0 (r_key it)) by reflexivity.
    apply sub_here; exact WF2. }
  assert (S3 : (if negb (real_nbkey (fst to) =? BKEY_NULL)
                then sub_at b (28 + blen (r_key it) + real_nbkey (fst from)) (real_nbkey (fst to)) else []) = snd to).
  { unfold tob in T1, T3. destruct (negb (real_nbkey (fst to) =? BKEY_NULL)) eqn:NB; [|exact T3].
    apply negb_true_iff in NB. rewrite NB in T1.
    rewrite <- N.add_assoc. unfold b. rewrite (sub_l F D 28 _ _ eq_refl), DE.
    rewrite (sub_l (r_key it)) by reflexivity. rewrite (sub_l0 (snd from)) by exact WF2.
    unfold tob. try rewrite NB. cbn [negb]. apply sub_here. exact T1. }
  rewrite S1, S2, S3, <- !surjective_pairing. do 2 f_equal.
  destruct ef as [f|]; [|reflexivity].
  destruct WEF as (WE1 & WE2 & _).
  change (u8_at b 13) with 1. change (u8_at b 14) with (blen (f_bitw f)). change (u8_at b 15) with (f_ncomp f).
  change (u8_at b 16) with (f_cnt f). change (u8_at b 17) with (f_off f). change (u8_at b 18) with (f_bitwop f).
  change (u8_at b 19) with (f_compop f). cbn [n2b N.eqb negb].
  rewrite <- T1. unfold efb in DE.
  assert (S4 : sub_at b (28 + blen (r_key it) + real_nbkey (fst from) + blen tob) (blen (f_bitw f)) = f_bitw f).
  { rewrite <- !N.add_assoc. unfold b. rewrite (sub_l F D 28 _ _ eq_refl), DE.
    rewrite (sub_l (r_key it)) by reflexivity. rewrite (sub_l (snd from)) by exact WF2.
    rewrite (sub_l0 tob) by reflexivity. rewrite <- app_assoc. apply sub_here; reflexivity. }
  assert (S5 : sub_at b (28 + blen (r_key it) + real_nbkey (fst from) + blen tob + blen (f_bitw f))
                 (f_cnt f * f_ncomp f) = f_comp f).
  { rewrite <- !N.add_assoc. unfold b. rewrite (sub_l F D 28 _ _ eq_refl), DE.
    rewrite (sub_l (r_key it)) by reflexivity. rewrite (sub_l (snd from)) by exact WF2.
    rewrite (sub_l tob) by reflexivity. rewrite <- app_assoc. rewrite (sub_l0 (f_bitw f)) by reflexivity.
    apply sub_here; exact WE2. }
  rewrite S4, S5. destruct f; reflexivity.
Qed.

Theorem round_trip jk c c' o rest : wf o -> timed c c' o ->
  redo c' (write jk c o ++ rest) = Some (expected c c' o).
Proof.
  destruct o; intros W HT; cbn [write].
  - apply link_ok; assumption.
  - apply unlink_ok; assumption.
  - apply setexp_ok; assumption.
  - apply setinfo_ok; assumption.
  - destruct W as (W & Z). apply setrange_ok; assumption.
  - apply flush_ok; assumption.
  - apply list_ins_ok; assumption.
  - apply list_del_ok; assumption.
  - apply set_ins_ok; assumption.
  - apply set_del_ok; assumption.
  - apply map_ins_ok; assumption.
  - apply map_del_ok; assumption.
  - apply bt_ins_ok; assumption.
  - apply bt_del_ok; assumption.
  - apply bt_lgc_ok; assumption.
  - reflexivity.
  - reflexivity.
Qed.

(* framing *)
Lemma align8_spec n : n <= align8 n <= n + 7 /\ align8 n mod 8 = 0.
Proof. unfold align8. destruct (N.eqb_spec (n mod 8) 0) as [E|E]; split; lia. Qed.

Lemma blen_copy n p : blen (copy n p) <= n.
Proof. unfold blen, copy. rewrite firstn_length. lia. Qed.

Lemma put_frame jk ty upd bl fx dt : bl < 4294967296 -> blen fx + blen dt <= bl ->
  blen (put jk ty upd bl fx dt) = 8 + bl /\ u32_at (put jk ty upd bl fx dt) 4 = bl.
Proof.
  intros H L. split.
  - unfold put. rewrite !blen_app. unfold blen in *. rewrite map_length, seq_length. cbn [length le32]. lia.
  - unfold put. exact (rd32 bl H).
Qed.

Definition framed (b : bytes) : Prop := blen b = 8 + u32_at b 4 /\ u32_at b 4 mod 8 = 0.

Lemma put_framed jk ty upd bl fx dt : bl < 4294967296 -> bl mod 8 = 0 -> blen fx + blen dt <= bl ->
  framed (put jk ty upd bl fx dt).
Proof. intros H M L. unfold framed. destruct (put_frame jk ty upd bl fx dt H L) as (-> & ->). split; [reflexivity|exact M]. Qed.

Lemma attr_opt_len jk c it create : blen (attr_opt jk c it create) = attr_len create.
Proof. destruct create; reflexivity. Qed.
Lemma attr_len_ok create : attr_len create mod 8 = 0 /\ attr_len create <= 16.
Proof. destruct create; split; cbn; lia. Qed.
Lemma blen_le16 n : blen (le16 n) = 2. Proof. reflexivity. Qed.
Lemma blen_le32 n : blen (le32 n) = 4. Proof. reflexivity. Qed.
Lemma blen_le64 n : blen (le64 n) = 8. Proof. reflexivity. Qed.
Lemma blen_cons x (l : bytes) : blen (x :: l) = 1 + blen l.
Proof. unfold blen. cbn [length]. lia. Qed.
Lemma blen_nil : blen [] = 0. Proof. reflexivity. Qed.

Ltac sizes :=
  repeat rewrite blen_app; repeat rewrite blen_le16; repeat rewrite blen_le32; repeat rewrite blen_le64;
  repeat rewrite attr_opt_len; repeat rewrite blen_cons; repeat rewrite blen_nil;
  repeat match goal with
  | |- context [align8 ?n] =>
      lazymatch goal with H : n <= align8 n <= n + 7 /\ _ |- _ => fail | _ => pose proof (align8_spec n) end
  | |- context [blen (copy ?n ?p)] =>
      lazymatch goal with H : blen (copy n p) <= n |- _ => fail | _ => pose proof (blen_copy n p) end
  | |- context [attr_len ?c] =>
      lazymatch goal with H : attr_len c mod 8 = 0 /\ _ |- _ => fail | _ => pose proof (attr_len_ok c) end
  end.

Lemma real_nbkey_ok n : n <= 31 \/ n = 255 -> real_nbkey n <= 255.
Proof. unfold real_nbkey. destruct (N.eqb_spec n 0); lia. Qed.

Theorem write_framed jk c o : wf o -> framed (write jk c o).
Proof.
  assert (RB : forall it, wf_item it -> real_nbkey (fst (r_maxbkr it)) <= 255).
  { intros it (_ & _ & _ & _ & _ & _ & _ & W). apply real_nbkey_ok.
    destruct W as [->|(W & _)]; [right; reflexivity|left; exact W]. }
  destruct o; intros W; cbn [write].
  - assert (R := RB _ W). destruct W as (W1 & W2 & W3 & _). unfold w_link. cbv zeta. apply put_framed.
    + destruct (r_type it =? 0); cbn [negb andb]; destruct (r_type it =? 4);
        destruct (fst (r_maxbkr it) =? BKEY_NULL); cbn [negb N.eqb Pos.eqb BKEY_NULL]; sizes; lia.
    + sizes. lia.
    + destruct (N.eqb_spec (r_type it) 0) as [E|E].
      * rewrite E. cbn [N.eqb Pos.eqb negb andb]. sizes. lia.
      * destruct (r_type it =? 4) eqn:E4; cbn [negb andb].
        -- destruct (fst (r_maxbkr it) =? BKEY_NULL) eqn:EN; cbn [negb]; sizes; lia.
        -- change (BKEY_NULL =? BKEY_NULL) with true. cbn [negb]. sizes. lia.
  - destruct W as (W1 & W2 & _). unfold w_unlink. cbv zeta. apply put_framed; sizes; lia.
  - destruct W as (W1 & W2 & _). unfold w_setattr. cbv zeta. cbn [N.eqb Pos.eqb orb negb BKEY_NULL].
    apply put_framed; sizes; lia.
  - destruct W as (W1 & W2 & _). unfold w_setattr. cbv zeta. cbn [N.eqb Pos.eqb orb negb BKEY_NULL].
    apply put_framed; sizes; lia.
  - destruct W as (W & _). assert (R := RB _ W). destruct W as (W1 & W2 & _).
    unfold w_setattr. cbv zeta. cbn [N.eqb Pos.eqb orb].
    destruct (fst (r_maxbkr it) =? BKEY_NULL); cbn [negb]; apply put_framed; sizes; lia.
  - unfold w_flush. cbv zeta. destruct p as [p|]; [|apply put_framed; cbn; lia].
    cbn [wf] in W. apply put_framed; sizes; try lia.
    destruct ((0 <? blen p mod 256) && (blen p mod 256 <? 255)); sizes; lia.
  - destruct W as ((W1 & W2 & _) & WT & WI & WV). unfold small in WV. unfold w_list_ins. cbv zeta.
    apply put_framed; sizes; lia.
  - destruct W as ((W1 & W2 & _) & _). unfold w_list_del. cbv zeta. apply put_framed; sizes; lia.
  - destruct W as ((W1 & W2 & _) & WV). unfold small in WV. unfold w_set_ins. cbv zeta. apply put_framed; sizes; lia.
  - destruct W as ((W1 & W2 & _) & WV). unfold small in WV. unfold w_set_del. cbv zeta. apply put_framed; sizes; lia.
  - destruct W as ((W1 & W2 & _) & WF & WV). unfold small in WV. unfold w_map_ins. cbv zeta. apply put_framed; sizes; lia.
  - destruct W as ((W1 & W2 & _) & WF & WV). unfold small in WV. unfold w_map_del. cbv zeta. apply put_framed; sizes; lia.
  - destruct W as ((W1 & W2 & _) & (WB & _) & WE & WV). unfold small in WV.
    pose proof (real_nbkey_ok _ (or_introl WB)). unfold w_bt_ins. cbv zeta. apply put_framed; sizes; lia.
  - destruct W as ((W1 & W2 & _) & (WB & _)).
    pose proof (real_nbkey_ok _ (or_introl WB)). unfold w_bt_del. cbv zeta. apply put_framed; sizes; lia.
  - destruct W as ((W1 & W2 & _) & (WF & _) & WT & WEF & WO & WC).
    pose proof (real_nbkey_ok _ (or_introl WF)).
    assert (real_nbkey (fst to) <= 255).
    { apply real_nbkey_ok. destruct WT as [->|(WT & _)]; [right; reflexivity|left; exact WT]. }
    unfold w_bt_lgc. cbv zeta.
    destruct ef as [f|].
    + destruct WEF as (E1 & E2 & E3 & E4).
      assert (f_cnt f * f_ncomp f <= 65025) by (change 65025 with (255 * 255); apply N.mul_le_mono; lia).
      apply put_framed.
      * destruct (real_nbkey (fst to) =? BKEY_NULL); sizes; lia.
      * sizes; lia.
      * destruct (real_nbkey (fst to) =? BKEY_NULL); destruct (0 <? blen (f_bitw f)); cbn [negb]; sizes; lia.
    + apply put_framed.
      * destruct (real_nbkey (fst to) =? BKEY_NULL); sizes; lia.
      * sizes; lia.
      * destruct (real_nbkey (fst to) =? BKEY_NULL); cbn [negb]; sizes; lia.
  - split; reflexivity.
  - split; reflexivity.
Qed.

(* snapshot elements *)
Definition snap_data (ty : N) (ekey eflag value : bytes) : bytes :=
  if ty =? 3 then ekey ++ value else if ty =? 4 then ekey ++ eflag ++ value else value.

Lemma set_item_nth x p k : (k < 24)%nat -> (24 <= length x)%nat -> nth k (set_item x p) 0 = nth k x 0.
Proof.
  intros H L. unfold set_item. rewrite app_nth1 by (rewrite firstn_length; lia).
  rewrite <- (firstn_skipn 24 x) at 2. rewrite app_nth1 by (rewrite firstn_length; lia). reflexivity.
Qed.

Lemma set_item_sub x p o n : o + n <= 24 -> (24 <= length x)%nat -> sub_at (set_item x p) o n = sub_at x o n.
Proof.
  intros H L. unfold set_item, sub_at.
  rewrite <- (firstn_skipn 24 x) at 3.
  rewrite !skipn_app, !firstn_app, !skipn_length, !firstn_length.
  replace (N.to_nat n - (Nat.min 24 (length x) - N.to_nat o))%nat with 0%nat by lia.
  rewrite !firstn_O, !app_nil_r. reflexivity.
Qed.

(* the bytes 24..31 of the record become the address of the collection *)
Lemma set_item_window x p n : (32 <= length x)%nat -> 24 <= n ->
  sub_at (set_item x p) 14 (n - 14) =
  sub_at x 14 10 ++ firstn (N.to_nat (n - 24)) (le64 p ++ skipn 32 x).
Proof.
  intros L H. unfold set_item, sub_at.
  rewrite skipn_app, firstn_app, skipn_length, firstn_length.
  replace (N.to_nat 14 - Nat.min 24 (length x))%nat with 0%nat by lia. cbn [skipn].
  rewrite firstn_all2 by (rewrite skipn_length, firstn_length; lia).
  change (firstn 24 x) with (firstn (N.to_nat 14 + N.to_nat 10) x). rewrite <- firstn_skipn_comm.
  replace (N.to_nat (n - 14) - (Nat.min 24 (length x) - N.to_nat 14))%nat with (N.to_nat (n - 24)) by lia.
  reflexivity.
Qed.
