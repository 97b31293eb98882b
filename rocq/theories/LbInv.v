(* The invariant relating the log buffer, the files and the required contents. *)
From Verif Require Import Base LbModel LbSpec LbProofs.
Open Scope N_scope.

Definition flyn (p : phase) : N := match p with Idle => 0 | Picked n _ _ | Ready n _ | Written n => n end.
Definition pc (p : phase) : option N := match p with Picked _ _ c => c | _ => None end.

(* the requests whose data is not in the file yet, with the flag the flusher uses *)
Definition eff (p : phase) (ea : list ent) : list ent :=
  match p with
  | Idle => ea
  | Picked n d _ | Ready n d => if 0 <? n then match ea with e :: t => (fst e, d) :: t | [] => [] end else ea
  | Written _ => tl ea
  end.
Definition fly (p : phase) (ea : list ent) : Prop :=
  match p with
  | Idle => True
  | Picked n _ _ | Ready n _ => n = 0 \/ exists b d t, ea = (b, d) :: t /\ len b = n /\ n <> 0
  | Written n => exists b d t, ea = (b, d) :: t /\ len b = n /\ n <> 0
  end.

Lemma eff_app p ea new : fly p ea -> eff p (ea ++ new) = eff p ea ++ new.
Proof.
  destruct p as [|n d c|n d|n]; cbn [fly eff]; intro H; [reflexivity| | |].
  - destruct H as [->|(b & d' & t & -> & _)]; [reflexivity|]. destruct (0 <? n); reflexivity.
  - destruct H as [->|(b & d' & t & -> & _)]; [reflexivity|]. destruct (0 <? n); reflexivity.
  - destruct H as (b & d' & t & -> & _). reflexivity.
Qed.
Lemma fly_app p ea new : fly p ea -> fly p (ea ++ new).
Proof.
  destruct p as [|n d c|n d|n]; cbn [fly]; intro H; [exact H| | |].
  - destruct H as [->|(b & d' & t & -> & H)]; [auto|]. right. exists b, d', (t ++ new). auto.
  - destruct H as [->|(b & d' & t & -> & H)]; [auto|]. right. exists b, d', (t ++ new). auto.
  - destruct H as (b & d' & t & -> & H). exists b, d', (t ++ new). auto.
Qed.
Lemma eff_single p ea s : b_ph s = p -> flying s = false -> single ea -> single (eff p ea).
Proof.
  unfold flying. intros -> F H. destruct p as [|n d c|n d|n]; cbn [eff]; [exact H| | |].
  - destruct (0 <? n); [|exact H]. cbn in F. subst d. inversion H; subst; [constructor|constructor; [reflexivity|assumption]].
  - destruct (0 <? n); [|exact H]. cbn in F. subst d. inversion H; subst; [constructor|constructor; [reflexivity|assumption]].
  - inversion H; subst; [constructor|assumption].
Qed.
Lemma eff_cat p ea : fly p ea -> 
  cat ea = (match p with Written n => firstn (N.to_nat n) (cat ea) | _ => [] end) ++ cat (eff p ea).
Proof.
  destruct p as [|n d c|n d|n]; cbn [eff fly]; intro H; [reflexivity| | |].
  - destruct H as [->|(b & d' & t & -> & _)]; [reflexivity|]. destruct (0 <? n); reflexivity.
  - destruct H as [->|(b & d' & t & -> & _)]; [reflexivity|]. destruct (0 <? n); reflexivity.
  - destruct H as (b & d' & t & -> & <- & _). cbn [cat fst tl]. rewrite Nat2N.id, firstn_app, Nat.sub_diag, firstn_all, app_nil_r. reflexivity.
Qed.
Lemma eff_unf p ea : cat (eff p (unf ea)) = cat (eff p ea).
Proof.
  destruct p as [|n d c|n d|n]; cbn [eff]; try apply unf_cat.
  - destruct (0 <? n); [|apply unf_cat]. destruct ea; [reflexivity|]. cbn. f_equal. apply unf_cat.
  - destruct (0 <? n); [|apply unf_cat]. destruct ea; [reflexivity|]. cbn. f_equal. apply unf_cat.
  - destruct ea; [reflexivity|]. apply unf_cat.
Qed.
Lemma fly_unf p ea : fly p ea -> fly p (unf ea).
Proof.
  destruct p as [|n d c|n d|n]; cbn [fly]; intro H; [exact H| | |].
  - destruct H as [->|(b & d' & t & -> & H)]; [auto|]. right. exists b, false, (unf t). auto.
  - destruct H as [->|(b & d' & t & -> & H)]; [auto|]. right. exists b, false, (unf t). auto.
  - destruct H as (b & d' & t & -> & H). exists b, false, (unf t). auto.
Qed.

Section Sizes.
  Variable SZ FQ : N.
  Hypothesis FQ2 : 2 <= FQ.
  Hypothesis SZ1 : 0 < SZ.

  Definition rrel (r : ring) (es : list ent) (ob : bytes) : Prop :=
    match r_last r with
    | None => r_head r <= r_tail r /\ r_tail r < SZ /\ slice (r_mem r) (r_head r) (r_tail r - r_head r) = cat es ++ ob
    | Some l => exists e1 e2, es = e1 ++ e2 /\ r_head r <= l /\ l < SZ /\ r_tail r < r_head r /\
                  slice (r_mem r) (r_head r) (l - r_head r) = cat e1 /\ slice (r_mem r) 0 (r_tail r) = cat e2 ++ ob
    end.
  Definition front (r : ring) (n : N) : Prop := 0 < n -> forall l, r_last r = Some l -> r_head r < l.
  Definition place (r : ring) (n : N) : Prop :=
    match r_last r with None => r_tail r + n < SZ | Some _ => r_tail r + n < r_head r end.

  Lemma find_pos_rel r q es ob od rl n : qrel FQ q es ob od -> rrel r es ob -> len es + 1 < FQ -> front r n ->
    (0 < n -> es <> []) ->
    exists r' q' ok new ob' od', find_pos SZ FQ r q rl = (r', q', false, ok) /\
      qrel FQ q' (es ++ new) ob' od' /\ rrel r' (es ++ new) ob' /\ front r' n /\ (ok = true -> place r' rl) /\
      cat new ++ ob' = ob /\ duals (new ++ [(ob', od')]) = duals [(ob, od)] /\ (nd ob od -> single new /\ nd ob' od') /\
      len new <= 1 /\ q_bgn q' = q_bgn q /\ q_dw q' = q_dw q /\ q_dwsize q' = q_dwsize q /\ r_mem r' = r_mem r.
  Proof.
    intros Q R LE F NE. unfold find_pos.
    assert (SAME : forall b ok, (b = false) -> (ok = true -> place r rl) -> exists r' q' ok' new ob' od', (r, q, b, ok) = (r', q', false, ok') /\
      qrel FQ q' (es ++ new) ob' od' /\ rrel r' (es ++ new) ob' /\ front r' n /\ (ok' = true -> place r' rl) /\
      cat new ++ ob' = ob /\ duals (new ++ [(ob', od')]) = duals [(ob, od)] /\ (nd ob od -> single new /\ nd ob' od') /\
      len new <= 1 /\ q_bgn q' = q_bgn q /\ q_dw q' = q_dw q /\ q_dwsize q' = q_dwsize q /\ r_mem r' = r_mem r).
    { intros b ok -> P. exists r, q, ok, [], ob, od. rewrite app_nil_r. split; [reflexivity|]. split; [exact Q|]. split; [exact R|]. split; [exact F|].
      split; [exact P|]. split; [reflexivity|]. split; [reflexivity|]. split; [intro X; split; [constructor|exact X]|]. split; [cbn; lia|]. auto. }
    destruct (N.leb_spec (r_head r) (r_tail r)) as [HT|HT].
    - unfold rrel in R. destruct (r_last r) as [l|] eqn:RL; [destruct R as (e1 & e2 & _ & _ & _ & H & _); lia|].
      destruct R as (R1 & R2 & R3).
      destruct (N.ltb_spec rl (SZ - r_tail r)) as [W|W].
      { apply SAME; [reflexivity|]. intros _. unfold place. rewrite RL. lia. }
      destruct (N.ltb_spec 0 (r_head r)) as [H0|H0]; [|apply SAME; [reflexivity|discriminate]].
      destruct (close_open_q FQ FQ2 q es ob od Q LE) as (new & C1 & C2 & C3 & C4 & C5 & C6 & C7).
      eexists _, _, _, new, [], false. split; [reflexivity|]. split; [exact C1|]. split; [|split; [|split]].
      + unfold rrel. cbn [r_last r_head r_tail r_mem]. exists (es ++ new), []. rewrite app_nil_r, slice_0, cat_app, C2. auto 10.
      + intros N0 l E. cbn [r_last r_head] in *. injection E as <-. 
        assert (NN : cat es <> []).
        { destruct es as [|e es']; [exfalso; exact (NE N0 eq_refl)|]. destruct Q as (_ & _ & _ & I & _). destruct (I 0%nat e eq_refl) as [_ X]. cbn. destruct (fst e); [congruence|discriminate]. }
        assert (r_tail r - r_head r <> 0); [|lia]. intro X. rewrite X, slice_0 in R3. symmetry in R3. apply app_eq_nil in R3. tauto.
      + intro X. apply N.ltb_lt in X. unfold place. cbn. lia.
      + rewrite app_nil_r. split; [exact C2|]. split; [rewrite duals_app; cbn [duals snd app]; rewrite app_nil_r; exact C3|].
        split. { intro X. split; [|intro Y; congruence]. destruct C4 as [->| ->]; [constructor|]. constructor; [|constructor]. cbn. 
                 destruct ob as [|x ob]; [|apply X; discriminate]. exfalso. clear -C2 C3 C1 LE. 
                 destruct C1 as (_ & _ & _ & I & _). destruct (I (length es) ([], od)) as [_ Z]; [rewrite nth_error_app2 by lia; rewrite Nat.sub_diag; reflexivity|]. apply Z. reflexivity. }
        split; [destruct C4 as [->| ->]; cbn; lia|]. auto.
    - unfold rrel in R. destruct (r_last r) as [l|] eqn:RL; [|lia].
      apply SAME; [reflexivity|]. intro X. apply N.ltb_lt in X. unfold place. rewrite RL. lia.
  Qed.

  Lemma put_rel r es ob new ob' rec : rrel r es ob -> place r (len rec) -> cat new ++ ob' = ob ++ rec ->
    rrel {| r_mem := blit (r_mem r) (r_tail r) rec; r_head := r_head r; r_tail := r_tail r + len rec; r_last := r_last r |} (es ++ new) ob'.
  Proof.
    unfold rrel, place. cbn [r_last r_head r_tail r_mem]. destruct (r_last r) as [l|].
    - intros (e1 & e2 & -> & H1 & H2 & H3 & H4 & H5) P C. exists e1, (e2 ++ new). rewrite app_assoc. split; [reflexivity|]. split; [exact H1|]. split; [exact H2|]. split; [exact P|].
      split; [rewrite slice_blit_other by lia; exact H4|].
      rewrite slice_app, N.add_0_l, slice_blit, slice_blit_other by lia. rewrite H5, cat_app, <- !app_assoc, C. reflexivity.
    - intros (H1 & H2 & H3) P C. split; [lia|]. split; [exact P|].
      replace (r_tail r + len rec - r_head r) with ((r_tail r - r_head r) + len rec) by lia. rewrite slice_app.
      replace (r_head r + (r_tail r - r_head r)) with (r_tail r) by lia. rewrite slice_blit, slice_blit_other by lia.
      rewrite H3, cat_app, <- !app_assoc, C. reflexivity.
  Qed.

  Definition lsn_add (a : lsn) (n : N) : lsn := (fst a, snd a + n).

  (* the part that depends on the progress of a checkpoint; [ea]: the requests before the mark of a
     finished dual write, [eb]: the requests after it, [m]: there is a mark *)
  Definition mrel (s : lb) (w : want) (ea eb : list ent) (m : bool) (ob : bytes) (od : bool) : Prop :=
    let p := b_ph s in let f := b_file s in let e := eff p ea in let L := b_lsn s in
    match w_mode w with
    | Normal => m = false /\ pc p = None /\ f_next f = None /\ single ea /\ nd ob od /\
        cur_file s ++ cat e ++ ob = w_cur w /\ q_dwsize (b_que s) = 0 /\ l_write L = lsn_add (l_flush L) (len (cat e ++ ob))
    | Active => m = false /\ pc p = None /\ (exists nx, f_next f = Some nx /\ f_data f nx ++ duals (e ++ [(ob, od)]) = w_next w) /\
        cur_file s ++ cat e ++ ob = w_cur w /\ q_dwsize (b_que s) = len (w_next w) /\ l_write L = lsn_add (l_flush L) (len (cat e ++ ob))
    | Failed => m = false /\ pc p = None /\ (exists nx, f_next f = Some nx) /\ single ea /\ nd ob od /\
        cur_file s ++ cat e ++ ob = w_cur w /\ q_dwsize (b_que s) = 0 /\ l_write L = lsn_add (l_flush L) (len (cat e ++ ob))
    | Switching =>
        (m = true /\ pc p = None /\ single eb /\ nd ob od /\ exists nx, f_next f = Some nx /\
           cur_file s ++ cat e = w_old w /\ (f_data f nx ++ duals e) ++ cat eb ++ ob = w_cur w /\
           q_dwsize (b_que s) = len (f_data f nx ++ duals e) /\
           l_write L = lsn_add (fst (l_flush L) + 1, q_dwsize (b_que s)) (len (cat eb ++ ob))) \/
        (m = false /\ single ea /\ nd ob od /\ flying s = false /\ exists wd nx, pc p = Some wd /\ f_next f = Some nx /\
           cur_file s = w_old w /\ f_data f nx ++ cat ea ++ ob = w_cur w /\ wd = len (f_data f nx) /\ q_dwsize (b_que s) = 0 /\
           l_write L = lsn_add (fst (l_flush L) + 1, wd) (len (cat ea ++ ob))) \/
        (m = false /\ single ea /\ nd ob od /\ flying s = false /\ pc p = None /\ f_next f = None /\
           cur_file s ++ cat e ++ ob = w_cur w /\ q_dwsize (b_que s) = 0 /\ l_write L = lsn_add (l_flush L) (len (cat e ++ ob)))
    end.

  Definition clean_file (f : files) : Prop :=
    f_nsize f = match f_next f with Some nx => len (f_data f nx) | None => 0 end.

  Definition inv (cl : bool) (s : lb) (w : want) (ea eb : list ent) (m : bool) (ob : bytes) (od : bool) : Prop :=
    qrel FQ (b_que s) (ea ++ eb) ob od /\
    q_dw (b_que s) = (if m then Some (idx FQ (q_bgn (b_que s)) (length ea)) else None) /\ (m = false -> eb = []) /\
    rrel (b_ring s) (ea ++ eb) ob /\ front (b_ring s) (flyn (b_ph s)) /\ fly (b_ph s) ea /\
    f_fd (b_file s) < f_new (b_file s) /\
    (forall nx, f_next (b_file s) = Some nx -> nx < f_new (b_file s) /\ nx <> f_fd (b_file s)) /\
    (cl = true -> b_bad s = false /\ clean_file (b_file s)) /\
    mrel s w ea eb m ob od.
  Definition Inv (cl : bool) (s : lb) (w : want) : Prop := exists ea eb m ob od, inv cl s w ea eb m ob od.

  Lemma fly_ne p ea : fly p ea -> 0 < flyn p -> ea <> [].
  Proof.
    destruct p as [|n d c|n d|n]; cbn; intros H N0; [lia| | |].
    - destruct H as [->|(b & d' & t & -> & _)]; [lia|discriminate].
    - destruct H as [->|(b & d' & t & -> & _)]; [lia|discriminate].
    - destruct H as (b & d' & t & -> & _). discriminate.
  Qed.

  Lemma inv_init cl m old : Inv cl (linit m old) (w0 old).
  Proof.
    exists [], [], false, [], false. unfold inv. cbn [app].
    split; [|split; [reflexivity|split; [reflexivity|]]].
    - split; [cbn; lia|]. split; [cbn; lia|]. split; [reflexivity|]. split; [intros [] e H; discriminate|].
      split; [reflexivity|]. split; [reflexivity|]. split; [congruence|reflexivity].
    - split; [cbn; split; [lia|]; split; [exact SZ1|reflexivity]|]. split; [cbn; intro; lia|]. split; [exact Logic.I|]. split; [reflexivity|]. split; [discriminate|].
      split; [intros _; split; reflexivity|]. cbn. split; [reflexivity|]. split; [reflexivity|]. split; [reflexivity|]. split; [constructor|]. split; [intro X; congruence|].
      split; [apply app_nil_r|]. split; reflexivity.
  Qed.

  (* ---------- Write ---------- *)
  Lemma inv_write cl s w rec d : Inv cl s w -> allowed SZ FQ (Write rec d) s w ->
    Inv cl (fst (try_write SZ FQ rec d s)) (wstep (Write rec d) (snd (try_write SZ FQ rec d s)) w).
  Proof.
    intros (ea & eb & m & ob & od & Q & DW & ME & R & F & FL & I7 & I8 & CL & M) (NR & DA & RM & LS).
    rewrite (qrel_used FQ FQ2 _ _ _ _ s eq_refl Q) in RM.
    assert (DN : 0 <= len rec / AUTO) by apply N.le_0_l.
    destruct (find_pos_rel (b_ring s) (b_que s) (ea ++ eb) ob od (len rec) (flyn (b_ph s)) Q R ltac:(lia) F) as
      (r' & q' & ok & n1 & ob1 & od1 & FP & Q1 & R1 & F1 & P1 & C1 & D1 & S1 & L1 & B1 & W1 & Z1 & _).
    { intros N0 E. apply app_eq_nil in E. apply (fly_ne _ _ FL N0). tauto. }
    unfold try_write. rewrite FP. rewrite orb_false_r.
    assert (NB : negb (len rec <? SZ) = false) by (destruct (N.ltb_spec (len rec) SZ); [reflexivity|lia]). rewrite NB, orb_false_r.
    destruct ok; cbn [fst snd].
    - (* the record is in the buffer *)
      set (q1 := {| q_at := q_at q'; q_bgn := q_bgn q'; q_end := q_end q'; q_dw := q_dw q'; q_dwsize := if d then q_dwsize q' + len rec else q_dwsize q' |}).
      assert (Q2 : qrel FQ q1 ((ea ++ eb) ++ n1) ob1 od1) by exact Q1.
      destruct (write_q FQ FQ2 q1 _ ob1 od1 rec d (S (S (N.to_nat (len rec / AUTO)))) Q2 NR) as (n2 & ob2 & od2 & Q3 & C2 & D2 & S2 & B2 & W2 & Z2).
      { rewrite len_app. lia. }
      { reflexivity. }
      fold (flip FQ q1 d).
      pose proof (put_rel r' _ ob1 n2 ob2 rec R1 (P1 eq_refl) C2) as R3.
      set (q3 := enqueue FQ (S (S (N.to_nat (len rec / AUTO)))) (flip FQ q1 d) (len rec) d) in *.
      set (new := n1 ++ n2).
      assert (CN : cat new ++ ob2 = ob ++ rec) by (unfold new; rewrite cat_app, <- app_assoc, C2, app_assoc, C1; reflexivity).
      assert (DNN : duals (new ++ [(ob2, od2)]) = duals [(ob, od)] ++ (if d then rec else [])).
      { unfold new. rewrite <- app_assoc, duals_app, D2, app_assoc. rewrite <- duals_app, D1. reflexivity. }
      assert (CE2 : forall e, cat (e ++ new) ++ ob2 = (cat e ++ ob) ++ rec) by (intro e; rewrite cat_app, <- app_assoc, CN, app_assoc; reflexivity).
      assert (SN : d = false -> nd ob od -> single new /\ nd ob2 od2).
      { intros d0 X. destruct (S1 X) as [X1 X2]. destruct (S2 d0 X2) as [X3 X4]. split; [apply single_app; split; assumption|exact X4]. }
      assert (LW : len (cat new ++ ob2) = len ob + len rec) by (rewrite CN, len_app; reflexivity).
      exists (if m then ea else ea ++ new), (if m then eb ++ new else eb), m, ob2, od2.
      assert (EQ : (if m then ea else ea ++ new) ++ (if m then eb ++ new else eb) = ((ea ++ eb) ++ n1) ++ n2).
      { destruct m; [unfold new; rewrite !app_assoc; reflexivity|]. rewrite (ME eq_refl), !app_nil_r. unfold new. rewrite !app_assoc. reflexivity. }
      unfold inv. rewrite EQ. cbn [b_que b_ring b_ph b_file b_bad]. split; [exact Q3|]. split; [|split; [|split; [exact R3|split; [exact F1|split; [|split; [exact I7|split; [exact I8|split; [exact CL|]]]]]]]].
      + rewrite W2, B2. change (q_dw q1) with (q_dw q'). change (q_bgn q1) with (q_bgn q'). rewrite W1, B1, DW. destruct m; reflexivity.
      + destruct m; [discriminate|exact ME].
      + destruct m; [exact FL|apply fly_app, FL].
      + assert (DS : q_dwsize q3 = if d then q_dwsize (b_que s) + len rec else q_dwsize (b_que s)).
        { rewrite Z2. change (q_dwsize q1) with (if d then q_dwsize q' + len rec else q_dwsize q'). rewrite Z1. reflexivity. }
        unfold mrel in *. cbn [b_ph b_file b_lsn b_que wstep w_mode l_write l_flush w_cur w_next w_old]. unfold cur_file in *. cbn [b_file] in *.
        destruct (w_mode w) eqn:MO.
        * destruct d; [discriminate (DA eq_refl)|]. destruct M as (-> & M1 & M2 & M3 & M4 & M5 & M6 & M7). destruct (SN eq_refl M4) as [N1 N2].
          rewrite eff_app by exact FL. split; [reflexivity|]. split; [exact M1|]. split; [exact M2|]. split; [apply single_app; auto|]. split; [exact N2|].
          split; [rewrite CE2, <- M5, <- !app_assoc; reflexivity|]. split; [rewrite DS; exact M6|].
          rewrite CE2, M7. unfold lsn_add. cbn [fst snd]. rewrite !len_app. f_equal. lia.
        * destruct M as (-> & M1 & (nx & M2 & M3) & M4 & M5 & M6). rewrite eff_app by exact FL. split; [reflexivity|]. split; [exact M1|].
          split. { exists nx. split; [exact M2|]. rewrite <- app_assoc, duals_app, DNN. destruct d; [|rewrite app_nil_r]; rewrite <- M3, ?duals_app, <- ?app_assoc; reflexivity. }
          split; [rewrite CE2, <- M4, <- !app_assoc; reflexivity|]. split; [rewrite DS, M5; destruct d; [rewrite len_app|]; reflexivity|].
          rewrite CE2, M6. unfold lsn_add. cbn [fst snd]. rewrite !len_app. f_equal. lia.
        * destruct d; [discriminate (DA eq_refl)|]. destruct M as [(-> & M1 & M2 & M3 & nx & M4 & M5 & M6 & M7 & M8)|[(-> & M1 & M2 & M3 & wd & nx & M4 & M5 & M6 & M7 & M8 & M9 & M10)|(-> & M1 & M2 & M3 & M4 & M5 & M6 & M7 & M8)]].
          { left. destruct (SN eq_refl M3) as [N1 N2]. split; [reflexivity|]. split; [exact M1|]. split; [apply single_app; auto|]. split; [exact N2|]. exists nx. split; [exact M4|]. split; [exact M5|].
            split; [rewrite CE2, <- M6, <- !app_assoc; reflexivity|]. split; [rewrite DS; exact M7|].
            rewrite CE2, M8, DS. unfold lsn_add. cbn [fst snd]. rewrite !len_app. f_equal. lia. }
          { right; left. destruct (SN eq_refl M2) as [N1 N2]. split; [reflexivity|]. split; [apply single_app; auto|]. split; [exact N2|]. split; [exact M3|]. exists wd, nx.
            split; [exact M4|]. split; [exact M5|]. split; [exact M6|]. split; [rewrite CE2, <- M7, <- !app_assoc; reflexivity|]. split; [exact M8|]. split; [rewrite DS; exact M9|].
            rewrite CE2, M10. unfold lsn_add. cbn [fst snd]. rewrite !len_app. f_equal. lia. }
          { right; right. destruct (SN eq_refl M2) as [N1 N2]. rewrite eff_app by exact FL. split; [reflexivity|]. split; [apply single_app; auto|]. split; [exact N2|]. split; [exact M3|]. split; [exact M4|]. split; [exact M5|].
            split; [rewrite CE2, <- M6, <- !app_assoc; reflexivity|]. split; [rewrite DS; exact M7|].
            rewrite CE2, M8. unfold lsn_add. cbn [fst snd]. rewrite !len_app. f_equal. lia. }
        * destruct d; [discriminate (DA eq_refl)|]. destruct M as (-> & M1 & M2 & M3 & M4 & M5 & M6 & M7). destruct (SN eq_refl M4) as [N1 N2].
          rewrite eff_app by exact FL. split; [reflexivity|]. split; [exact M1|]. split; [exact M2|]. split; [apply single_app; auto|]. split; [exact N2|].
          split; [rewrite CE2, <- M5, <- !app_assoc; reflexivity|]. split; [rewrite DS; exact M6|].
          rewrite CE2, M7. unfold lsn_add. cbn [fst snd]. rewrite !len_app. f_equal. lia.
    - (* no room: only the position may have changed *)
      cbn [wstep]. exists (if m then ea else ea ++ n1), (if m then eb ++ n1 else eb), m, ob1, od1.
      assert (EQ : (if m then ea else ea ++ n1) ++ (if m then eb ++ n1 else eb) = (ea ++ eb) ++ n1).
      { destruct m; [rewrite !app_assoc; reflexivity|]. rewrite (ME eq_refl), !app_nil_r. reflexivity. }
      unfold inv. rewrite EQ. cbn [b_que b_ring b_ph b_file b_bad]. split; [exact Q1|]. split; [|split; [|split; [exact R1|split; [exact F1|split; [|split; [exact I7|split; [exact I8|split; [exact CL|]]]]]]]].
      + rewrite W1, B1, DW. destruct m; reflexivity.
      + destruct m; [discriminate|exact ME].
      + destruct m; [exact FL|apply fly_app, FL].
      + unfold mrel in *. cbn [b_ph b_file b_lsn b_que]. unfold cur_file in *. cbn [b_file] in *. rewrite Z1.
        assert (CE : forall e, cat (e ++ n1) ++ ob1 = cat e ++ ob) by (intro e; rewrite cat_app, <- app_assoc, C1; reflexivity).
        destruct (w_mode w).
        * destruct M as (-> & M1 & M2 & M3 & M4 & M5 & M6 & M7). destruct (S1 M4) as [N1 N2]. rewrite eff_app by exact FL. rewrite CE.
          repeat (split; [first [assumption|reflexivity|apply single_app; auto]|]). exact M7.
        * destruct M as (-> & M1 & (nx & M2 & M3) & M4 & M5 & M6). rewrite eff_app by exact FL. rewrite CE. split; [reflexivity|]. split; [exact M1|].
          split; [exists nx; split; [exact M2|]; rewrite <- app_assoc, duals_app, D1, <- duals_app; exact M3|]. auto.
        * destruct M as [(-> & M1 & M2 & M3 & nx & M4 & M5 & M6 & M7 & M8)|[(-> & M1 & M2 & M3 & wd & nx & M4 & M5 & M6 & M7 & M8 & M9 & M10)|(-> & M1 & M2 & M3 & M4 & M5 & M6 & M7 & M8)]].
          { left. destruct (S1 M3) as [N1 N2]. rewrite CE. split; [reflexivity|]. split; [exact M1|]. split; [apply single_app; auto|]. split; [exact N2|]. exists nx. auto 10. }
          { right; left. destruct (S1 M2) as [N1 N2]. rewrite CE. split; [reflexivity|]. split; [apply single_app; auto|]. split; [exact N2|]. split; [exact M3|]. exists wd, nx. auto 10. }
          { right; right. destruct (S1 M2) as [N1 N2]. rewrite eff_app by exact FL. rewrite CE. split; [reflexivity|]. split; [apply single_app; auto|]. auto 10. }
        * destruct M as (-> & M1 & M2 & M3 & M4 & M5 & M6 & M7). destruct (S1 M4) as [N1 N2]. rewrite eff_app by exact FL. rewrite CE.
          repeat (split; [first [assumption|reflexivity|apply single_app; auto]|]). exact M7.
  Qed.

  (* ---------- the steps of the flusher ---------- *)
  Lemma rrel_close r es ob od : rrel r es ob -> rrel r (es ++ [(ob, od)]) [].
  Proof.
    unfold rrel. destruct (r_last r) as [l|].
    - intros (e1 & e2 & -> & H1 & H2 & H3 & H4 & H5). exists e1, (e2 ++ [(ob, od)]). rewrite app_assoc, cat_app. cbn [cat fst]. rewrite !app_nil_r. auto 10.
    - intros (H1 & H2 & H3). rewrite cat_app. cbn [cat fst]. rewrite !app_nil_r. auto.
  Qed.

  Lemma qrel_cat_nil q es ob od e1 e2 : qrel FQ q es ob od -> es = e1 ++ e2 -> cat e1 = [] -> e1 = [].
  Proof.
    intros (_ & _ & _ & I & _) -> E. destruct e1 as [|e e1]; [reflexivity|]. destruct (I 0%nat e eq_refl) as [_ X]. cbn in E. apply app_eq_nil in E. tauto.
  Qed.

  (* the ring after the first critical section *)
  Definition pick_ring (n : N) (r : ring) : ring :=
    if (0 <? n) && match r_last r with Some l => r_head r =? l | None => false end
    then {| r_mem := r_mem r; r_head := 0; r_tail := r_tail r; r_last := None |} else r.
  Lemma pick_ring_rel q r n es ob od : qrel FQ q es ob od -> rrel r es ob -> rrel (pick_ring n r) es ob /\ front (pick_ring n r) n.
  Proof.
    intros Q R. unfold pick_ring. destruct (N.ltb_spec 0 n) as [N0|N0]; cbn [andb]; [|split; [exact R|intro; lia]].
    unfold rrel in R. destruct (r_last r) as [l|] eqn:RL.
    - destruct R as (e1 & e2 & E & H1 & H2 & H3 & H4 & H5). destruct (N.eqb_spec (r_head r) l) as [HL|HL].
      + assert (e1 = []). { apply (qrel_cat_nil q es ob od e1 e2 Q E). rewrite <- H4, HL, N.sub_diag. reflexivity. } subst e1. cbn in E. subst e2.
        split; [|intros _ x X; discriminate]. unfold rrel. cbn [r_last r_head r_tail r_mem]. rewrite N.sub_0_r. split; [lia|]. split; [lia|exact H5].
      + split; [unfold rrel; rewrite RL; exists e1, e2; auto 10|]. intros _ x X. rewrite RL in X. injection X as <-. lia.
    - split; [unfold rrel; rewrite RL; exact R|]. intros _ x X. congruence.
  Qed.

  Definition pick (all : bool) (s : lb) (q1 : queue) : queue * N * bool * bool :=
    if negb (q_bgn q1 =? q_end q1) then (q1, fst (q_at q1 (q_bgn q1)), snd (q_at q1 (q_bgn q1)), fst (q_at q1 (q_bgn q1)) =? 0)
    else if (0 <? open_n q1) && (all || requested s) then (bump FQ q1, open_n q1, snd (q_at q1 (q_end q1)), false)
    else (q1, 0, false, false).

  Lemma pick_rel all s q es ob od r : qrel FQ q es ob od -> rrel r es ob ->
    exists q2 n d es2 ob2 od2, pick all s q = (q2, n, d, false) /\ qrel FQ q2 es2 ob2 od2 /\ rrel r es2 ob2 /\
      q_dw q2 = q_dw q /\ q_dwsize q2 = q_dwsize q /\ q_bgn q2 = q_bgn q /\
      ((es2 = es /\ ob2 = ob /\ od2 = od) \/ (es = [] /\ ob <> [] /\ es2 = [(ob, od)] /\ ob2 = [] /\ od2 = false)) /\
      (n = 0 \/ exists b t, es2 = (b, d) :: t /\ len b = n /\ n <> 0) /\ (n = 0 -> d = false).
  Proof.
    intros Q R. pose proof Q as (B & L & E & I & O & A & D & Z). unfold pick.
    destruct (N.eqb_spec (q_bgn q) (q_end q)) as [BE|BE]; cbn [negb].
    - assert (es = []).
      { rewrite E in BE. rewrite <- (idx_0 FQ _ B) in BE at 1. apply idx_inj in BE; [|exact FQ2|exact B|lia|exact L]. destruct es; [reflexivity|discriminate]. }
      subst es. destruct (N.ltb_spec 0 (open_n q)) as [H|H]; cbn [andb].
      + destruct (all || requested s); cbn [andb].
        * assert (OB : ob <> []) by (intros ->; cbn in O; lia).
          exists (bump FQ q), (open_n q), (snd (q_at q (q_end q))), [(ob, od)], [], false. split; [reflexivity|].
          split; [apply (bump_q FQ FQ2 q [] ob od false Q OB); cbn; lia|]. split; [apply (rrel_close _ [] ob od R)|]. split; [reflexivity|]. split; [reflexivity|]. split; [reflexivity|].
          split; [right; auto|]. rewrite (D OB). split; [|intro X; lia]. right. exists ob, []. rewrite O. split; [reflexivity|]. split; [reflexivity|]. lia.
        * exists q, 0, false, [], ob, od. split; [reflexivity|]. auto 12.
      + exists q, 0, false, [], ob, od. split; [reflexivity|]. auto 12.
    - destruct es as [|[b d] t]; [exfalso; apply BE; rewrite E; symmetry; apply (idx_0 FQ _ B)|].
      destruct (I 0%nat (b, d) eq_refl) as [H1 H2]. rewrite (idx_0 FQ _ B) in H1. rewrite H1. cbn [fst snd] in *.
      assert (NB : len b <> 0) by (intro X; apply len_0 in X; contradiction).
      exists q, (len b), d, ((b, d) :: t), ob, od. split; [destruct (N.eqb_spec (len b) 0); [contradiction|reflexivity]|]. split; [exact Q|]. split; [exact R|].
      split; [reflexivity|]. split; [reflexivity|]. split; [reflexivity|]. split; [left; auto|]. split; [right; exists b, t; auto|]. intro; contradiction.
  Qed.

  Lemma eff_pick n d c es : (n = 0 \/ exists b t, es = (b, d) :: t /\ len b = n /\ n <> 0) -> eff (Picked n d c) es = es.
  Proof. intros [->|(b & t & -> & _)]; cbn [eff]; [reflexivity|]. destruct (0 <? n); reflexivity. Qed.

  Lemma single_cons_inv b d t : single ((b, d) :: t) -> d = false.
  Proof. intro H. inversion H. assumption. Qed.

  Definition mark (q : queue) : queue * option N :=
    match q_dw q with
    | Some e => if q_bgn q =? e then ({| q_at := q_at q; q_bgn := q_bgn q; q_end := q_end q; q_dw := None; q_dwsize := 0 |}, Some (q_dwsize q)) else (q, None)
    | None => (q, None)
    end.
  Lemma flush1_eq all s q1 c q2 n d bad : b_ph s = Idle -> mark (b_que s) = (q1, c) -> pick all s q1 = (q2, n, d, bad) ->
    flush1 FQ all s = {| b_ring := pick_ring n (b_ring s); b_que := q2; b_lsn := b_lsn s; b_file := b_file s; b_ph := Picked n d c; b_bad := b_bad s || bad |}.
  Proof. intros H1 H2 H3. unfold flush1. rewrite H1. unfold mark in H2. rewrite H2. unfold pick in H3. rewrite H3. reflexivity. Qed.

  Lemma inv_flush1 cl s w all : Inv cl s w -> Inv cl (flush1 FQ all s) w.
  Proof.
    intros (ea & eb & m & ob & od & Q & DW & ME & R & F & FL & I7 & I8 & CL & M).
    destruct (b_ph s) eqn:PH; try (unfold flush1; rewrite PH; exists ea, eb, m, ob, od; unfold inv; rewrite PH; auto 15; fail).
    set (q := b_que s) in *.
    assert (MK : mark q = if m && match ea with [] => true | _ => false end then ({| q_at := q_at q; q_bgn := q_bgn q; q_end := q_end q; q_dw := None; q_dwsize := 0 |}, Some (q_dwsize q)) else (q, None)).
    { unfold mark. rewrite DW. destruct m; cbn [andb]; [|reflexivity]. destruct Q as (B & L & _). destruct ea as [|e ea'].
      - cbn [length]. rewrite (idx_0 FQ _ B), N.eqb_refl. reflexivity.
      - destruct (N.eqb_spec (q_bgn q) (idx FQ (q_bgn q) (length (e :: ea')))) as [X|X]; [|reflexivity]. exfalso.
        rewrite <- (idx_0 FQ _ B) in X at 1. apply idx_inj in X; [cbn in X; lia|exact FQ2|exact B|lia|]. rewrite len_app in L. lia. }
    destruct (m && match ea with [] => true | _ => false end) eqn:MM.
    - (* the dual write ends here *)
      destruct m; [|discriminate]. destruct ea as [|]; [|discriminate]. clear MM. cbn [app] in *.
      set (q1 := {| q_at := q_at q; q_bgn := q_bgn q; q_end := q_end q; q_dw := None; q_dwsize := 0 |}).
      assert (Q1 : qrel FQ q1 eb ob od) by exact Q.
      destruct (pick_rel all s q1 eb ob od (b_ring s) Q1 R) as (q2 & n & d & es2 & ob2 & od2 & PK & Q2 & R2 & W2 & Z2 & B2 & SH & PN & PD).
      rewrite (flush1_eq _ _ _ _ _ _ _ _ PH MK PK), orb_false_r. destruct (pick_ring_rel q2 (b_ring s) n es2 ob2 od2 Q2 R2) as [R3 F3].
      exists es2, [], false, ob2, od2. unfold inv. rewrite app_nil_r. cbn [b_que b_ring b_ph b_file b_bad flyn].
      split; [exact Q2|]. split; [exact W2|]. split; [reflexivity|]. split; [exact R3|]. split; [exact F3|].
      split; [destruct PN as [->|(b & t & -> & X)]; [left; reflexivity|right; exists b, d, t; auto]|]. split; [exact I7|]. split; [exact I8|]. split; [exact CL|].
      unfold mrel in *. rewrite PH in M. cbn [b_ph b_file b_lsn b_que pc]. destruct (w_mode w); try (destruct M as (X & _); discriminate).
      destruct M as [(_ & M1 & M2 & M3 & nx & M4 & M5 & M6 & M7 & M8)|[(X & _)|(X & _)]]; try discriminate.
      cbn [eff cat duals] in *. rewrite app_nil_r in *.
      assert (SS : single es2 /\ nd ob2 od2 /\ cat es2 ++ ob2 = cat eb ++ ob).
      { destruct SH as [(-> & -> & ->)|(-> & OB & -> & -> & ->)]; [auto|]. split; [constructor; [exact (M3 OB)|constructor]|]. split; [intro; reflexivity|]. cbn. rewrite !app_nil_r. reflexivity. }
      destruct SS as (SS1 & SS2 & SS3).
      right; left. split; [reflexivity|]. split; [exact SS1|]. split; [exact SS2|]. split.
      { unfold flying. cbn [b_ph]. destruct PN as [->|(b & t & -> & _)]; [reflexivity|]. rewrite (single_cons_inv _ _ _ SS1). apply andb_false_r. }
      exists (q_dwsize q), nx. split; [reflexivity|]. split; [exact M4|]. split; [exact M5|]. split; [rewrite SS3; exact M6|]. split; [exact M7|]. split; [exact Z2|]. rewrite SS3. exact M8.
    - (* no mark at the front *)
      destruct (pick_rel all s q (ea ++ eb) ob od (b_ring s) Q R) as (q2 & n & d & es2 & ob2 & od2 & PK & Q2 & R2 & W2 & Z2 & B2 & SH & PN & PD).
      rewrite (flush1_eq _ _ _ _ _ _ _ _ PH MK PK), orb_false_r. destruct (pick_ring_rel q2 (b_ring s) n es2 ob2 od2 Q2 R2) as [R3 F3].
      (* the new first part *)
      assert (EA : exists ea2, es2 = ea2 ++ eb /\ length ea2 = (if m then length ea else length ea2) /\ cat ea2 ++ cat eb ++ ob2 = cat ea ++ cat eb ++ ob /\
                duals (ea2 ++ [(ob2, od2)]) = duals (ea ++ [(ob, od)]) /\ (single ea -> nd ob od -> single ea2 /\ nd ob2 od2) /\
                (m = true -> ea2 = ea /\ ob2 = ob /\ od2 = od) /\ (m = false -> cat ea2 ++ ob2 = cat ea ++ ob) /\
                (n = 0 \/ exists b t, ea2 = (b, d) :: t /\ len b = n /\ n <> 0)).
      { destruct SH as [(-> & -> & ->)|(E & OB & -> & -> & ->)].
        - exists ea. split; [reflexivity|]. split; [destruct m; reflexivity|]. split; [reflexivity|]. split; [reflexivity|]. split; [auto|]. split; [auto|]. split; [auto|].
          destruct PN as [->|(b & t & X & Y)]; [left; reflexivity|]. right. destruct ea as [|e ea'].
          + destruct m; [discriminate|]. rewrite (ME eq_refl) in X. discriminate.
          + cbn in X. injection X as -> X. exists b, ea'. auto.
        - apply app_eq_nil in E. destruct E as [-> ->]. destruct m; [discriminate|]. exists [(ob, od)]. split; [reflexivity|]. split; [reflexivity|]. cbn. rewrite !app_nil_r. split; [reflexivity|]. split; [reflexivity|].
          split; [intros _ X; split; [constructor; [exact (X OB)|constructor]|intro; reflexivity]|]. split; [discriminate|]. split; [reflexivity|exact PN]. }
      destruct EA as (ea2 & -> & E2 & E3 & E4 & E5 & E6 & E7 & E8).
      exists ea2, eb, m, ob2, od2. unfold inv. cbn [b_que b_ring b_ph b_file b_bad flyn].
      split; [exact Q2|]. split; [rewrite W2, B2, DW; destruct m; [rewrite E2|]; reflexivity|]. split; [exact ME|]. split; [exact R3|]. split; [exact F3|].
      split; [destruct E8 as [->|(b & t & -> & X)]; [left; reflexivity|right; exists b, d, t; auto]|]. split; [exact I7|]. split; [exact I8|]. split; [exact CL|].
      unfold mrel in *. rewrite PH in M. cbn [b_ph b_file b_lsn b_que pc]. rewrite eff_pick by exact E8. cbn [eff] in M. rewrite Z2.
      destruct (w_mode w).
      + destruct M as (-> & M1 & M2 & M3 & M4 & M5 & M6 & M7). destruct (E5 M3 M4) as [X1 X2]. rewrite (E7 eq_refl). auto 12.
      + destruct M as (-> & M1 & M2 & M4 & M5 & M6). rewrite (E7 eq_refl). rewrite E4. auto 12.
      + destruct M as [(-> & M1 & M2 & M3 & nx & M4 & M5 & M6 & M7 & M8)|[(-> & M1 & M2 & M3 & wd & nx & M4 & _)|(-> & M1 & M2 & M3 & M4 & M5 & M6 & M7 & M8)]].
        * left. destruct (E6 eq_refl) as (-> & -> & ->). split; [reflexivity|]. split; [reflexivity|]. split; [exact M2|]. split; [exact M3|]. exists nx. auto 10.
        * discriminate M4.
        * right; right. destruct (E5 M1 M2) as [X1 X2]. rewrite (E7 eq_refl). split; [reflexivity|]. split; [exact X1|]. split; [exact X2|]. split; [|auto 12].
          unfold flying. cbn [b_ph]. destruct E8 as [->|(b & t & -> & _)]; [reflexivity|]. rewrite (single_cons_inv _ _ _ X1). apply andb_false_r.
      + destruct M as (-> & M1 & M2 & M3 & M4 & M5 & M6 & M7). destruct (E5 M3 M4) as [X1 X2]. rewrite (E7 eq_refl). auto 12.
  Qed.

  Lemma inv_flush2 cl s w a : Inv cl s w -> Inv cl (flush2 a s) w.
  Proof.
    intros (ea & eb & m & ob & od & Q & DW & ME & R & F & FL & I7 & I8 & CL & M).
    unfold flush2. destruct (b_ph s) as [|n d c|n d|n] eqn:PH; try (exists ea, eb, m, ob, od; unfold inv; rewrite PH; auto 15; fail).
    destruct c as [wd|].
    - unfold mrel in M. rewrite PH in M. cbn [pc] in M.
      destruct (w_mode w) eqn:MO; try (destruct M as (_ & X & _); discriminate).
      destruct M as [(_ & X & _)|[(-> & M1 & M2 & M3 & wd' & nx & M4 & M5 & M6 & M7 & M8 & M9 & M10)|(_ & _ & _ & _ & X & _)]]; try discriminate.
      injection M4 as <-. rewrite (ME eq_refl), app_nil_r in *. exists ea, [], false, ob, od. unfold inv. rewrite app_nil_r. unfold switch. rewrite M5.
      cbn [b_que b_ring b_ph b_file b_bad flyn f_fd f_new f_next f_size]. destruct (I8 nx M5) as [I9 I10].
      split; [exact Q|]. split; [exact DW|]. split; [reflexivity|]. split; [exact R|]. split; [exact F|]. split; [exact FL|]. split; [exact I9|]. split; [discriminate|].
      split. { intro X. destruct (CL X) as [C1 C2]. unfold clean_file in C2. rewrite M5 in C2. rewrite C1, C2, M8, N.eqb_refl. split; reflexivity. }
      unfold mrel. rewrite MO. right; right. unfold cur_file. cbn [b_ph b_file b_lsn b_que f_data f_fd f_next pc l_write l_flush].
      unfold flying in M3. rewrite PH in M3.
      assert (EE : cat (eff (Ready n d) ea) = cat ea).
      { cbn [fly] in FL. destruct FL as [->|(b & d' & t & -> & _)]; [reflexivity|]. cbn [eff]. destruct (0 <? n); reflexivity. }
      rewrite EE. repeat (split; [first [reflexivity|assumption]|]). exact M10.
    - exists ea, eb, m, ob, od. unfold inv. cbn [b_que b_ring b_ph b_file b_bad flyn].
      split; [exact Q|]. split; [exact DW|]. split; [exact ME|]. split; [exact R|]. split; [exact F|]. split; [exact FL|]. split; [exact I7|]. split; [exact I8|]. split; [exact CL|].
      unfold mrel in *. unfold flying in *. rewrite PH in M. cbn [b_ph b_file b_lsn b_que]. exact M.
  Qed.

  Lemma rrel_front r es ob b d t n : rrel r ((b, d) :: t) ob -> es = (b, d) :: t -> len b = n -> n <> 0 -> front r n ->
    slice (r_mem r) (r_head r) n = b.
  Proof.
    intros R -> <- NZ F. unfold rrel in R. destruct (r_last r) as [l|] eqn:RL.
    - destruct R as (e1 & e2 & E & H1 & H2 & H3 & H4 & H5). specialize (F ltac:(lia) l RL). destruct e1 as [|e e1].
      + cbn [cat] in H4. apply (f_equal (@length N)) in H4. rewrite slice_len in H4. cbn in H4. lia.
      + cbn in E. injection E as <- E. cbn [cat fst] in H4. apply slice_take in H4. apply H4.
    - destruct R as (H1 & H2 & H3). cbn [cat fst] in H3. rewrite <- app_assoc in H3. apply slice_take in H3. apply H3.
  Qed.

  Lemma inv_flush3 cl s w : Inv cl s w -> Inv cl (flush3 s) w.
  Proof.
    intros (ea & eb & m & ob & od & Q & DW & ME & R & F & FL & I7 & I8 & CL & M).
    unfold flush3. destruct (b_ph s) as [|n d c|n d|n] eqn:PH; try (exists ea, eb, m, ob, od; unfold inv; rewrite PH; auto 15; fail).
    cbn [fly flyn] in *. destruct FL as [->|(b & d' & t & -> & LB & N0)].
    - cbn [N.ltb N.compare]. exists ea, eb, m, ob, od. unfold inv. cbn [b_que b_ring b_ph b_file b_bad flyn].
      split; [exact Q|]. split; [exact DW|]. split; [exact ME|]. split; [exact R|]. split; [exact F|]. split; [exact Logic.I|]. split; [exact I7|]. split; [exact I8|]. split; [exact CL|].
      unfold mrel in *. unfold flying in *. rewrite PH in M. cbn [b_ph b_file b_lsn b_que]. exact M.
    - destruct (N.ltb_spec 0 n) as [_|X]; [|lia]. cbn [app] in *.
      rewrite (rrel_front _ _ ob b d' (t ++ eb) n R eq_refl LB N0 F).
      set (f := b_file s) in *. exists ((b, d') :: t), eb, m, ob, od. unfold inv. cbn [b_que b_ring b_ph b_file b_bad flyn].
      assert (FW : f_fd (fwrite f b d) = f_fd f /\ f_next (fwrite f b d) = f_next f /\ f_new (fwrite f b d) = f_new f /\
                   f_data (fwrite f b d) (f_fd f) = f_data f (f_fd f) ++ b /\
                   (forall nx, f_next f = Some nx -> f_data (fwrite f b d) nx = f_data f nx ++ (if d then b else [])) /\
                   (clean_file f -> clean_file (fwrite f b d))).
      { unfold fwrite, clean_file. destruct (f_next f) as [nx|] eqn:FN.
        - destruct (I8 nx eq_refl) as [_ NX]. destruct d; cbn [f_fd f_next f_new f_data f_nsize]; rewrite ?FN.
          + split; [reflexivity|]. split; [reflexivity|]. split; [reflexivity|].
            assert (X1 : forall g : N -> bytes, upd (upd g (f_fd f) (g (f_fd f) ++ b)) nx (upd g (f_fd f) (g (f_fd f) ++ b) nx ++ b) (f_fd f) = g (f_fd f) ++ b).
            { intro g. unfold upd. rewrite N.eqb_refl. destruct (N.eqb_spec (f_fd f) nx); [congruence|reflexivity]. }
            split; [apply X1|].
            assert (X2 : forall g : N -> bytes, upd (upd g (f_fd f) (g (f_fd f) ++ b)) nx (upd g (f_fd f) (g (f_fd f) ++ b) nx ++ b) nx = g nx ++ b).
            { intro g. unfold upd. rewrite N.eqb_refl. destruct (N.eqb_spec nx (f_fd f)); [congruence|reflexivity]. }
            split; [intros x E; injection E as <-; apply X2|]. intro C. rewrite X2, C, len_app. reflexivity.
          + split; [reflexivity|]. split; [reflexivity|]. split; [reflexivity|]. split; [unfold upd; rewrite N.eqb_refl; reflexivity|].
            assert (X2 : forall g : N -> bytes, upd g (f_fd f) (g (f_fd f) ++ b) nx = g nx).
            { intro g. unfold upd. destruct (N.eqb_spec nx (f_fd f)); [congruence|reflexivity]. }
            split; [intros x E; injection E as <-; rewrite X2, app_nil_r; reflexivity|]. intro C. rewrite X2. exact C.
        - cbn [f_fd f_next f_new f_data f_nsize]. rewrite ?FN. split; [reflexivity|]. split; [reflexivity|]. split; [reflexivity|]. split; [unfold upd; rewrite N.eqb_refl; reflexivity|]. split; [discriminate|auto]. }
      destruct FW as (W1 & W2 & W3 & W4 & W5 & W6).
      split; [exact Q|]. split; [exact DW|]. split; [exact ME|]. split; [exact R|]. split; [exact F|]. split; [exists b, d', t; auto|]. rewrite W1, W2, W3. split; [exact I7|]. split; [exact I8|].
      split; [intro X; destruct (CL X); auto|].
      unfold mrel in *. unfold flying in *. rewrite PH in M. cbn [b_ph b_file b_lsn b_que]. cbn [eff tl pc l_write l_flush] in *. unfold cur_file in *. cbn [b_file] in *. rewrite W1, W2, W4.
      destruct (N.ltb_spec 0 n) as [_|X]; [|lia].
      assert (LA : forall x, l_write (b_lsn s) = lsn_add (l_flush (b_lsn s)) (len ((b ++ cat t) ++ x)) -> l_write (b_lsn s) = lsn_add (fst (l_flush (b_lsn s)), snd (l_flush (b_lsn s)) + n) (len (cat t ++ x))).
      { intros x X. rewrite X. unfold lsn_add. cbn [fst snd]. rewrite !len_app, LB. f_equal. lia. }
      cbn [cat fst snd duals app] in M.
      destruct (w_mode w).
      + destruct M as (-> & M1 & M2 & M3 & M4 & M5 & M6 & M7). repeat (split; [first [reflexivity|assumption|rewrite <- M5, <- !app_assoc; reflexivity]|]). apply LA, M7.
      + destruct M as (-> & M1 & (nx & M2 & M3) & M5 & M6 & M7). split; [reflexivity|]. split; [reflexivity|].
        split; [exists nx; split; [exact M2|]; rewrite (W5 nx M2), <- M3, <- !app_assoc; reflexivity|]. split; [rewrite <- M5, <- !app_assoc; reflexivity|]. split; [exact M6|apply LA, M7].
      + destruct M as [(-> & M1 & M2 & M3 & nx & M4 & M5 & M6 & M7 & M8)|[(-> & M1 & M2 & M3 & wd & nx & M4 & _)|(-> & M1 & M2 & M3 & M4 & M5 & M6 & M7 & M8)]].
        * left. split; [reflexivity|]. split; [reflexivity|]. split; [exact M2|]. split; [exact M3|]. exists nx. split; [exact M4|]. rewrite (W5 nx M4).
          split; [rewrite <- M5, <- !app_assoc; reflexivity|]. split; [rewrite <- M6, <- !app_assoc; reflexivity|]. split; [rewrite M7, <- !app_assoc; reflexivity|]. exact M8.
        * discriminate M4.
        * right; right. repeat (split; [first [reflexivity|assumption|rewrite <- M6, <- !app_assoc; reflexivity]|]). apply LA, M8.
      + destruct M as (-> & M1 & M2 & M3 & M4 & M5 & M6 & M7). repeat (split; [first [reflexivity|assumption|rewrite <- M5, <- !app_assoc; reflexivity]|]). apply LA, M7.
  Qed.

  Lemma inv_flush4 cl s w : Inv cl s w -> Inv cl (flush4 FQ s) w.
  Proof.
    intros (ea & eb & m & ob & od & Q & DW & ME & R & F & FL & I7 & I8 & CL & M).
    unfold flush4. destruct (b_ph s) as [|n d c|n d|n] eqn:PH; try (exists ea, eb, m, ob, od; unfold inv; rewrite PH; auto 15; fail).
    cbn [fly flyn] in *. destruct FL as (b & d' & t & -> & LB & N0). cbn [app] in *.
    exists t, eb, m, ob, od. unfold inv. cbn [b_que b_ring b_ph b_file b_bad flyn].
    split; [exact (pop_q FQ FQ2 _ _ _ _ _ Q)|].
    split. { cbn [q_dw q_bgn]. rewrite DW. destruct m; [|reflexivity]. destruct Q as (B & _). rewrite idx_shift by (exact FQ2 || exact B). reflexivity. }
    split; [exact ME|]. split; [|split; [intro X; lia|split; [exact Logic.I|split; [exact I7|split; [exact I8|split; [exact CL|]]]]]].
    - unfold rrel in *. destruct (r_last (b_ring s)) as [l|] eqn:RL.
      + destruct R as (e1 & e2 & E & H1 & H2 & H3 & H4 & H5). specialize (F ltac:(lia) l RL). destruct e1 as [|e e1].
        { cbn [cat] in H4. apply (f_equal (@length N)) in H4. rewrite slice_len in H4. cbn in H4. lia. }
        cbn in E. injection E as <- E. cbn [cat fst] in H4.
        assert (LL : n <= l - r_head (b_ring s)) by (apply (f_equal (@length N)) in H4; rewrite slice_len, app_length in H4; lia).
        apply slice_take in H4. rewrite LB in H4. destruct H4 as [_ H4].
        destruct (N.eqb_spec (r_head (b_ring s) + n) l) as [X|X]; cbn [r_last r_head r_tail r_mem].
        * rewrite N.sub_0_r. split; [lia|]. split; [lia|]. replace (l - r_head (b_ring s) - n) with 0 in H4 by lia. rewrite slice_0 in H4.
          rewrite E, cat_app, <- H4. exact H5.
        * exists e1, e2. split; [exact E|]. split; [lia|]. split; [exact H2|]. split; [lia|]. split; [|exact H5].
          replace (l - (r_head (b_ring s) + n)) with (l - r_head (b_ring s) - n) by lia. exact H4.
      + destruct R as (H1 & H2 & H3). cbn [r_last r_head r_tail r_mem cat fst] in *. rewrite <- app_assoc in H3.
        assert (LL : n <= r_tail (b_ring s) - r_head (b_ring s)) by (apply (f_equal (@length N)) in H3; rewrite slice_len, app_length in H3; lia).
        apply slice_take in H3. rewrite LB in H3. destruct H3 as [_ H3]. split; [lia|]. split; [exact H2|].
        replace (r_tail (b_ring s) - (r_head (b_ring s) + n)) with (r_tail (b_ring s) - r_head (b_ring s) - n) by lia. exact H3.
    - unfold mrel in *. unfold flying in *. rewrite PH in M. cbn [b_ph b_file b_lsn b_que]. cbn [eff tl pc q_dwsize] in *. unfold cur_file in *. cbn [b_file] in *.
      assert (SI : single ((b, d') :: t) -> single t) by (intro X; inversion X; assumption).
      destruct (w_mode w).
      + destruct M as (-> & M1 & M2 & M3 & M4 & M5 & M6 & M7). auto 12.
      + exact M.
      + destruct M as [M|[(-> & M1 & M2 & M3 & wd & nx & M4 & _)|(-> & M1 & M2 & M3 & M4 & M5 & M6 & M7 & M8)]].
        * left. exact M.
        * discriminate M4.
        * right; right. auto 12.
      + destruct M as (-> & M1 & M2 & M3 & M4 & M5 & M6 & M7). auto 12.
  Qed.

  (* ---------- the checkpoint ---------- *)
  Lemma inv_open cl s w : Inv cl s w -> allowed SZ FQ Open s w -> Inv cl (fopen s) (wstep Open true w).
  Proof.
    intros (ea & eb & m & ob & od & Q & DW & ME & R & F & FL & I7 & I8 & CL & M) (A1 & A2).
    assert (C : f_next (b_file s) = None /\ m = false /\ single ea /\ nd ob od /\ pc (b_ph s) = None /\
                cur_file s ++ cat (eff (b_ph s) ea) ++ ob = w_cur w /\ q_dwsize (b_que s) = 0 /\
                l_write (b_lsn s) = lsn_add (l_flush (b_lsn s)) (len (cat (eff (b_ph s) ea) ++ ob))).
    { unfold mrel in M. destruct A1 as [A1|[A1 NX]]; rewrite A1 in M.
      - destruct M as (-> & M1 & M2 & M3 & M4 & M5 & M6 & M7). auto 12.
      - destruct M as [(-> & M1 & M2 & M3 & nx & M4 & _)|[(-> & M1 & M2 & M3 & wd & nx & M4 & M5 & _)|(-> & M1 & M2 & M3 & M4 & M5 & M6 & M7 & M8)]]; try congruence. auto 12. }
    destruct C as (NX & -> & SE & ND & PC & C1 & C2 & C3).
    exists ea, eb, false, ob, od. unfold inv, fopen. cbn [b_que b_ring b_ph b_file b_bad f_fd f_new f_next].
    split; [exact Q|]. split; [exact DW|]. split; [exact ME|]. split; [exact R|]. split; [exact F|]. split; [exact FL|]. split; [lia|].
    split; [intros nx E; injection E as <-; lia|].
    split. { intro X. destruct (CL X) as [X1 X2]. split; [exact X1|]. unfold clean_file in *. cbn [f_nsize f_next f_data]. rewrite NX in X2. unfold upd. rewrite N.eqb_refl. exact X2. }
    unfold mrel. cbn [wstep w_mode b_ph b_file b_lsn b_que f_next w_cur w_next]. split; [reflexivity|]. split; [exact PC|].
    split. { exists (f_new (b_file s)). split; [reflexivity|]. cbn [f_data]. unfold upd. rewrite N.eqb_refl. rewrite duals_app, (single_duals _ (eff_single _ _ s eq_refl A2 SE)). cbn.
      destruct ob as [|x ob]; [destruct od; reflexivity|]. rewrite (ND ltac:(discriminate)). reflexivity. }
    split; [|split; [exact C2|exact C3]]. unfold cur_file in *. cbn [b_file f_data f_fd]. unfold upd. destruct (N.eqb_spec (f_fd (b_file s)) (f_new (b_file s))); [lia|exact C1].
  Qed.

  Lemma inv_complete cl s w ok : Inv cl s w -> allowed SZ FQ (Complete ok) s w -> (ok = false -> cl = false) ->
    Inv cl (complete FQ ok s) (wstep (Complete ok) true w).
  Proof.
    intros (ea & eb & m & ob & od & Q & DW & ME & R & F & FL & I7 & I8 & CL & M) (A1 & A2) OK.
    rewrite (qrel_used FQ FQ2 _ _ _ _ s eq_refl Q) in A2.
    unfold mrel in M. rewrite A1 in M. destruct M as (-> & M1 & (nx & M2 & M3) & M4 & M5 & M6). rewrite (ME eq_refl), app_nil_r in *. destruct ok.
    - destruct (close_open_q FQ FQ2 _ ea ob od Q A2) as (new & C1 & C2 & C3 & C4 & C5 & C6 & C7).
      exists (ea ++ new), [], true, [], false. unfold inv, complete. cbn [b_que b_ring b_ph b_file b_bad q_dw q_bgn]. rewrite app_nil_r.
      split; [exact C1|]. split; [destruct C1 as (_ & _ & E & _); rewrite E; reflexivity|]. split; [discriminate|].
      split. { destruct C4 as [->| ->]; [rewrite app_nil_r; cbn in C2; subst ob; exact R|apply rrel_close, R]. }
      split; [exact F|]. split; [apply fly_app, FL|]. split; [exact I7|]. split; [exact I8|].
      split. { intro X. destruct (CL X) as [X1 X2]. rewrite X1, DW. auto. }
      unfold mrel. cbn [wstep w_mode b_ph b_file b_lsn b_que w_cur w_next w_old q_dwsize l_write l_flush]. left. split; [reflexivity|]. split; [exact M1|]. split; [constructor|]. split; [intro; congruence|].
      exists nx. split; [exact M2|]. rewrite eff_app by exact FL. rewrite cat_app, C2. unfold cur_file in *. cbn [b_file]. split; [exact M4|].
      assert (DD : f_data (b_file s) nx ++ duals (eff (b_ph s) ea ++ new) = w_next w) by (rewrite duals_app, C3, <- duals_app; exact M3).
      rewrite DD. cbn [cat app]. rewrite app_nil_r. split; [reflexivity|]. split; [rewrite C7; exact M5|]. rewrite M6. unfold lsn_add. cbn [fst snd length]. f_equal. cbn. lia.
    - rewrite (OK eq_refl). exists (unf ea), [], false, ob, false. unfold inv, complete. cbn [b_que b_ring b_ph b_file b_bad q_dw q_bgn]. rewrite app_nil_r.
      split; [apply (undual_q FQ FQ2 _ _ _ od 0 Q)|]. split; [exact DW|]. split; [reflexivity|].
      split. { unfold rrel in *. destruct (r_last (b_ring s)) as [l|]; [|rewrite unf_cat; exact R]. destruct R as (e1 & e2 & -> & H1 & H2 & H3 & H4 & H5).
        exists (unf e1), (unf e2). rewrite !unf_cat. unfold unf at 1. rewrite map_app. auto 12. }
      split; [exact F|]. split; [apply fly_unf, FL|]. split; [exact I7|]. split; [exact I8|]. split; [discriminate|].
      unfold mrel. cbn [wstep w_mode b_ph b_file b_lsn b_que w_cur w_next w_old q_dwsize l_write l_flush]. rewrite eff_unf.
      split; [reflexivity|]. split; [exact M1|]. split; [exists nx; exact M2|]. split; [apply unf_single|]. split; [intro; reflexivity|]. auto.
  Qed.

  Lemma inv_close cl s w : Inv cl s w -> allowed SZ FQ Close s w -> cl = false -> Inv cl (fclose s) (wstep Close true w).
  Proof.
    intros (ea & eb & m & ob & od & Q & DW & ME & R & F & FL & I7 & I8 & CL & M) A1 C0. cbn [allowed] in A1.
    exists ea, eb, m, ob, od. unfold inv, fclose. cbn [b_que b_ring b_ph b_file b_bad f_fd f_new f_next].
    split; [exact Q|]. split; [exact DW|]. split; [exact ME|]. split; [exact R|]. split; [exact F|]. split; [exact FL|]. split; [exact I7|]. split; [discriminate|]. split; [congruence|].
    unfold mrel in *. rewrite A1 in M. cbn [wstep w_mode b_ph b_file b_lsn b_que w_cur f_next]. destruct M as (-> & M1 & M2 & M3 & M4 & M5 & M6 & M7). auto 12.
  Qed.

  (* a run without a failed checkpoint *)
  Definition unfailed (l : list lop) : Prop := Forall (fun o => o <> Complete false) l.

  Lemma failed_mode l : forall s w, w_mode w <> Failed -> unfailed l -> w_mode (wrun SZ FQ l s w) <> Failed.
  Proof.
    induction l as [|o l IH]; intros s w M U; [exact M|]. inversion U as [|? ? U1 U2]; subst. cbn [wrun]. apply IH; [|exact U2].
    destruct o as [r d|a|a| | | |[]| |u|]; cbn; try exact M; try discriminate; [destruct (snd _); exact M|congruence].
  Qed.

  Lemma inv_step cl o s w : Inv cl s w -> allowed SZ FQ o s w -> (cl = true -> o <> Complete false /\ w_mode w <> Failed) ->
    Inv cl (lstep SZ FQ o s) (wstep o (accepted SZ FQ o s) w).
  Proof.
    intros I A C. destruct o as [r d|a|a| | | |ok| |u|]; cbn [lstep accepted].
    - apply inv_write; assumption.
    - apply inv_flush1, I.
    - apply inv_flush2, I.
    - apply inv_flush3, I.
    - apply inv_flush4, I.
    - apply inv_open; assumption.
    - apply inv_complete; [exact I|exact A|]. intros ->. destruct cl; [|reflexivity]. destruct (C eq_refl). congruence.
    - apply inv_close; [exact I|exact A|]. destruct cl; [|reflexivity]. cbn in A. destruct (C eq_refl). contradiction.
    - unfold request. destruct (_ && _); exact I.
    - cbn [wstep]. destruct I as (ea & eb & m & ob & od & I). exists ea, eb, m, ob, od. exact I.
  Qed.

  Lemma inv_run cl l : forall s w, Inv cl s w -> lawful SZ FQ l s w -> (cl = true -> unfailed l /\ w_mode w <> Failed) ->
    Inv cl (lrun SZ FQ l s) (wrun SZ FQ l s w).
  Proof.
    induction l as [|o l IH]; intros s w I L C; [exact I|]. destruct L as [L1 L2]. cbn [lrun wrun]. apply IH; [|exact L2|].
    - apply inv_step; [exact I|exact L1|]. intro X. destruct (C X) as [U M]. inversion U; subst. auto.
    - intro X. destruct (C X) as [U M]. inversion U as [|? ? U1 U2]; subst. split; [exact U2|].
      apply (failed_mode [o] s w M). constructor; [exact U1|constructor].
  Qed.
End Sizes.
