(* Streams of requests, and pipelines. *)
From Coq Require Import String Ascii.
From Verif Require Import Base UtilModel CnModel CnSpec CnProofs CnInv.
From Coq Require Import List.
Local Open Scope string_scope.
Local Open Scope nat_scope.
Local Open Scope list_scope.

Lemma cut_line a b : ~ In 10%N a -> cut (a ++ 10%N :: b) = Some (a, b).
Proof.
  induction a as [|x a IH]; intros H; auto. cbn. destruct (x =? 10)%N eqn:Q.
  - apply N.eqb_eq in Q. subst. exfalso. apply H. now left.
  - rewrite IH; auto. intros I. apply H. now right.
Qed.
Lemma chop_line a : a <> [] -> chop (a ++ [13]%N) = a.
Proof.
  intros H. unfold chop. rewrite rev_app_distr. cbn. destruct (rev a) as [|b r] eqn:R.
  - apply (f_equal (@rev _)) in R. rewrite rev_involutive in R. easy.
  - change (rev r ++ [b]) with (rev (b :: r)). rewrite <- R. apply rev_involutive.
Qed.
Lemma starts_firstn p : forall s, starts p s = beqb p (firstn (length p) s).
Proof.
  induction p as [|a p IH]; intros s; [now destruct s|]. destruct s as [|b s]; [reflexivity|]. cbn. now rewrite IH.
Qed.
Lemma severe_bad s : severe s = bad_status s.
Proof. unfold severe, bad_status. cbn [existsb]. now rewrite !starts_firstn, orb_false_r, orb_assoc. Qed.

Section Pipe.
Variable E : Type.
Variable parse : bytes -> shape.
Variable prepare : E -> bytes -> E * (list nat + bytes).
Variable exec_c : E -> bytes -> E * bytes.
Variable comp_c : E -> bytes -> bytes -> E * bytes.
Variable exec_q : E -> bytes -> E * reply.
Variable comp_q : E -> bytes -> bytes -> E * reply.
Notation cst := (cst E).
Notation on_line := (on_line E parse prepare exec_c exec_q).
Notation on_data := (on_data E parse comp_c comp_q).
Notation answers := (answers E parse prepare exec_c comp_c exec_q comp_q).
Notation reply1 := (reply1 E parse prepare exec_c comp_c exec_q comp_q).
Notation replies := (replies E parse prepare exec_c comp_c exec_q comp_q).
Notation execute := (execute E parse prepare exec_c comp_c).
Notation pipeline := (pipeline E parse prepare exec_c comp_c).

Lemma say_skip e p s n x t : say E e p s n = (x, t) -> exists o, t = TSend o n.
Proof. unfold say. destruct (out_string p s). intros H. injection H as <- <-. eauto. Qed.
Lemma on_line_skip x line x1 t : on_line x line = (x1, t) ->
  match t with TSend _ n => n = announced (parse line) | TPieces _ => announced (parse line) = 0 | TData n _ => n = announced (parse line) | TClose => True end.
Proof.
  unfold CnModel.on_line. destruct (parse line) as [|msg|w pp bad data|data]; cbn zeta; cbn [announced].
  - intros H. now injection H as <- <-.
  - intros H. apply say_skip in H. destruct H as [o ->]. auto.
  - destruct bad as [msg|].
    + intros H. apply say_skip in H. destruct H as [o ->]. auto.
    + destruct (pp && p_err _). { intros H. injection H as <- <-. destruct data; auto. }
      destruct data as [n|].
      * destruct (prepare _ line) as [e' [parts|msg]]; intros H; [now injection H as <- <-|].
        apply say_skip in H. destruct H as [o ->]. auto.
      * destruct (exec_c _ line). intros H. apply say_skip in H. destruct H as [o ->]. auto.
  - destruct data as [n|].
    + destruct (prepare _ line) as [e' [parts|msg]]; intros H; [now injection H as <- <-|].
      apply say_skip in H. destruct H as [o ->]. auto.
    + destruct (exec_q _ line) as [e [s|ps]]; intros H; [|now injection H as <- <-].
      apply say_skip in H. destruct H as [o ->]. auto.
Qed.
Lemma on_data_skip x line d x1 t : on_data x line d = (x1, t) ->
  match t with TSend _ n => n = 0 | TPieces _ => True | _ => False end.
Proof.
  unfold CnModel.on_data. assert (Q : (let '(e, s) := comp_c (x_e E x) line d in say E e (x_p E x) s 0) = (x1, t) ->
    match t with TSend _ n => n = 0 | TPieces _ => True | _ => False end).
  { destruct (comp_c (x_e E x) line d). intros H. apply say_skip in H. destruct H as [o ->]. auto. }
  destruct (parse line); auto. destruct (comp_q _ line d) as [e [s|ps]]; intros H; [|now injection H as <- <-].
  apply say_skip in H. destruct H as [o ->]. auto.
Qed.

Lemma answers_replies rs : forall x tail, Forall (req_ok parse) rs -> cut tail = None ->
  fst (answers x (encode rs ++ tail)) = snd (replies x rs).
Proof.
  induction rs as [|r rs IH]; intros x tail F T.
  - cbn [encode map concat app replies snd]. now rewrite answers_none.
  - inversion F as [|? ? (F1 & F2 & F3) F4]; subst. destruct r as [line d]. cbn [fst snd] in *.
    assert (L : encode ((line, d) :: rs) ++ tail = (line ++ [13]%N) ++ 10%N :: (d ++ encode rs ++ tail)).
    { unfold encode. cbn [map concat fst snd]. rewrite <- !app_assoc. reflexivity. }
    erewrite answers_fun by exact L. rewrite answers_eq. unfold CnSpec.one. rewrite cut_line.
    2:{ intros I. apply in_app_or in I. destruct I as [I|[I|[]]]; [tauto|discriminate]. }
    rewrite chop_line by auto. cbn [CnSpec.replies]. unfold CnSpec.reply1. cbn [fst snd].
    destruct (on_line x line) as [x1 t] eqn:O. assert (SK := on_line_skip _ _ _ _ O).
    assert (LE : forall n, n = length d -> Nat.leb n (length (d ++ encode rs ++ tail)) = true) by (intros n ->; apply Nat.leb_le; rewrite app_length; lia).
    assert (SE : skipn (length d) (d ++ encode rs ++ tail) = encode rs ++ tail) by (rewrite skipn_app, skipn_all2, Nat.sub_diag by lia; reflexivity).
    assert (FE : firstn (length d) (d ++ encode rs ++ tail) = d) by (rewrite firstn_app, firstn_all2, Nat.sub_diag by lia; cbn; apply app_nil_r).
    destruct t as [o n|ps|n ps|].
    + cbn [CnSpec.finish said]. rewrite SK, <- F3. rewrite LE, SE by auto. cbn [cont fst]. rewrite IH by auto.
      destruct (replies x1 rs) as [x2 o2]. reflexivity.
    + cbn [CnSpec.finish said]. rewrite SK in F3. apply length_zero_iff_nil in F3. rewrite F3. cbn [app cont fst]. rewrite IH by auto.
      destruct (replies x1 rs) as [x2 o2]. reflexivity.
    + rewrite SK, <- F3. rewrite LE, SE, FE by auto. destruct (on_data x1 line d) as [x2 t] eqn:D.
      assert (SD := on_data_skip _ _ _ _ _ D). destruct t as [o m|qs| |]; try easy.
      * subst m. cbn [CnSpec.finish said Nat.leb skipn cont fst]. rewrite IH by auto. destruct (replies x2 rs) as [x3 o3]. reflexivity.
      * cbn [CnSpec.finish said Nat.leb skipn cont fst]. rewrite IH by auto. destruct (replies x2 rs) as [x3 o3]. reflexivity.
    + reflexivity.
Qed.

(* ---------- pipelines ---------- *)

Definition off (p : pipe) : Prop := p_st p = POff /\ p_cnt p = 0.

Lemma reply1_exec e p r w d : parse (fst r) = Command w true None d -> p_err (set_maybe p w true) = false ->
  exists k, reply1 (mkX E e p) r = say E (fst (execute e r)) (set_maybe p w true) (snd (execute e r)) k.
Proof.
  intros P Q. unfold CnSpec.reply1, CnSpec.execute, CnModel.on_line, CnModel.on_data. rewrite P. cbn [data_of x_p x_e].
  rewrite Q. cbn [andb]. destruct d as [n|].
  - destruct (prepare e (fst r)) as [e' [parts|msg]].
    + cbn [x_e x_p]. destruct (comp_c e' (fst r) (snd r)) as [e2 s]. exists 0. reflexivity.
    + unfold say. cbn [fst snd]. destruct (out_string (set_maybe p w true) msg) as [p' o]. exists n. reflexivity.
  - destruct (exec_c e (fst r)) as [e2 s]. unfold say. cbn [fst snd].
    destruct (out_string (set_maybe p w true) s) as [p' o]. exists 0. reflexivity.
Qed.
Lemma reply1_err e p r w d : parse (fst r) = Command w true None d -> p_err (set_maybe p w true) = true ->
  exists k, reply1 (mkX E e p) r =
    (mkX E e (if p_nr (set_maybe p w true) then with_nr (set_maybe p w true) false else p_clear (set_maybe p w true)), TSend None k).
Proof.
  intros P Q. unfold CnSpec.reply1, CnModel.on_line. rewrite P. cbn [x_p x_e]. rewrite Q. cbn [andb]. eexists. reflexivity.
Qed.

(* outside of a pipeline *)
Definition idle (p : pipe) : Prop := p_st p = POff /\ p_cnt p = 0 /\ p_nr p = false.
Lemma say_off e p s k : p_st p = POff -> p_cnt p = 0 ->
  exists p' o, idle p' /\ say E e p s k = (mkX E e p', TSend o k) /\ sent_of o = (if p_nr p then [] else status_line s).
Proof.
  intros P C. unfold say, out_string. rewrite P. cbv beta iota zeta. destruct (p_nr p) eqn:N.
  - exists (with_nr p false), None. repeat split; auto.
  - cbn [with_nr p_st]. rewrite P. exists (with_nr p false).
    eexists. split; [repeat split; auto|split; [reflexivity|]]. cbn [sent_of]. unfold status_line. f_equal.
    assert (X : forall n, Nat.ltb 2048 (n + 2) = negb (Nat.leb n 2046)).
    { clear. intros n. destruct (Nat.ltb_spec 2048 (n + 2)) as [A|A]; destruct (Nat.leb_spec n 2046) as [B|B]; auto; exfalso; lia. }
    unfold DATA_BUFFER_SIZE. rewrite (X (length s)). now destruct (Nat.leb (length s) 2046).
Qed.
Notation single := (single E parse prepare exec_c comp_c exec_q comp_q).
Notation singles := (singles E parse prepare exec_c comp_c exec_q comp_q).
Lemma reply1_single e p r : idle p -> unpiped parse r ->
  match single e r with
  | None => reply1 (mkX E e p) r = (mkX E e p, TClose)
  | Some (e', o) => exists p' t, idle p' /\ reply1 (mkX E e p) r = (mkX E e' p', t) /\ said t = o /\ t <> TClose
  end.
Proof.
  intros (P & C & N) U.
  assert (S : forall e q s k, p_st q = POff -> p_cnt q = 0 ->
            exists p' t, idle p' /\ say E e q s k = (mkX E e p', t) /\ said t = (if p_nr q then [] else status_line s) /\ t <> TClose /\ (forall n ps, t <> TData n ps)).
  { intros e0 q s k Q1 Q2. destruct (say_off e0 q s k Q1 Q2) as (p' & o & I & A & B). exists p', (TSend o k).
    repeat split; auto; try apply I; try discriminate. }
  unfold CnSpec.single, CnSpec.reply1, CnModel.on_line. cbn [x_p x_e]. destruct (parse (fst r)) as [|msg|w pi bad data|data] eqn:Q; auto.
  - destruct (S e p msg 0 P C) as (p' & t & I & A & B & D & F). rewrite A. exists p', t. rewrite N in B. split; auto.
    destruct t; try (exfalso; eapply F; reflexivity); auto.
  - set (q := set_maybe p w pi). assert (Q1 : p_st q = POff /\ p_cnt q = 0 /\ p_nr q = match w with WNoreply => true | _ => false end).
    { unfold q, set_maybe. destruct w; cbn; auto. destruct pi; cbn; auto. exfalso. eapply U; eauto. }
    destruct Q1 as (Q1 & Q2 & Q3).
    assert (X : p_err q = false) by (unfold p_err; now rewrite Q1). rewrite X, andb_false_r.
    destruct bad as [msg|].
    + destruct (S e q msg 0 Q1 Q2) as (p' & t & I & A & B & D & F). rewrite A. exists p', t. rewrite Q3 in B. split; auto.
      destruct t; try (exfalso; eapply F; reflexivity); repeat split; auto; rewrite B; now destruct w.
    + unfold execute. rewrite Q. cbn [data_of]. destruct data as [n|].
      * destruct (prepare e (fst r)) as [e1 [parts|msg]].
        -- unfold CnModel.on_data. rewrite Q. cbn [x_e x_p]. destruct (comp_c e1 (fst r) (snd r)) as [e2 s].
           destruct (S e2 q s 0 Q1 Q2) as (p' & t & I & A & B & D & F). rewrite A. exists p', t. rewrite Q3 in B. repeat split; auto; try apply I; rewrite B; now destruct w.
        -- destruct (S e1 q msg n Q1 Q2) as (p' & t & I & A & B & D & F). rewrite A. exists p', t. rewrite Q3 in B.
           destruct t; try (exfalso; eapply F; reflexivity); repeat split; auto; try apply I; rewrite B; now destruct w.
      * destruct (exec_c e (fst r)) as [e2 s].
        destruct (S e2 q s 0 Q1 Q2) as (p' & t & I & A & B & D & F). rewrite A. exists p', t. rewrite Q3 in B.
        destruct t; try (exfalso; eapply F; reflexivity); repeat split; auto; try apply I; rewrite B; now destruct w.
  - destruct data as [n|].
    + destruct (prepare e (fst r)) as [e1 [parts|msg]].
      * unfold CnModel.on_data. rewrite Q. cbn [x_e x_p]. destruct (comp_q e1 (fst r) (snd r)) as [e2 [s|ps]].
        -- destruct (S e2 p s 0 P C) as (p' & t & I & A & B & D & F). rewrite A. exists p', t. rewrite N in B. repeat split; auto; apply I.
        -- exists p, (TPieces ps). repeat split; auto; discriminate.
      * destruct (S e1 p msg n P C) as (p' & t & I & A & B & D & F). rewrite A. exists p', t. rewrite N in B.
        destruct t; try (exfalso; eapply F; reflexivity); repeat split; auto; apply I.
    + destruct (exec_q e (fst r)) as [e2 [s|ps]].
      * destruct (S e2 p s 0 P C) as (p' & t & I & A & B & D & F). rewrite A. exists p', t. rewrite N in B.
        destruct t; try (exfalso; eapply F; reflexivity); repeat split; auto; apply I.
      * exists p, (TPieces ps). repeat split; auto; discriminate.
Qed.
Lemma replies_singles rs : Forall (unpiped parse) rs -> forall e p, idle p ->
  snd (replies (mkX E e p) rs) = snd (singles e rs) /\ x_e E (fst (replies (mkX E e p) rs)) = fst (singles e rs).
Proof.
  induction rs as [|r rs IH]; intros F e p I; [split; reflexivity|]. cbn [CnSpec.replies CnSpec.singles].
  pose proof (reply1_single e p r I (Forall_inv F)) as H. destruct (single e r) as [[e' o]|].
  - destruct H as (p' & t & I' & -> & <- & D). destruct (IH (Forall_inv_tail F) e' p' I') as [A B].
    destruct (singles e' rs) as [e2 o'], (replies (mkX E e' p') rs) as [x2 o2]. cbn in A, B. subst. destruct t; cbn; auto. now elim D.
  - rewrite H. split; reflexivity.
Qed.

Lemma err_rest rs last : Forall (piped parse) rs -> plain parse last -> forall e p, p_err p = true ->
  exists p', off p' /\ replies (mkX E e p) (rs ++ [last]) = (mkX E e p', []).
Proof.
  intros F [d L]. induction F as [|r rs [d' R] F IH]; intros e p Q.
  - cbn [app CnSpec.replies]. destruct (reply1_err e p last WNone d L) as [k K]. { destruct p as [st c q n]. exact Q. }
    rewrite K. cbn. eexists. split; [|reflexivity]. split; reflexivity.
  - cbn [app CnSpec.replies]. destruct (reply1_err e p r WPipe d' R) as [k K].
    { destruct p as [st c q n]. destruct st; try discriminate; reflexivity. }
    rewrite K. cbn [set_maybe p_nr said sent_of app].
    match goal with |- context [mkX E e ?q] => destruct (IH e q) as (p' & O & RR) end.
    { destruct p as [st c q n]. destruct st; try discriminate; reflexivity. }
    rewrite RR. exists p'. auto.
Qed.

Lemma room a b : Nat.ltb (PIPE_RES_HEAD_SIZE + a + b) (PIPE_RES_MAX_SIZE - PIPE_RES_TAIL_SIZE) = Nat.ltb (a + b) (500 * 40).
Proof.
  replace (PIPE_RES_MAX_SIZE - PIPE_RES_TAIL_SIZE) with (PIPE_RES_HEAD_SIZE + 500 * 40).
  - rewrite <- Nat.add_assoc. generalize (a + b), (500 * 40). intros x y. unfold PIPE_RES_HEAD_SIZE. reflexivity.
  - unfold PIPE_RES_MAX_SIZE, PIPE_CMD_MAX_COUNT, PIPE_RES_HEAD_SIZE, PIPE_RES_TAIL_SIZE. generalize (500 * 40). intros n. lia.
Qed.

Ltac fin := cbn [with_nr p_done p_st p_cnt p_res p_nr negb p_clear p_tail]; rewrite <- ?app_assoc; reflexivity.
(* one command of a pipeline *)
Lemma say_pipe e n acc res nr s k : (n = 0 -> acc = []) -> (n <> 0 -> acc = res) -> n < 500 ->
  say E e (mkP POn n res nr) s k =
  if Nat.ltb (length acc + (length s + 2)) (500 * 40) then
    let acc' := acc ++ s ++ crlf in
    if bad_status s then (mkX E e (if nr then mkP PBad (n + 1) (acc' ++ p_tail PBad) false else mkP POff 0 (acc' ++ p_tail PBad) false),
                          TSend (Some (res_head (n + 1) ++ acc' ++ text "PIPE_ERROR bad error" ++ crlf)) k)
    else if Nat.eqb (n + 1) 500 && nr then
      (mkX E e (mkP PCFull (n + 1) (acc' ++ p_tail PCFull) false), TSend (Some (res_head (n + 1) ++ acc' ++ text "PIPE_ERROR command overflow" ++ crlf)) k)
    else if nr then (mkX E e (mkP POn (n + 1) acc' false), TSend None k)
    else (mkX E e (mkP POff 0 (acc' ++ p_tail POn) false), TSend (Some (res_head (n + 1) ++ acc' ++ text "END" ++ crlf)) k)
  else (mkX E e (if nr then mkP PMFull n (acc ++ p_tail PMFull) false else mkP POff 0 (acc ++ p_tail PMFull) false),
        TSend (Some (res_head n ++ acc ++ text "PIPE_ERROR memory overflow" ++ crlf)) k).
Proof.
  intros A1 A2 B. unfold say, out_string. cbn [p_st p_nr]. unfold p_save. cbn [p_st p_cnt p_res p_nr].
  assert (AE : (if Nat.eqb n 0 then [] else res) = acc).
  { destruct (Nat.eqb n 0) eqn:Z; [apply Nat.eqb_eq in Z|apply Nat.eqb_neq in Z]; [symmetry|]; auto. symmetry. auto. }
  rewrite AE, room. unfold res_head. destruct (Nat.ltb (length acc + (length s + 2)) (500 * 40)).
  - rewrite severe_bad. cbn zeta. destruct (bad_status s).
    + destruct nr; fin.
    + assert (Q : Nat.leb PIPE_CMD_MAX_COUNT (n + 1) = Nat.eqb (n + 1) 500).
      { unfold PIPE_CMD_MAX_COUNT. destruct (Nat.eqb (n + 1) 500) eqn:Z; [apply Nat.eqb_eq in Z; rewrite Z; reflexivity|].
        apply Nat.eqb_neq in Z. apply Nat.leb_gt. lia. }
      rewrite Q. destruct (Nat.eqb (n + 1) 500 && nr) eqn:C.
      * apply andb_prop in C. destruct C as [_ ->]. fin.
      * destruct nr; fin.
  - destruct nr; fin.
Qed.

Lemma pipe_run rs last : Forall (piped parse) rs -> plain parse last -> forall e p n acc,
  (off p /\ n = 0 \/ p_st p = POn /\ p_cnt p = n /\ n <> 0 /\ p_res p = acc) -> (n = 0 -> acc = []) -> n < 500 ->
  rs <> [] \/ n <> 0 ->
  exists p', off p' /\ replies (mkX E e p) (rs ++ [last]) =
    (mkX E (fst (pipeline e n acc (rs ++ [last]))) p', snd (pipeline e n acc (rs ++ [last]))).
Proof.
  intros F PL. assert (PL0 := PL). destruct PL as [d L]. induction F as [|r rs [d' R] F IH]; intros e p n acc HP HA HN NE.
  - destruct HP as [[_ HP]|(P1 & P2 & P3 & P4)]; [destruct NE; easy|].
    cbn [app CnSpec.replies]. destruct (reply1_exec e p last WNone d L) as [k K]. { destruct p as [st c q nr]. cbn in *. now rewrite P1. }
    rewrite K. assert (SM : set_maybe p WNone true = mkP POn n acc false). { destruct p as [st c q nr]. cbn in *. now subst. }
    rewrite SM. rewrite (say_pipe _ n acc acc false) by auto. cbn [CnSpec.pipeline]. destruct (execute e last) as [e' s]. cbn [fst snd].
    destruct (Nat.ltb (length acc + (length s + 2)) (500 * 40)); cbn zeta.
    + rewrite andb_false_r. destruct (bad_status s).
      * eexists. split; [|cbn [said sent_of fst snd]; rewrite app_nil_r; reflexivity]. split; reflexivity.
      * rewrite andb_false_r. eexists. split; [|cbn [said sent_of fst snd]; rewrite app_nil_r; reflexivity]. split; reflexivity.
    + eexists. split; [|cbn [said sent_of fst snd]; rewrite app_nil_r; reflexivity]. split; reflexivity.
  - cbn [app CnSpec.replies]. destruct (reply1_exec e p r WPipe d' R) as [k K].
    { destruct p as [st c q nr]. cbn in *. destruct HP as [[[P1 P2] _]|(P1 & _)]; cbn in *; now rewrite P1. }
    rewrite K. assert (SM : exists res, set_maybe p WPipe true = mkP POn n res true /\ (n <> 0 -> acc = res)).
    { destruct p as [st c q nr]. cbn in *. destruct HP as [[[P1 P2] P3]|(P1 & P2 & P3 & P4)]; cbn in *; subst; eexists; split; auto; lia. }
    destruct SM as (res & SM & AR). rewrite SM. rewrite (say_pipe _ n acc res true) by auto. cbn [CnSpec.pipeline].
    destruct (execute e r) as [e' s]. cbn [fst snd].
    assert (NN : is_nil (rs ++ [last]) = false) by (destruct rs; reflexivity).
    destruct (Nat.ltb (length acc + (length s + 2)) (500 * 40)); cbn zeta.
    + rewrite NN. cbn [negb]. rewrite !andb_true_r. destruct (bad_status s).
      * destruct (err_rest rs last F PL0 e' (mkP PBad (n + 1) ((acc ++ s ++ crlf) ++ p_tail PBad) false) eq_refl) as (p' & O & RR).
        exists p'. split; auto. rewrite RR. cbn [said sent_of fst snd]. now rewrite app_nil_r.
      * destruct (Nat.eqb (n + 1) 500) eqn:C5.
        -- destruct (err_rest rs last F PL0 e' (mkP PCFull (n + 1) ((acc ++ s ++ crlf) ++ p_tail PCFull) false) eq_refl) as (p' & O & RR).
           exists p'. split; auto. rewrite RR. cbn [said sent_of fst snd]. now rewrite app_nil_r.
        -- apply Nat.eqb_neq in C5.
           destruct (IH e' (mkP POn (n + 1) (acc ++ s ++ crlf) false) (n + 1) (acc ++ s ++ crlf)) as (p' & O & RR); try lia.
           { right. repeat split; auto. lia. }
           exists p'. split; auto. rewrite RR. cbn [said sent_of app]. reflexivity.
    + destruct (err_rest rs last F PL0 e' (mkP PMFull n (acc ++ p_tail PMFull) false) eq_refl) as (p' & O & RR).
      exists p'. split; auto. rewrite RR. cbn [said sent_of fst snd]. now rewrite app_nil_r.
Qed.

(* ---------- the response buffer ---------- *)

Definition buf_ok (p : pipe) : Prop :=
  length (p_res p) < 500 * 40 + 30 /\ p_cnt p <= 500 /\
  match p_st p with POff => p_cnt p = 0 | POn => p_cnt p < 500 /\ (p_cnt p <> 0 -> length (p_res p) < 500 * 40) | _ => True end.

Lemma tail_len st : length (p_tail st) <= 29.
Proof. destruct st; cbn; lia. Qed.
(* the buffer when the response is complete *)
Lemma done_buf p b : p_st p <> POff -> length (p_res p) < 500 * 40 -> p_cnt p <= 500 -> buf_ok (fst (p_done p b)).
Proof.
  intros NO L C. unfold p_done, buf_ok. assert (T := tail_len (p_st p)). revert L. generalize (500 * 40). intros z L.
  cbn [fst]. assert (R : length (p_res p ++ p_tail (p_st p)) < z + 30) by (rewrite app_length; lia).
  destruct (p_st p); try destruct b; cbn [p_clear p_st p_cnt p_res] in *; repeat split; auto; try easy; lia.
Qed.
Lemma out_string_buf p s : buf_ok p -> buf_ok (fst (out_string p s)).
Proof.
  intros B. unfold out_string. destruct (p_st p) eqn:ST.
  - (* off *) destruct (p_nr p); cbn [fst with_nr p_st]; rewrite ?ST; cbn [fst]; destruct p; exact B.
  - (* on *) destruct B as (B1 & B2 & B3). rewrite ST in B3. destruct B3 as [B3 B4]. unfold p_save. rewrite ST. rewrite room.
    set (res := if Nat.eqb (p_cnt p) 0 then [] else p_res p).
    assert (RL : length res < 500 * 40).
    { unfold res. destruct (Nat.eqb (p_cnt p) 0) eqn:Z; [apply Nat.ltb_lt; reflexivity|]. apply B4. now apply Nat.eqb_neq. }
    destruct (Nat.ltb (length res + (length s + 2)) (500 * 40)) eqn:FIT.
    + apply Nat.ltb_lt in FIT.
      assert (RL2 : length (res ++ s ++ crlf) < 500 * 40).
      { revert FIT. generalize (500 * 40). intros z FIT. rewrite !app_length. cbn [crlf length]. lia. }
      destruct (severe s).
      * cbn [with_nr p_st p_cnt p_res p_nr].
        match goal with |- context [p_done ?q ?b] => assert (D := done_buf q b); destruct (p_done q b) as [p3 o] end.
        cbn [fst p_res p_cnt] in *. apply D; [discriminate|exact RL2|clear -B3; cbn [with_nr p_cnt]; lia].
      * destruct (Nat.leb PIPE_CMD_MAX_COUNT (p_cnt p + 1) && p_nr p) eqn:C.
        { cbn [with_nr p_st p_cnt p_res p_nr].
          match goal with |- context [p_done ?q ?b] => assert (D := done_buf q b); destruct (p_done q b) as [p3 o] end.
          cbn [fst p_res p_cnt] in *. apply D; [discriminate|exact RL2|clear -B3; cbn [with_nr p_cnt]; lia]. }
        { cbn [with_nr p_st p_cnt p_res p_nr]. destruct (p_nr p) eqn:NR.
          - rewrite andb_true_r in C. apply Nat.leb_gt in C. unfold PIPE_CMD_MAX_COUNT in C. unfold buf_ok. cbn [fst with_nr p_res p_cnt p_st].
            revert RL2. generalize (500 * 40). intros z RL2. repeat split; auto; clear -C RL2; lia.
          - match goal with |- context [p_done ?q ?b] => assert (D := done_buf q b); destruct (p_done q b) as [p3 o] end.
            cbn [fst p_res p_cnt] in *. apply D; [discriminate|exact RL2|clear -B3; cbn [with_nr p_cnt]; lia]. }
    + cbn [with_nr p_st p_cnt p_res p_nr].
      match goal with |- context [p_done ?q ?b] => assert (D := done_buf q b); destruct (p_done q b) as [p3 o] end.
      cbn [fst p_res p_cnt] in *. apply D; [discriminate|exact RL|exact B2].
  - unfold p_save. rewrite ST. destruct B as (B1 & _). unfold buf_ok. destruct (p_nr p) eqn:NR; cbn; rewrite ?NR; cbn; repeat split; auto; lia.
  - unfold p_save. rewrite ST. destruct B as (B1 & _). unfold buf_ok. destruct (p_nr p) eqn:NR; cbn; rewrite ?NR; cbn; repeat split; auto; lia.
  - unfold p_save. rewrite ST. destruct B as (B1 & _). unfold buf_ok. destruct (p_nr p) eqn:NR; cbn; rewrite ?NR; cbn; repeat split; auto; lia.
Qed.
Lemma say_buf e p s n : buf_ok p -> buf_ok (x_p E (fst (say E e p s n))).
Proof. intros B. unfold say. assert (H := out_string_buf p s B). destruct (out_string p s). exact H. Qed.
Lemma set_buf p w b : buf_ok p -> buf_ok (set_maybe p w b).
Proof.
  intros (B1 & B2 & B3). unfold set_maybe, buf_ok. destruct w; [| |destruct b]; cbn [with_nr p_st p_cnt p_res]; auto.
  destruct (p_st p); auto. split; auto. split; auto. split; [lia|]. intros Z. easy.
Qed.
Lemma on_line_buf x line : buf_ok (x_p E x) -> buf_ok (x_p E (fst (on_line x line))).
Proof.
  intros B. unfold CnModel.on_line.
  assert (R : forall e p n, buf_ok p -> buf_ok (x_p E (fst
    match prepare e line with (e', inl parts) => (mkX E e' p, TData n parts) | (e', inr msg) => say E e' p msg n end))).
  { intros e p n H. destruct (prepare e line) as [e' [parts|msg]]; [exact H|]. now apply say_buf. }
  destruct (parse line) as [|msg|w pp bad data|data]; cbn zeta.
  - exact B.
  - now apply say_buf.
  - assert (SB := set_buf (x_p E x) w pp B). destruct bad as [msg|]; [now apply say_buf|].
    destruct (pp && p_err _).
    + cbn [fst x_p]. destruct SB as (S1 & S2 & S3). destruct (p_nr _); unfold buf_ok; cbn [with_nr p_clear p_st p_cnt p_res]; auto.
      split; auto. split; auto. lia.
    + destruct data; [now apply R|]. destruct (exec_c _ line). now apply say_buf.
  - destruct data; [now apply R|]. destruct (exec_q _ line) as [e [s|ps]]; [now apply say_buf|exact B].
Qed.
Lemma on_data_buf x line d : buf_ok (x_p E x) -> buf_ok (x_p E (fst (on_data x line d))).
Proof.
  intros B. unfold CnModel.on_data.
  assert (Q : buf_ok (x_p E (fst (let '(e, s) := comp_c (x_e E x) line d in say E e (x_p E x) s 0)))).
  { destruct (comp_c _ line d). now apply say_buf. }
  destruct (parse line); auto. destruct (comp_q _ line d) as [e [s|ps]]; [now apply say_buf|exact B].
Qed.
End Pipe.
