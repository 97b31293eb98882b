(* The invariant of a connection: what was sent, together with what will be sent for the data already here and still to
   come, is the answer to the whole stream. *)
From Coq Require Import String Ascii.
From Verif Require Import Base UtilModel CnModel CnSpec CnProofs.
From Coq Require Import List.
Local Open Scope string_scope.
Local Open Scope nat_scope.
Local Open Scope list_scope.

Section Inv.
Variable E : Type.
Variable parse : bytes -> shape.
Variable prepare : E -> bytes -> E * (list nat + bytes).
Variable exec_c : E -> bytes -> E * bytes.
Variable comp_c : E -> bytes -> bytes -> E * bytes.
Variable exec_q : E -> bytes -> E * reply.
Variable comp_q : E -> bytes -> bytes -> E * reply.
Notation cst := (cst E).
Notation conn := (conn E).
Notation sys := (sys E).
Notation on_line := (on_line E parse prepare exec_c exec_q).
Notation on_data := (on_data E parse comp_c comp_q).
Notation finish := (finish E).
Notation one := (one E parse prepare exec_c comp_c exec_q comp_q).
Notation serve := (serve E parse prepare exec_c comp_c exec_q comp_q).
Notation answers := (answers E parse prepare exec_c comp_c exec_q comp_q).
Notation parse_cmd := (parse_cmd E parse prepare exec_c exec_q).
Notation run1 := (run1 E parse prepare exec_c comp_c exec_q comp_q).
Hypothesis EOK : engine_ok E parse prepare exec_q comp_q.

(* ---------- the answers to a stream ---------- *)

Lemma finish_len xt r o x' r' : finish xt r = (o, Some (x', r')) -> length r' <= length r.
Proof.
  destruct xt as [x [o' n|ps|n ps|]]; cbn; intros H; try discriminate.
  - destruct (Nat.leb n (length r)) eqn:L; [|discriminate]. injection H as _ _ <-. rewrite skipn_length. lia.
  - injection H as _ _ <-. lia.
Qed.
Lemma one_len x l line o x' r : one x l = Some (line, o, Some (x', r)) -> length r < length l.
Proof.
  unfold one. destruct (cut l) as [[ln rest]|] eqn:C; [|discriminate]. apply cut_len in C. intros H0.
  match type of H0 with Some ?a = Some ?b => assert (H : a = b) by congruence end. clear H0.
  destruct (on_line x (chop ln)) as [x1 t] eqn:OL. destruct t as [o' n|ps|n ps|].
  - destruct (finish (x1, TSend o' n) rest) as [o2 nx] eqn:F. assert (nx = Some (x', r)) as -> by congruence. apply finish_len in F. lia.
  - destruct (finish (x1, TPieces ps) rest) as [o2 nx] eqn:F. assert (nx = Some (x', r)) as -> by congruence. apply finish_len in F. lia.
  - destruct (Nat.leb n (length rest)); [|discriminate].
    destruct (finish _ _) as [o2 nx] eqn:F in H. assert (nx = Some (x', r)) as -> by congruence. apply finish_len in F. rewrite skipn_length in F. lia.
  - cbn in H. discriminate.
Qed.
Lemma serve_fuel f : forall g x l, length l < f -> length l < g -> serve f x l = serve g x l.
Proof.
  induction f as [|f IH]; intros g x l A B; [lia|]. destruct g as [|g]; [lia|]. cbn [CnSpec.serve].
  destruct (one x l) as [[[line o] nx]|] eqn:O; auto. destruct nx as [[x' r]|]; auto. apply one_len in O.
  rewrite (IH g); auto; lia.
Qed.
Definition cont (nx : option (cst * bytes)) : bytes * list bytes := match nx with Some (x, r) => answers x r | None => ([], []) end.
Definition more (o : bytes) (p : bytes * list bytes) : bytes * list bytes := (o ++ fst p, snd p).
Lemma answers_eq x l : answers x l =
  match one x l with None => ([], [l]) | Some (line, o, nx) => (o ++ fst (cont nx), line :: snd (cont nx)) end.
Proof.
  unfold CnSpec.answers at 1. cbn [CnSpec.serve]. destruct (one x l) as [[[line o] nx]|] eqn:O; auto.
  destruct nx as [[x' r]|]; cbn [cont].
  - apply one_len in O. rewrite (serve_fuel _ (S (length r))) by lia. fold (answers x' r). now destruct (answers x' r).
  - reflexivity.
Qed.
Lemma answers_none x l : cut l = None -> answers x l = ([], [l]).
Proof. intros H. rewrite answers_eq. unfold one. now rewrite H. Qed.

(* ---------- commands ---------- *)

Lemma text_crlf_ne s : s ++ crlf <> [].
Proof. destruct s; discriminate. Qed.
Lemma p_done_ne p b : snd (p_done p b) <> [].
Proof. unfold p_done. destruct (p_st p); discriminate. Qed.
Lemma p_done_nr p b : p_nr (fst (p_done p b)) = p_nr p.
Proof. unfold p_done. destruct (p_st p), b; reflexivity. Qed.
Lemma out_string_ne p s p' o : out_string p s = (p', Some o) -> o <> [].
Proof.
  unfold out_string. destruct (match p_st p with POff => (p, false) | _ => p_save p s end) as [p1 neg].
  destruct (if neg then false else p_nr p1); [discriminate|]. cbn [p_st with_nr].
  assert (N := p_done_ne (with_nr p1 false) (negb (p_nr p))). destruct (p_done (with_nr p1 false) (negb (p_nr p))) as [p3 o3]. cbn in N.
  destruct (p_st p1); intros H; inversion H; subst; auto. apply text_crlf_ne.
Qed.
Lemma out_string_nr p s p' o : out_string p s = (p', o) -> p_nr p' = false.
Proof.
  unfold out_string. destruct (match p_st p with POff => (p, false) | _ => p_save p s end) as [p1 neg].
  destruct (if neg then false else p_nr p1); [intros H; now injection H as <- _|]. cbn [p_st with_nr].
  assert (N := p_done_nr (with_nr p1 false) (negb (p_nr p))). destruct (p_done (with_nr p1 false) (negb (p_nr p))) as [p3 o3]. cbn in N.
  destruct (p_st p1); intros H; inversion H; subst; auto.
Qed.
Lemma say_shape e p s n x t : say E e p s n = (x, t) -> exists o, t = TSend o n /\ (forall b, o = Some b -> b <> []).
Proof.
  unfold say. destruct (out_string p s) as [p' o] eqn:O. intros H. injection H as <- <-. exists o. split; auto.
  intros b ->. eapply out_string_ne; eauto.
Qed.
Lemma on_line_shape x line x1 t : on_line x line = (x1, t) ->
  match t with
  | TSend o n => forall b, o = Some b -> b <> []
  | TPieces ps => Forall (fun p => p <> []) ps
  | TData n ps => n <= list_sum ps /\ Forall (fun b => 0 < b) ps
  | TClose => True
  end.
Proof.
  destruct EOK as (E1 & E2 & E3). unfold CnModel.on_line.
  assert (R : forall e p n, data_of (parse line) = Some n ->
    match prepare e line with (e', inl parts) => (mkX E e' p, TData n parts) | (e', inr msg) => say E e' p msg n end = (x1, t) ->
    match t with TSend o n => forall b, o = Some b -> b <> [] | TPieces ps => Forall (fun p => p <> []) ps
    | TData n ps => n <= list_sum ps /\ Forall (fun b => 0 < b) ps | TClose => True end).
  { intros e p n D. destruct (prepare e line) as [e' [parts|msg]] eqn:P; intros H.
    - injection H as <- <-. eauto.
    - apply say_shape in H. destruct H as (o & -> & H). auto. }
  destruct (parse line) as [|msg|w pp bad data|data] eqn:P; cbn zeta.
  - intros H. injection H as _ <-. exact I.
  - intros H. apply say_shape in H. destruct H as (o & -> & H). auto.
  - destruct bad as [msg|].
    + intros H. apply say_shape in H. destruct H as (o & -> & H). auto.
    + destruct (pp && p_err _).
      * intros H. injection H as _ <-. discriminate.
      * destruct data as [n|]. { apply R. reflexivity. }
        destruct (exec_c (x_e E x) line) as [e s]. intros H. apply say_shape in H. destruct H as (o & -> & H). auto.
  - destruct data as [n|]. { apply R. reflexivity. }
    destruct (exec_q (x_e E x) line) as [e [s|ps]] eqn:Q.
    + intros H. apply say_shape in H. destruct H as (o & -> & H). auto.
    + intros H. injection H as _ <-. eauto.
Qed.
Lemma on_data_shape x line d x1 t : on_data x line d = (x1, t) ->
  match t with
  | TSend o n => n = 0 /\ forall b, o = Some b -> b <> []
  | TPieces ps => Forall (fun p => p <> []) ps
  | _ => False
  end.
Proof.
  destruct EOK as (E1 & E2 & E3). unfold CnModel.on_data.
  assert (Q : (let '(e, s) := comp_c (x_e E x) line d in say E e (x_p E x) s 0) = (x1, t) ->
    match t with TSend o n => n = 0 /\ forall b, o = Some b -> b <> [] | TPieces ps => Forall (fun p => p <> []) ps | _ => False end).
  { destruct (comp_c (x_e E x) line d) as [e s]. intros H. apply say_shape in H. destruct H as (o & -> & H). auto. }
  destruct (parse line); auto.
  destruct (comp_q (x_e E x) line d) as [e [s|ps]] eqn:C.
  - intros H. apply say_shape in H. destruct H as (o & -> & H). auto.
  - intros H. injection H as _ <-. eauto.
Qed.

(* ---------- the invariant ---------- *)

Notation content := (content E).
Definition rest (s : sys) : bytes := content (s_c E s) ++ s_inp E s.
Definition rem (c : conn) : nat := if Nat.ltb 0 (c_rt E c) then c_rt E c else c_rl E c.
Definition job_line (c : conn) : bytes := slice (c_buf E c) (fst (c_job E c)) (snd (c_job E c)).
Definition skipping (x : cst) (n : nat) (l : bytes) : bytes * list bytes :=
  if Nat.leb n (length l) then answers x (skipn n l) else ([], []).
Definition after (xt : cst * todo) (r : bytes) : bytes * list bytes := let '(o, nx) := finish xt r in more o (cont nx).
Definition pend (c : conn) : bytes :=
  match c_ph E c with
  | Write => if Nat.eqb (o_used (c_o E c)) 0 then c_wb E c else pending (c_o E c)
  | MWrite => pending (c_o E c)
  | _ => []
  end.
(* the answers still to come *)
Definition future (s : sys) : bytes * list bytes :=
  let c := s_c E s in
  let x := c_x E c in
  match c_ph E c with
  | Nread => if Nat.leb (rem c) (length (rest s)) then
               after (on_data x (job_line c) (c_data E c ++ firstn (rem c) (rest s))) (skipn (rem c) (rest s))
             else ([], [])
  | Swallow => skipping x (c_sb E c) (rest s)
  | Write => more (pend c) (match c_go E c with Swallow => skipping x (c_sb E c) (rest s) | _ => answers x (rest s) end)
  | MWrite => more (pend c) (answers x (rest s))
  | _ => answers x (rest s)
  end.

Definition wf (s : sys) : Prop :=
  let c := s_c E s in
  c_cur E c + c_cnt E c <= c_size E c /\ DATA_BUFFER_SIZE <= c_size E c /\ 0 < o_size (c_o E c) /\
  match c_ph E c with
  | Waiting | Read => find_nl (content c) = None
  | Reading _ got => c_cur E c = 0 /\ (got = false -> find_nl (content c) = None)
  | Nread => BW (c_o E c) [] /\ Forall (fun b => 0 < b) (c_blks E c) /\ (0 < c_rt E c -> 0 < c_rl E c <= c_rt E c /\ c_rt E c <= c_rl E c + list_sum (c_blks E c))
  | Write => (c_go E c = NewCmd \/ c_go E c = Swallow) /\
             if Nat.eqb (o_used (c_o E c)) 0 then BW (c_o E c) [] /\ c_wb E c <> [] else OW (c_o E c)
  | MWrite => OW (c_o E c)
  | Broken => False
  | _ => True
  end /\
  (s_asleep E s = true ->
     match c_ph E c with
     | NewCmd => c_evw E c = false -> c_cnt E c = 0
     | Read => True
     | Nread => c_cnt E c = 0 /\ 0 < c_rl E c
     | Swallow => c_cnt E c = 0 /\ 0 < c_sb E c
     | Write | MWrite => c_evw E c = true
     | _ => False
     end).
Variable calm : bool.
Variable goal : bytes.
Definition inv (s : sys) : Prop :=
  wf s /\
  match c_ph E (s_c E s) with
  | Closing | Closed => exists r, goal = s_sent E s ++ r /\ (calm = true -> r = [])
  | _ => goal = s_sent E s ++ fst (future s) /\ Forall line_ok (snd (future s))
  end.

Lemma more_nil p : more [] p = p.
Proof. now destruct p. Qed.
Lemma fst_more o p : fst (more o p) = o ++ fst p.
Proof. reflexivity. Qed.
Lemma snd_more o p : snd (more o p) = snd p.
Proof. reflexivity. Qed.
Definition outcome (x : cst) (t : todo) (line r : bytes) : bytes * list bytes :=
  match t with
  | TData n _ => if Nat.leb n (length r) then after (on_data x line (firstn n r)) (skipn n r) else ([], [])
  | _ => after (x, t) r
  end.
Lemma content_len c : length (content c) = c_cnt E c.
Proof. apply slice_len. Qed.

Lemma follow_inv c x t inp sent :
  c_cur E c + c_cnt E c <= c_size E c -> DATA_BUFFER_SIZE <= c_size E c -> BW (c_o E c) [] ->
  match t with
  | TSend o n => forall b, o = Some b -> b <> []
  | TPieces ps => Forall (fun p => p <> []) ps
  | TData n ps => n <= list_sum ps /\ Forall (fun b => 0 < b) ps
  | TClose => True
  end ->
  let T := outcome x t (job_line c) (content c ++ inp) in
  goal = sent ++ fst T -> Forall line_ok (snd T) ->
  inv (mkS E (follow E c x t) inp sent false).
Proof.
  intros H1 H2 HB HT T G L. assert (HZ : 0 < o_size (c_o E c)) by (destruct HB; tauto).
  destruct t as [o n|ps|n ps|].
  - assert (ET : T = more (sent_of o) (skipping x n (content c ++ inp))).
    { unfold T, outcome, after, finish, skipping. destruct (Nat.leb n _); reflexivity. }
    rewrite ET in *. rewrite fst_more in G. rewrite snd_more in L. destruct o as [b|].
    + specialize (HT b eq_refl). unfold follow. split.
      * split; [exact H1|]. split; [exact H2|]. split; [exact HZ|]. split; [|discriminate]. cbn.
        split; [destruct (Nat.eqb n 0); auto|]. split; [|exact HT]. now apply BW_reset.
      * cbn [c_ph s_c]. unfold future. cbn [c_ph s_c c_x c_go c_sb]. unfold pend, rest. cbn [c_ph c_o o_reset add_msghdr o_used c_wb s_c s_inp Nat.eqb].
        rewrite fst_more, snd_more. destruct (Nat.eqb n 0) eqn:N0; cbn [c_go]; auto.
        apply Nat.eqb_eq in N0. subst n. cbn [sent_of s_sent] in *. unfold skipping in *. cbn [Nat.leb skipn] in *. auto.
    + cbn [sent_of app] in G. destruct n as [|n].
      * split; [split; [exact H1|split; [exact H2|split; [exact HZ|split; [exact I|discriminate]]]]|].
        cbn. unfold skipping in *. cbn [Nat.leb skipn] in *. auto.
      * split; [split; [exact H1|split; [exact H2|split; [exact HZ|split; [exact I|discriminate]]]]|].
        cbn [follow c_ph s_c]. auto.
  - assert (ET : T = more (concat ps) (answers x (content c ++ inp))) by reflexivity.
    rewrite ET in *. rewrite fst_more in G. rewrite snd_more in L.
    destruct (BW_adds ps (c_o E c) [] HB) as (o' & A & B). cbn [app] in B. destruct (BW_OW _ _ B HT) as [O1 O2].
    unfold follow. rewrite A. split.
    + split; [exact H1|split; [exact H2|split; [|split; [exact O1|discriminate]]]]. cbn. destruct B; tauto.
    + cbn [c_ph s_c]. unfold future, pend, rest. cbn [c_ph s_c c_x c_o s_inp]. rewrite fst_more, snd_more, O2. auto.
  - destruct HT as [HS HP]. unfold follow. destruct (set_first n ps) as [[rl rt] bs] eqn:SF.
    assert (W : (if Nat.ltb 0 rt then rt else rl) = n /\ Forall (fun b => 0 < b) bs /\
                (0 < rt -> 0 < rl <= rt /\ rt <= rl + list_sum bs)).
    { destruct ps as [|b [|b2 ps]]; cbn [set_first tl] in SF; injection SF as <- <- <-.
      - cbn. repeat split; auto; lia.
      - cbn. repeat split; auto; lia.
      - inversion HP as [|? ? P1 P2]; subst. change (list_sum (b :: b2 :: ps)) with (b + list_sum (b2 :: ps)) in HS.
        split; [destruct (Nat.ltb 0 n) eqn:Q; auto; apply Nat.ltb_ge in Q; lia|]. split; auto. lia. }
    destruct W as (W1 & W2 & W3). split.
    + split; [exact H1|split; [exact H2|split; [exact HZ|split; [|discriminate]]]]. cbn. auto.
    + cbn [c_ph s_c]. unfold future. cbn [c_ph s_c]. unfold rem. cbn [c_rt c_rl s_c]. rewrite W1. unfold rest. cbn [s_c s_inp c_x c_data app].
      exact (conj G L).
  - split; [split; [exact H1|split; [exact H2|split; [exact HZ|split; [exact I|discriminate]]]]|].
    cbn. exists []. split; auto.
Qed.

Lemma one_outcome x l line r x1 t : cut l = Some (line, r) -> on_line x (chop line) = (x1, t) ->
  answers x l = (fst (outcome x1 t (chop line) r), line :: snd (outcome x1 t (chop line) r)).
Proof.
  intros C O. rewrite answers_eq. unfold CnSpec.one. rewrite C, O. unfold outcome, after.
  destruct t as [o n|ps|n ps|].
  - destruct (finish (x1, TSend o n) r) as [o' nx]. reflexivity.
  - destruct (finish (x1, TPieces ps) r) as [o' nx]. reflexivity.
  - destruct (Nat.leb n (length r)); [|reflexivity]. destruct (finish _ _) as [o' nx]. reflexivity.
  - reflexivity.
Qed.

Lemma parse_inv s : inv s -> c_ph E (s_c E s) = Parse -> inv (mkS E (parse_cmd (s_c E s)) (s_inp E s) (s_sent E s) false).
Proof.
  intros [W F] P. destruct W as (W1 & W2 & W3 & W4 & W5). rewrite P in F. destruct F as [F1 F2].
  unfold future in F1, F2. rewrite P in F1, F2. unfold rest in F1, F2. unfold CnModel.parse_cmd. set (c := s_c E s) in *.
  destruct (find_nl (content c)) as [i|] eqn:N.
  - destruct (find_nl_some _ _ N) as [L C]. specialize (C (s_inp E s)). rewrite content_len in L.
    set (n := if Nat.ltb 1 i && (nth (i - 1) (content c) 0%N =? 13)%N then i - 1 else i).
    assert (Ln : n <= i) by (unfold n; destruct (_ && _); lia).
    set (buf := put (c_buf E c) (c_cur E c + n) 0%N).
    assert (LI : slice buf (c_cur E c) n = chop (firstn i (content c))).
    { unfold buf. rewrite slice_put_out by lia. rewrite (slice_first _ _ (c_cnt E c)) by lia. fold (content c).
      rewrite chop_spec, firstn_length, content_len. replace (Nat.min i (c_cnt E c)) with i by lia. unfold n.
      destruct (Nat.ltb 1 i) eqn:I1; cbn [andb]; [|reflexivity]. apply Nat.ltb_lt in I1.
      assert (X : nth (i - 1) (firstn i (content c)) 0%N = nth (i - 1) (content c) 0%N).
      { rewrite <- (firstn_skipn i (content c)) at 2. rewrite app_nth1; auto. rewrite firstn_length, content_len. lia. }
      rewrite X. destruct (_ =? 13)%N; [|reflexivity]. rewrite firstn_firstn. f_equal. lia. }
    rewrite LI. destruct (on_line (c_x E c) (chop (firstn i (content c)))) as [x1 t] eqn:O.
    assert (A := one_outcome _ _ _ _ _ _ C O). rewrite A in F1, F2. cbn [fst snd] in F1, F2. assert (F4 := Forall_inv_tail F2).
    set (c' := mkC E buf (c_cur E c + (i + 1)) (c_cnt E c - (i + 1)) _ _ _ _ _ _ _ _ _ _ _ _ _ _).
    assert (CE : content c' = skipn (i + 1) (content c)).
    { unfold CnModel.content, c'. cbn [c_buf c_cur c_cnt]. unfold buf. rewrite slice_put_out by lia. apply slice_skip. lia. }
    assert (JE : job_line c' = chop (firstn i (content c))) by exact LI.
    apply follow_inv.
    + unfold c'. cbn. lia.
    + unfold c'. cbn. lia.
    + unfold c'. cbn. now apply BW_reset.
    + apply (on_line_shape _ _ _ _ O).
    + rewrite CE, JE. exact F1.
    + rewrite CE, JE. exact F4.
  - destruct (find_nl_none _ N) as [N1 N2].
    assert (K : exists t, line_ok (content c ++ t)).
    { rewrite answers_eq in F2. unfold CnSpec.one in F2. destruct (cut (content c ++ s_inp E s)) as [[ln r]|] eqn:C.
      - apply N2 in C. destruct C as [t ->]. exists t.
        destruct (on_line _ _) as [x1 t1] in F2. destruct t1 as [o n|ps|n ps|].
        + destruct (finish (x1, TSend o n) r) in F2. now inversion F2.
        + destruct (finish (x1, TPieces ps) r) in F2. now inversion F2.
        + destruct (Nat.leb n (length r)); [destruct (finish _ _) in F2|]; now inversion F2.
        + now inversion F2.
      - exists (s_inp E s). now inversion F2. }
    destruct K as [t K]. apply line_ok_wait in K. rewrite content_len in K. destruct K as [K1 K2]. rewrite K1, K2.
    split; [split; [exact W1|split; [exact W2|split; [exact W3|split; [exact N|discriminate]]]]|].
    cbn. auto.
Qed.

(* a step that changes neither the answers to come nor what was sent *)
Lemma quiet s s' : inv s -> wf s' -> s_sent E s' = s_sent E s -> future s' = future s ->
  match c_ph E (s_c E s) with Closing | Closed => False | _ => True end ->
  match c_ph E (s_c E s') with Closing | Closed => False | _ => True end -> inv s'.
Proof.
  intros [W F] W' S1 S2 P1 P2. split; auto. rewrite S1, S2.
  destruct (c_ph E (s_c E s')); try tauto; destruct (c_ph E (s_c E s)); tauto.
Qed.

Lemma shrink_facts c : c_cur E c + c_cnt E c <= c_size E c -> DATA_BUFFER_SIZE <= c_size E c -> 0 < o_size (c_o E c) ->
  let c' := shrink E c in
  content c' = content c /\ c_cnt E c' = c_cnt E c /\ c_cur E c' + c_cnt E c' <= c_size E c' /\ DATA_BUFFER_SIZE <= c_size E c' /\
  0 < o_size (c_o E c') /\ c_x E c' = c_x E c.
Proof.
  intros H1 H2 H3. unfold shrink.
  set (c1 := if _ && _ then _ else c).
  assert (A : content c1 = content c /\ c_cnt E c1 = c_cnt E c /\ c_cur E c1 + c_cnt E c1 <= c_size E c1 /\ DATA_BUFFER_SIZE <= c_size E c1 /\
    0 < o_size (c_o E c1) /\ c_x E c1 = c_x E c).
  { unfold c1. destruct (Nat.ltb READ_BUFFER_HIGHWAT (c_size E c) && Nat.ltb (c_cnt E c) DATA_BUFFER_SIZE) eqn:B; [|tauto].
    apply andb_prop in B. destruct B as [_ B]. apply Nat.ltb_lt in B. unfold with_buf, CnModel.content.
    cbn [c_cnt c_cur c_size c_o c_x c_buf].
    split; [|repeat split; auto; lia].
    rewrite (slice_ext _ (if Nat.eqb (c_cur E c) 0 then c_buf E c else blit (c_buf E c) 0 (content c))).
    - destruct (Nat.eqb (c_cur E c) 0) eqn:Z; [apply Nat.eqb_eq in Z; now rewrite Z|]. rewrite <- (content_len c) at 1. now rewrite slice_blit.
    - intros i Hi. replace (Nat.ltb i DATA_BUFFER_SIZE) with true; auto. symmetry. apply Nat.ltb_lt. lia. }
  clearbody c1. destruct (Nat.ltb IOV_LIST_HIGHWAT (o_size (c_o E c1))); [|exact A].
  destruct A as (A1 & A2 & A3 & A4 & A5 & A6). unfold with_o. cbn [c_cnt c_cur c_size c_o c_x o_size].
  split; [exact A1|]. repeat split; auto. unfold IOV_LIST_INITIAL. lia.
Qed.

Lemma transmit_inv s r s' : inv s -> transmit E s r = Some s' ->
  OW (c_o E (s_c E s)) -> (c_ph E (s_c E s) = Write /\ o_used (c_o E (s_c E s)) <> 0 \/ c_ph E (s_c E s) = MWrite) -> inv s'.
Proof.
  intros [W F] H O P. destruct W as (W1 & W2 & W3 & W4 & W5). unfold transmit in H. set (c := s_c E s) in *.
  fold (advance (c_o E c)) in H. destruct (OW_adv _ O) as (O1 & O2 & O3 & O4).
  assert (PE : pend c = pending (c_o E c)).
  { unfold pend. destruct P as [[P1 P2]|P1]; rewrite P1; auto. now replace (Nat.eqb (o_used (c_o E c)) 0) with false by (symmetry; now apply Nat.eqb_neq). }
  assert (FU : goal = s_sent E s ++ fst (future s) /\ Forall line_ok (snd (future s))).
  { destruct P as [[P1 _]|P1]; rewrite P1 in F; exact F. }
  clear F. destruct FU as [F1 F2].
  set (after_w := if match c_ph E c with Write => match c_go E c with Swallow => true | _ => false end | _ => false end then skipping (c_x E c) (c_sb E c) (rest s) else answers (c_x E c) (rest s)).
  assert (FE : future s = more (pending (c_o E c)) after_w).
  { unfold future. fold c. unfold after_w. rewrite PE. destruct P as [[P1 _]|P1]; rewrite P1; auto. destruct (c_go E c); auto. }
  rewrite FE in F1, F2. rewrite fst_more in F1. rewrite snd_more in F2.
  assert (WR : forall o' e b, 0 < o_size o' -> OW o' -> o_used o' = o_used (c_o E c) -> (b = true -> e = true) ->
     wf (mkS E (with_evw E (with_o E c o' (c_ph E c)) e) (s_inp E s) (s_sent E s) b)).
  { intros o' e b Z Q U B. split; [exact W1|split; [exact W2|split; [exact Z|]]]. cbn. destruct P as [[P1 P2]|P1]; rewrite P1 in *.
    - split; auto. split; [tauto|]. rewrite U. replace (Nat.eqb (o_used (c_o E c)) 0) with false by (symmetry; now apply Nat.eqb_neq). auto.
    - auto. }
  destruct (nth_error (o_msgs (c_o E c)) (advance (c_o E c))) as [m|] eqn:NM.
  - specialize (O4 m eq_refl). destruct (OW_send (o_at (c_o E c) (advance (c_o E c))) m O1 NM O4) as (G & NE & rs & PS & SND).
    cbn [o_at o_gen o_iov o_used o_size o_cur o_msgs] in *. rewrite O2 in PS.
    replace (Nat.eqb (m_gen m) (o_gen (c_o E c))) with true in H by (symmetry; now apply Nat.eqb_eq). cbn [negb] in H.
    destruct r as [n| |].
    + destruct (Nat.leb 1 n && Nat.leb n (length (total (o_iov (c_o E c)) (m_at m) (m_len m)))) eqn:B; [|discriminate].
      apply andb_prop in B. destruct B as [B1 B2]. apply Nat.leb_le in B1, B2.
      destruct (SND n B2) as (f & a & len & CE & Q1 & Q2). rewrite CE in H. injection H as <-.
      change (pending (o_at (c_o E c) (advance (c_o E c)))) with (pending (o_at (c_o E c) (advance (c_o E c)))) in *.
      match goal with |- inv (mkS E (with_o E c ?o' _) _ _ _) => set (o2 := o') in * end.
      fold o2 in Q1, Q2. rewrite O2 in Q2.
      assert (EX : with_o E c o2 (c_ph E c) = with_evw E (with_o E c o2 (c_ph E c)) (c_evw E c)) by reflexivity.
      split.
      * rewrite EX. refine (match WR o2 (c_evw E c) false _ Q1 eq_refl _ with conj a (conj b (conj d (conj e f))) => conj a (conj b (conj d (conj e f))) end).
        { exact W3. } { discriminate. }
      * cbn [s_c with_o c_ph s_sent].
        set (s2 := mkS E (with_o E c o2 (c_ph E c)) (s_inp E s) (s_sent E s ++ firstn n (total (o_iov (c_o E c)) (m_at m) (m_len m))) false).
        assert (FE2 : future s2 = more (pending o2) after_w).
        { unfold future, s2, after_w. cbn [s_c c_ph with_o c_x c_go c_sb]. unfold pend. cbn [c_ph with_o c_o].
          destruct P as [[P1 P2]|P1]; rewrite P1; auto.
          cbn [o2 o_used]. replace (Nat.eqb (o_used (c_o E c)) 0) with false by (symmetry; now apply Nat.eqb_neq).
          destruct (c_go E c); reflexivity. }
        assert (GO : goal = (s_sent E s ++ firstn n (total (o_iov (c_o E c)) (m_at m) (m_len m))) ++ fst (future s2) /\ Forall line_ok (snd (future s2))).
        { rewrite FE2, fst_more, snd_more, Q2. split; auto. rewrite F1, PS. rewrite skipn_app.
          replace (n - length (total (o_iov (c_o E c)) (m_at m) (m_len m))) with 0 by lia. cbn [skipn].
          rewrite <- (firstn_skipn n (total (o_iov (c_o E c)) (m_at m) (m_len m))) at 1. now rewrite <- !app_assoc. }
        destruct P as [[P1 _]|P1]; rewrite P1; exact GO.
    + destruct (total (o_iov (c_o E c)) (m_at m) (m_len m)) eqn:TT; [easy|]. cbn [is_nil] in H. injection H as <-.
      fold (o_at (c_o E c) (advance (c_o E c))).
      split; [apply WR; auto|]. cbn [s_c with_o with_evw c_ph s_sent].
      set (s2 := mkS E _ _ _ _).
      assert (FE2 : future s2 = more (pending (c_o E c)) after_w).
      { unfold future, s2, after_w. cbn [s_c c_ph with_o with_evw c_x c_go c_sb]. unfold pend. cbn [c_ph with_o with_evw c_o].
        destruct P as [[P1 P2]|P1]; rewrite P1.
        - cbn [o_used o_at]. replace (Nat.eqb (o_used (c_o E c)) 0) with false by (symmetry; now apply Nat.eqb_neq). rewrite O2.
          destruct (c_go E c); reflexivity.
        - now rewrite O2. }
      rewrite FE2, fst_more, snd_more. destruct P as [[P1 _]|P1]; rewrite P1; auto.
    + discriminate.
  - injection H as <-. rewrite (O3 eq_refl) in F1. cbn [app] in F1. unfold after_w in F1, F2. clear FE after_w.
    destruct P as [[P1 P2]|P1]; rewrite P1 in *.
    + destruct W4 as [[G|G] _]; rewrite G in *.
      * split; [split; [exact W1|split; [exact W2|split; [exact W3|split; [exact I|discriminate]]]]|]. exact (conj F1 F2).
      * split; [split; [exact W1|split; [exact W2|split; [exact W3|split; [exact I|discriminate]]]]|]. exact (conj F1 F2).
    + split; [split; [exact W1|split; [exact W2|split; [exact W3|split; [exact I|discriminate]]]]|]. exact (conj F1 F2).
Qed.

Lemma answers_fun x l l' : l = l' -> answers x l = answers x l'.
Proof. now intros ->. Qed.
Lemma first_app_le (a b : bytes) n : n <= length a -> firstn n (a ++ b) = firstn n a.
Proof. intros H. rewrite firstn_app. replace (n - length a) with 0 by lia. cbn. apply app_nil_r. Qed.
Lemma skip_app_le (a b : bytes) n : n <= length a -> skipn n (a ++ b) = skipn n a ++ b.
Proof. intros H. rewrite skipn_app. now replace (n - length a) with 0 by lia. Qed.
Lemma firstn_plus (l : bytes) k n : firstn k l ++ firstn n (skipn k l) = firstn (k + n) l.
Proof. revert l. induction k as [|k IH]; intros l; cbn; auto. destruct l; cbn; [now rewrite firstn_nil|]. now rewrite IH. Qed.
Lemma skipn_plus (l : bytes) k n : skipn n (skipn k l) = skipn (k + n) l.
Proof. revert l. induction k as [|k IH]; intros l; cbn; auto. destruct l; cbn; [now rewrite skipn_nil|]. apply IH. Qed.

(* part of a data block arrives: k bytes, of which what remains is r *)
Lemma data_part x ln d n k (l : bytes) : k <= n -> k <= length l ->
  (if Nat.leb (n - k) (length (skipn k l)) then
     after (on_data x ln ((d ++ firstn k l) ++ firstn (n - k) (skipn k l))) (skipn (n - k) (skipn k l)) else ([], [])) =
  (if Nat.leb n (length l) then after (on_data x ln (d ++ firstn n l)) (skipn n l) else ([], [])).
Proof.
  intros A B. rewrite skipn_length. rewrite <- app_assoc, firstn_plus, skipn_plus. replace (k + (n - k)) with n by lia.
  destruct (Nat.leb n (length l)) eqn:Q.
  - apply Nat.leb_le in Q. now replace (Nat.leb (n - k) (length l - k)) with true by (symmetry; apply Nat.leb_le; lia).
  - apply Nat.leb_gt in Q. now replace (Nat.leb (n - k) (length l - k)) with false by (symmetry; apply Nat.leb_gt; lia).
Qed.
Lemma skip_part x n k (l : bytes) : k <= n -> k <= length l -> skipping x (n - k) (skipn k l) = skipping x n l.
Proof.
  intros A B. unfold skipping. rewrite skipn_length, skipn_plus. replace (k + (n - k)) with n by lia.
  destruct (Nat.leb n (length l)) eqn:Q.
  - apply Nat.leb_le in Q. now replace (Nat.leb (n - k) (length l - k)) with true by (symmetry; apply Nat.leb_le; lia).
  - apply Nat.leb_gt in Q. now replace (Nat.leb (n - k) (length l - k)) with false by (symmetry; apply Nat.leb_gt; lia).
Qed.

(* the connection after k bytes of the data block *)
Definition took (c : conn) (k cur cnt : nat) (data : bytes) : conn :=
  let rl := c_rl E c - k in
  let rt := if Nat.ltb 0 (c_rt E c) then c_rt E c - k else c_rt E c in
  if Nat.ltb 0 (c_rt E c) && Nat.eqb rl 0 && Nat.ltb 0 rt then
    match c_blks E c with
    | b :: rest => with_rd E c cur cnt (Nat.min rt b) rt rest data
    | [] => with_ph E c Broken
    end
  else with_rd E c cur cnt rl rt (c_blks E c) data.
Lemma took_facts c k cur cnt data : BW (c_o E c) [] -> Forall (fun b => 0 < b) (c_blks E c) ->
  (0 < c_rt E c -> 0 < c_rl E c <= c_rt E c /\ c_rt E c <= c_rl E c + list_sum (c_blks E c)) -> k <= c_rl E c ->
  c_ph E c = Nread ->
  let c' := took c k cur cnt data in
  (BW (c_o E c') [] /\ Forall (fun b => 0 < b) (c_blks E c') /\
   (0 < c_rt E c' -> 0 < c_rl E c' <= c_rt E c' /\ c_rt E c' <= c_rl E c' + list_sum (c_blks E c'))) /\
  c_ph E c' = Nread /\ rem c' = rem c - k /\ c_data E c' = data /\ c_x E c' = c_x E c /\ job_line c' = job_line c /\
  c_cur E c' = cur /\ c_cnt E c' = cnt /\ c_buf E c' = c_buf E c /\ c_size E c' = c_size E c /\ c_o E c' = c_o E c.
Proof.
  intros B F R K P. unfold took. destruct (Nat.ltb 0 (c_rt E c)) eqn:T; cbn [andb].
  - apply Nat.ltb_lt in T. specialize (R T). destruct (Nat.eqb (c_rl E c - k) 0) eqn:Z; cbn [andb].
    + apply Nat.eqb_eq in Z. destruct (Nat.ltb 0 (c_rt E c - k)) eqn:T2.
      * apply Nat.ltb_lt in T2. destruct (c_blks E c) as [|b bs] eqn:BS; [cbn in R; lia|].
        inversion F as [|? ? F1 F2]; subst. change (list_sum (b :: bs)) with (b + list_sum bs) in R.
        unfold with_rd, rem, job_line. cbn [c_o c_blks c_rt c_rl c_ph c_data c_x c_buf c_job c_cur c_cnt c_size].
        replace (Nat.ltb 0 (c_rt E c - k)) with true by (symmetry; apply Nat.ltb_lt; lia).
        replace (Nat.ltb 0 (c_rt E c)) with true by (symmetry; apply Nat.ltb_lt; lia).
        split; [|repeat split; auto]. split; auto. split; auto. lia.
      * apply Nat.ltb_ge in T2. assert (c_rt E c = k) by lia. unfold with_rd, rem, job_line.
        cbn [c_o c_blks c_rt c_rl c_ph c_data c_x c_buf c_job c_cur c_cnt c_size].
        replace (Nat.ltb 0 (c_rt E c - k)) with false by (symmetry; apply Nat.ltb_ge; lia).
        replace (Nat.ltb 0 (c_rt E c)) with true by (symmetry; apply Nat.ltb_lt; lia).
        split; [|repeat split; auto; lia]. split; auto. split; auto. lia.
    + apply Nat.eqb_neq in Z. unfold with_rd, rem, job_line. cbn [c_o c_blks c_rt c_rl c_ph c_data c_x c_buf c_job c_cur c_cnt c_size].
      replace (Nat.ltb 0 (c_rt E c - k)) with true by (symmetry; apply Nat.ltb_lt; lia).
      replace (Nat.ltb 0 (c_rt E c)) with true by (symmetry; apply Nat.ltb_lt; lia).
      split; [|repeat split; auto; lia]. split; auto. split; auto. lia.
  - apply Nat.ltb_ge in T. unfold with_rd, rem, job_line. cbn [c_o c_blks c_rt c_rl c_ph c_data c_x c_buf c_job c_cur c_cnt c_size].
    replace (Nat.ltb 0 (c_rt E c)) with false by (symmetry; apply Nat.ltb_ge; lia).
    split; [|repeat split; auto]. split; auto. split; auto. lia.
Qed.

Ltac wfq := split; [|split; [|split; [|split]]].

Lemma run_inv s r s' : inv s -> s_asleep E s = false -> run1 s r = Some s' ->
  (calm = true -> r = Eof -> forall na, c_ph E (s_c E s) <> Reading na true) -> inv s'.
Proof.
  intros HI SA H CA. assert (HI0 := HI). destruct HI as [W F]. destruct W as (W1 & W2 & W3 & W4 & W5).
  unfold CnModel.run1 in H. set (c := s_c E s) in *. destruct (c_ph E c) as [| | |na got| | | | | | | |] eqn:P.
  - (* NewCmd *) destruct (c_nev E c) as [|n] eqn:NV.
    + injection H as <-. apply (quiet s); auto; try exact I; try (fold c; now rewrite P).
      * destruct (Nat.ltb 0 (c_cnt E c)) eqn:Z.
        { wfq; auto; cbn; rewrite P; [exact I|discriminate]. }
        { apply Nat.ltb_ge in Z. wfq; auto; cbn; rewrite P; [exact I|lia]. }
      * destruct (Nat.ltb 0 (c_cnt E c)); reflexivity.
      * cbn [s_c]. destruct (Nat.ltb 0 (c_cnt E c)); cbn; now rewrite P.
    + injection H as <-. destruct (shrink_facts (with_nev E c n) W1 W2 W3) as (S1 & S2 & S3 & S4 & S5 & S6).
      unfold reset_cmd. set (c2 := shrink E (with_nev E c n)) in *.
      apply (quiet s); auto; try exact I; try (fold c; now rewrite P).
      * wfq; auto; cbn [s_c with_ph c_ph].
        { destruct (Nat.ltb 0 (c_cnt E c2)) eqn:Z; [exact I|]. apply Nat.ltb_ge in Z.
          assert (content c2 = []) as X by (apply length_zero_iff_nil; rewrite content_len; lia). 
          change (find_nl (content c2) = None). now rewrite X. }
        { discriminate. }
      * unfold future at 2. fold c. rewrite P. unfold future. cbn [s_c with_ph c_ph].
        assert (Q : answers (c_x E (with_ph E c2 (if Nat.ltb 0 (c_cnt E c2) then Parse else Waiting)))
          (rest (mkS E (with_ph E c2 (if Nat.ltb 0 (c_cnt E c2) then Parse else Waiting)) (s_inp E s) (s_sent E s) false)) = answers (c_x E c) (rest s)).
        { change (answers (c_x E c2) (content c2 ++ s_inp E s) = answers (c_x E c) (rest s)). rewrite S6, S1. reflexivity. }
        destruct (Nat.ltb 0 (c_cnt E c2)); exact Q.
      * cbn [s_c with_ph c_ph]. now destruct (Nat.ltb 0 (c_cnt E c2)).
  - (* Waiting *) injection H as <-. apply (quiet s); auto; try exact I; try (fold c; now rewrite P).
    + wfq; auto; intros _; exact I.
    + unfold future. fold c. rewrite P. reflexivity.
  - (* Read *) destruct (Nat.eqb (c_cur E c) 0) eqn:Z.
    + apply Nat.eqb_eq in Z. injection H as <-. apply (quiet s); auto; try exact I; try (fold c; now rewrite P).
      * wfq; auto; [|discriminate]. cbn [s_c with_ph c_ph]. split; auto.
      * unfold future. fold c. rewrite P. reflexivity.
    + injection H as <-. set (b := if Nat.eqb (c_cnt E c) 0 then _ else _).
      assert (CE : slice b 0 (c_cnt E c) = content c).
      { unfold b. destruct (Nat.eqb (c_cnt E c) 0) eqn:Q.
        - apply Nat.eqb_eq in Q. unfold CnModel.content. now rewrite Q.
        - rewrite <- (content_len c) at 1. apply slice_blit. }
      apply (quiet s); auto; try exact I; try (fold c; now rewrite P).
      * wfq; auto.
        { cbn. lia. } { cbn [s_c with_buf c_ph]. split; auto. intros _. unfold CnModel.content. cbn [with_buf c_buf c_cur c_cnt]. now rewrite CE. }
        discriminate.
      * unfold future. fold c. rewrite P. cbn [s_c with_buf c_ph c_x]. apply answers_fun. unfold rest, CnModel.content. cbn [s_c with_buf c_buf c_cur c_cnt s_inp].
        rewrite CE. reflexivity.
  - (* Reading *) destruct W4 as [W4 W6].
    destruct (Nat.leb (c_size E c) (c_cnt E c) && Nat.eqb na 5) eqn:FULL.
    + injection H as <-. apply (quiet s); auto; try exact I; try (fold c; now rewrite P).
      * wfq; auto; cbn [s_c with_ph c_ph]; destruct got; auto; discriminate.
      * unfold future. fold c. rewrite P. destruct got; reflexivity.
      * cbn [s_c with_ph c_ph]. now destruct got.
    + set (p := if Nat.leb (c_size E c) (c_cnt E c) then (na + 1, c_size E c * 2) else (na, c_size E c)) in H.
      assert (SZ : c_cnt E c < snd p /\ DATA_BUFFER_SIZE <= snd p).
      { unfold p. destruct (Nat.leb (c_size E c) (c_cnt E c)) eqn:Q; cbn [snd]; [apply Nat.leb_le in Q|apply Nat.leb_gt in Q];
        unfold DATA_BUFFER_SIZE in *; lia. }
      destruct p as [na2 size]. cbn [snd] in SZ. destruct r as [n| |].
      * destruct (Nat.leb 1 n && Nat.leb n (size - c_cnt E c) && Nat.leb n (length (s_inp E s))) eqn:Q; [|discriminate].
        injection H as <-. apply andb_prop in Q. destruct Q as [Q Q3]. apply andb_prop in Q. destruct Q as [Q1 Q2].
        apply Nat.leb_le in Q1, Q2, Q3. set (b := blit _ _ _).
        assert (CE : slice b (c_cur E c) (c_cnt E c + n) = content c ++ firstn n (s_inp E s)).
        { rewrite slice_app, W4. cbn [Nat.add]. unfold b. f_equal.
          - unfold CnModel.content. rewrite W4. apply slice_blit_out. lia.
          - replace n with (length (firstn n (s_inp E s))) at 2 by (rewrite firstn_length; lia). apply slice_blit. }
        assert (FU : forall ph, answers (c_x E c) (rest (mkS E (with_buf E c b (c_cur E c) (c_cnt E c + n) size ph) (skipn n (s_inp E s)) (s_sent E s) false)) = answers (c_x E c) (rest s)).
        { intros ph. apply answers_fun. unfold rest at 1, CnModel.content. cbn [s_c with_buf c_buf c_cur c_cnt s_inp]. rewrite CE.
          rewrite <- app_assoc, firstn_skipn. reflexivity. }
        apply (quiet s); auto; try exact I; try (fold c; now rewrite P).
        { wfq; auto; cbn [s_c with_buf c_ph c_cur c_cnt c_size s_asleep c_o]; try lia.
          destruct (Nat.eqb n (size - c_cnt E c)); auto. split; auto. discriminate. }
        { unfold future. fold c. rewrite P. cbn [s_c with_buf c_ph c_x]. destruct (Nat.eqb n (size - c_cnt E c)); apply FU. }
        { cbn [s_c with_buf c_ph]. now destruct (Nat.eqb n (size - c_cnt E c)). }
      * injection H as <-. apply (quiet s); auto; try exact I; try (fold c; now rewrite P).
        { wfq; auto; cbn [s_c with_buf c_ph c_cur c_cnt c_size s_asleep c_o]; try lia.
          destruct got; auto. }
        { unfold future. fold c. rewrite P. destruct got; reflexivity. }
        { cbn [s_c with_buf c_ph]. now destruct got. }
      * destruct (is_nil (s_inp E s)) eqn:Q; [|discriminate]. injection H as <-.
        assert (s_inp E s = []) as X by (destruct (s_inp E s); [auto|discriminate]).
        split; [wfq; [exact W1|exact W2|exact W3|exact I|discriminate]|]. cbn [s_c with_ph c_ph s_sent]. destruct F as [F1 _].
        exists (fst (future s)). split; auto. intros CC. unfold future. fold c. rewrite P.
        destruct got; [now destruct (CA CC eq_refl na)|]. unfold rest. fold c. rewrite X, app_nil_r.
        rewrite answers_none; auto. now apply find_nl_none, W6.
  - (* Parse *) injection H as <-. apply parse_inv; auto.
  - (* Nread *) destruct W4 as (B1 & B2 & B3). destruct F as [F1 F2]. unfold future in F1, F2. fold c in F1, F2. rewrite P in F1, F2.
    destruct (Nat.eqb (c_rl E c) 0) eqn:Z.
    + apply Nat.eqb_eq in Z. assert (R0 : rem c = 0).
      { unfold rem. destruct (Nat.ltb 0 (c_rt E c)) eqn:Q; auto. apply Nat.ltb_lt in Q. specialize (B3 Q). lia. }
      rewrite R0 in F1, F2. cbn [Nat.leb firstn skipn] in F1, F2. rewrite app_nil_r in F1, F2.
      change (slice (c_buf E c) (fst (c_job E c)) (snd (c_job E c))) with (job_line c) in H.
      destruct (on_data (c_x E c) (job_line c) (c_data E c)) as [x t] eqn:D. injection H as <-.
      assert (SH := on_data_shape _ _ _ _ _ D).
      apply follow_inv; auto.
      * destruct t; tauto.
      * destruct t; try tauto; exact F1.
      * destruct t; try tauto; exact F2.
    + apply Nat.eqb_neq in Z. destruct (Nat.ltb 0 (c_cnt E c)) eqn:CN.
      * apply Nat.ltb_lt in CN. injection H as <-.
        set (k := if Nat.ltb (c_rl E c) (c_cnt E c) then c_rl E c else c_cnt E c).
        assert (K : k <= c_rl E c /\ k <= c_cnt E c).
        { unfold k. destruct (Nat.ltb (c_rl E c) (c_cnt E c)) eqn:Q; [apply Nat.ltb_lt in Q|apply Nat.ltb_ge in Q]; lia. }
        destruct K as [K1 K2].
        destruct (took_facts c k (c_cur E c + k) (c_cnt E c - k) (c_data E c ++ slice (c_buf E c) (c_cur E c) k) B1 B2 B3 K1 P)
          as (T1 & T2 & T3 & T4 & T5 & T6 & T7 & T8 & T9 & T10 & T11).
        change (nread_copy E c) with (took c k (c_cur E c + k) (c_cnt E c - k) (c_data E c ++ slice (c_buf E c) (c_cur E c) k)).
        set (c' := took _ _ _ _ _) in *.
        assert (CE : content c' = skipn k (content c)).
        { unfold CnModel.content. rewrite T7, T8, T9. apply slice_skip. lia. }
        assert (DE : slice (c_buf E c) (c_cur E c) k = firstn k (content c)) by (apply slice_first; lia).
        assert (RK : k <= rem c).
        { unfold rem. destruct (Nat.ltb 0 (c_rt E c)) eqn:Q; auto. apply Nat.ltb_lt in Q. specialize (B3 Q). lia. }
        apply (quiet s); auto; try exact I; try (fold c; now rewrite P).
        { wfq; cbn [s_c s_asleep]; [rewrite T7, T8, T10; lia|now rewrite T10|now rewrite T11|rewrite T2; exact T1|discriminate]. }
        { unfold future. cbn [s_c]. fold c. rewrite T2, P, T3, T4, T5, T6, DE. unfold rest. cbn [s_c s_inp]. fold c. rewrite CE.
          rewrite <- (skip_app_le (content c)) by (rewrite content_len; lia).
          rewrite <- (first_app_le (content c) (s_inp E s)) by (rewrite content_len; lia).
          apply data_part; auto. rewrite app_length, content_len. lia. }
        { cbn [s_c]. now rewrite T2. }
      * apply Nat.ltb_ge in CN. assert (content c = []) as X by (apply length_zero_iff_nil; rewrite content_len; lia).
        assert (RP : 0 < rem c).
        { unfold rem. destruct (Nat.ltb 0 (c_rt E c)) eqn:Q; [|lia]. now apply Nat.ltb_lt in Q. }
        destruct r as [n| |].
        { destruct (Nat.leb 1 n && Nat.leb n (c_rl E c) && Nat.leb n (length (s_inp E s))) eqn:Q; [|discriminate].
          apply andb_prop in Q. destruct Q as [Q Q3]. apply andb_prop in Q. destruct Q as [Q1 Q2]. apply Nat.leb_le in Q1, Q2, Q3.
          match type of H with Some ?a = Some s' => assert (HS : a = s') by congruence end. clear H.
          change (mkS E (took c n (c_cur E c) (c_cnt E c) (c_data E c ++ firstn n (s_inp E s))) (skipn n (s_inp E s)) (s_sent E s) false = s') in HS.
          subst s'.
          destruct (took_facts c n (c_cur E c) (c_cnt E c) (c_data E c ++ firstn n (s_inp E s)) B1 B2 B3 Q2 P)
            as (T1 & T2 & T3 & T4 & T5 & T6 & T7 & T8 & T9 & T10 & T11).
          set (c' := took _ _ _ _ _) in *.
          assert (CE : content c' = []) by (unfold CnModel.content; rewrite T7, T8, T9; exact X).
          assert (RK : n <= rem c).
          { unfold rem. destruct (Nat.ltb 0 (c_rt E c)) eqn:Q; auto. apply Nat.ltb_lt in Q. specialize (B3 Q). lia. }
          apply (quiet s); auto; try exact I; try (fold c; now rewrite P).
          { wfq; cbn [s_c s_asleep]; [rewrite T7, T8, T10; lia|now rewrite T10|now rewrite T11|rewrite T2; exact T1|discriminate]. }
          { unfold future. cbn [s_c]. fold c. rewrite T2, P, T3, T4, T5, T6. unfold rest. cbn [s_c s_inp]. fold c. rewrite CE, X.
            cbn [app]. apply data_part; auto. }
          { cbn [s_c]. now rewrite T2. } }
        { injection H as <-. apply (quiet s); auto; try exact I; try (fold c; now rewrite P).
          - wfq; auto; cbn; rewrite P; [tauto|lia].
          - cbn. now rewrite P. }
        { destruct (is_nil (s_inp E s)) eqn:Q; [|discriminate]. injection H as <-.
          assert (s_inp E s = []) as Y by (destruct (s_inp E s); [auto|discriminate]).
          split; [wfq; [exact W1|exact W2|exact W3|exact I|discriminate]|]. cbn [s_c with_ph c_ph s_sent].
          unfold rest in F1. fold c in F1. rewrite X, Y in F1. cbn [app length] in F1.
          replace (Nat.leb (rem c) 0) with false in F1 by (symmetry; apply Nat.leb_gt; lia). cbn [fst] in F1.
          exists []. auto. }
  - (* Swallow *) destruct F as [F1 F2]. unfold future in F1, F2. fold c in F1, F2. rewrite P in F1, F2.
    destruct (Nat.eqb (c_sb E c) 0) eqn:Z.
    + apply Nat.eqb_eq in Z. injection H as <-. rewrite Z in F1, F2. unfold skipping in F1, F2. cbn [Nat.leb skipn] in F1, F2.
      split; [wfq; [exact W1|exact W2|exact W3|exact I|discriminate]|]. exact (conj F1 F2).
    + apply Nat.eqb_neq in Z. destruct (Nat.ltb 0 (c_cnt E c)) eqn:CN.
      * injection H as <-. set (k := if Nat.ltb (c_sb E c) (c_cnt E c) then c_sb E c else c_cnt E c).
        assert (K : k <= c_sb E c /\ k <= c_cnt E c).
        { unfold k. destruct (Nat.ltb (c_sb E c) (c_cnt E c)) eqn:Q; [apply Nat.ltb_lt in Q|apply Nat.ltb_ge in Q]; lia. }
        destruct K as [K1 K2].
        assert (CE : slice (c_buf E c) (c_cur E c + k) (c_cnt E c - k) = skipn k (content c)) by (apply slice_skip; lia).
        apply (quiet s); auto; try exact I; try (fold c; now rewrite P).
        { wfq; auto; cbn [s_c with_sb c_cur c_cnt c_size c_ph s_asleep]; rewrite ?P; auto; lia. }
        { unfold future. fold c. cbn [s_c with_sb c_ph c_x c_sb]. rewrite P. unfold rest. cbn [s_c s_inp]. fold c. unfold CnModel.content at 1.
          cbn [with_sb c_buf c_cur c_cnt]. rewrite CE. rewrite <- (skip_app_le (content c)) by (rewrite content_len; lia).
          apply skip_part; auto. rewrite app_length, content_len. lia. }
        { cbn. now rewrite P. }
      * apply Nat.ltb_ge in CN. assert (content c = []) as X by (apply length_zero_iff_nil; rewrite content_len; lia).
        destruct r as [n| |].
        { match type of H with (if ?b then _ else _) = _ => destruct b eqn:Q; [|discriminate] end.
          apply andb_prop in Q. destruct Q as [Q Q3]. apply andb_prop in Q. destruct Q as [Q1 Q2].
          apply Nat.leb_le in Q1, Q2, Q3.
          assert (Q4 : n <= c_sb E c) by (destruct (Nat.ltb (c_sb E c) (c_size E c)) eqn:Y; [apply Nat.ltb_lt in Y|apply Nat.ltb_ge in Y]; lia).
          injection H as <-.
          assert (C0 : c_cnt E c = 0) by lia.
          apply (quiet s); auto; try exact I; try (fold c; now rewrite P).
          { wfq; auto; cbn; rewrite ?P; auto; discriminate. }
          { unfold future. fold c. cbn [s_c with_sb with_buf c_ph c_x c_sb]. rewrite P. unfold rest. cbn [s_c s_inp]. fold c. unfold CnModel.content at 1.
            cbn [with_sb with_buf c_buf c_cur c_cnt]. rewrite C0, X. cbn [slice seq map app]. apply skip_part; auto. } }
        { injection H as <-. apply (quiet s); auto; try exact I; try (fold c; now rewrite P).
          - wfq; auto; cbn; rewrite P; [tauto|lia].
          - cbn. now rewrite P. }
        { destruct (is_nil (s_inp E s)) eqn:Q; [|discriminate]. injection H as <-.
          assert (s_inp E s = []) as Y by (destruct (s_inp E s); [auto|discriminate]).
          split; [wfq; [exact W1|exact W2|exact W3|exact I|discriminate]|]. cbn [s_c with_ph c_ph s_sent].
          unfold rest, skipping in F1. fold c in F1. rewrite X, Y in F1. cbn [app length] in F1.
          replace (Nat.leb (c_sb E c) 0) with false in F1 by (symmetry; apply Nat.leb_gt; lia). cbn [fst] in F1.
          exists []. auto. }
  - (* Write *) destruct W4 as [G W4]. destruct (Nat.eqb (o_used (c_o E c)) 0) eqn:U.
    + destruct W4 as [B NE]. destruct (BW_add _ _ (c_wb E c) B) as (o & A & B'). rewrite A in H. cbn [app] in B'.
      assert (FO : Forall (fun p : list N => p <> []) [c_wb E c]) by (repeat constructor; exact NE).
      destruct (BW_OW _ _ B' FO) as [O1 O2]. cbn [concat] in O2. rewrite app_nil_r in O2.
      assert (US : o_used o = 1) by (destruct B' as (_ & _ & _ & L & _); cbn in L; lia).
      apply (transmit_inv (mkS E (with_o E c o Write) (s_inp E s) (s_sent E s) false) r s'); auto.
      * apply (quiet s); auto; try exact I; try (fold c; now rewrite P).
        { wfq; auto; cbn [s_c with_o c_ph c_o s_asleep]; [destruct B'; tauto| |discriminate]. split; auto. cbn [with_o c_o]. now rewrite US. }
        { unfold future. fold c. cbn [s_c with_o c_ph c_go c_x c_sb]. rewrite P. f_equal. unfold pend. cbn [c_ph with_o c_o]. rewrite P, U, US. exact O2. }
      * left. cbn [s_c with_o c_o c_ph]. rewrite US. auto.
    + apply (transmit_inv s r s'); auto. left. split; auto. now apply Nat.eqb_neq.
  - (* MWrite *) apply (transmit_inv s r s'); auto.
  - (* Closing *) injection H as <-. split; [wfq; [exact W1|exact W2|exact W3|exact I|discriminate]|]. exact F.
  - discriminate.
  - discriminate.
Qed.

End Inv.
