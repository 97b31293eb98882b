(* C50-C53: a client connection. *)
From Coq Require Import String Ascii.
From Verif Require Import Base UtilModel CnModel CnSpec CnProofs CnInv CnPipe.
From Coq Require Import List.
Local Open Scope string_scope.
Local Open Scope nat_scope.
Local Open Scope list_scope.

Section Props.
Variable E : Type.
Variable parse : bytes -> shape.
Variable prepare : E -> bytes -> E * (list nat + bytes).
Variable exec_c : E -> bytes -> E * bytes.
Variable comp_c : E -> bytes -> bytes -> E * bytes.
Variable exec_q : E -> bytes -> E * reply.
Variable comp_q : E -> bytes -> bytes -> E * reply.
Variable reqs : nat.
Notation sys := (sys E).
Notation run1 := (run1 E parse prepare exec_c comp_c exec_q comp_q).
Notation step := (step E parse prepare exec_c comp_c exec_q comp_q reqs).
Notation reach := (reach E parse prepare exec_c comp_c exec_q comp_q reqs).
Notation answer := (answer E parse prepare exec_c comp_c exec_q comp_q).
Notation lines_ok := (lines_ok E parse prepare exec_c comp_c exec_q comp_q).
Notation engine_ok := (engine_ok E parse prepare exec_q comp_q).
Notation replies := (replies E parse prepare exec_c comp_c exec_q comp_q).
Notation pipeline := (pipeline E parse prepare exec_c comp_c).
Notation on_line := (on_line E parse prepare exec_c exec_q).
Notation on_data := (on_data E parse comp_c comp_q).
Notation inv := (inv E parse prepare exec_c comp_c exec_q comp_q).
Notation future := (future E parse prepare exec_c comp_c exec_q comp_q).

(* runs in which the end of the stream is not met right after a read that filled the buffer *)
Inductive calm_reach (e : E) (buf : nat -> N) (inp : bytes) : sys -> Prop :=
| cr_new : calm_reach e buf inp (s_new E e buf inp)
| cr_run s r s' : calm_reach e buf inp s -> s_asleep E s = false -> run1 s r = Some s' ->
    (r = Eof -> forall na, c_ph E (s_c E s) <> Reading na true) -> calm_reach e buf inp s'
| cr_wake s : calm_reach e buf inp s -> s_asleep E s = true -> calm_reach e buf inp (wake E reqs s).

Lemma inv_new calm e buf inp : lines_ok e inp -> inv calm (answer e inp) (s_new E e buf inp).
Proof.
  intros L. split.
  - unfold wf, s_new, c_new, o_start, IOV_LIST_INITIAL. cbn. repeat split; auto; lia.
  - cbn. auto.
Qed.
Lemma inv_wake calm g s : inv calm g s -> inv calm g (wake E reqs s).
Proof.
  intros [(W1 & W2 & W3 & W4 & W5) F]. split; [|exact F]. split; [exact W1|split; [exact W2|split; [exact W3|split; [exact W4|discriminate]]]].
Qed.
Lemma reach_inv e buf inp s : engine_ok -> lines_ok e inp -> reach e buf inp s -> inv false (answer e inp) s.
Proof.
  intros EO L. induction 1 as [|s s' R IH ST]; [now apply inv_new|]. destruct ST as [s r s' A H|s A B|s A B].
  - eapply run_inv; eauto. discriminate.
  - now apply inv_wake.
  - now apply inv_wake.
Qed.
Lemma calm_inv e buf inp s : engine_ok -> lines_ok e inp -> calm_reach e buf inp s -> inv true (answer e inp) s.
Proof.
  intros EO L. induction 1 as [|s r s' R IH A H C|s R IH A]; [now apply inv_new| |now apply inv_wake].
  eapply run_inv; eauto.
Qed.

(* C50: whatever pieces the stream arrives in and the answers are accepted in, what was sent is a beginning of the answers
   to the stream *)
Theorem C50_answers_partial e buf inp s : engine_ok -> lines_ok e inp -> reach e buf inp s ->
  exists r, answer e inp = s_sent E s ++ r.
Proof.
  intros EO L R. destruct (reach_inv e buf inp s EO L R) as [W F].
  destruct (c_ph E (s_c E s)); try (destruct F as [F _]; eauto; fail); destruct F as (r & F & _); eauto.
Qed.
(* a connection that was closed has answered everything *)
Theorem C50_closed_partial e buf inp s : engine_ok -> lines_ok e inp -> calm_reach e buf inp s -> c_ph E (s_c E s) = Closed ->
  s_sent E s = answer e inp.
Proof.
  intros EO L R P. destruct (calm_inv e buf inp s EO L R) as [W F]. rewrite P in F. destruct F as (r & F & C).
  rewrite F, C; auto. symmetry. apply app_nil_r.
Qed.
(* C52: a connection without a command to finish waits for data, not for room to write: it does not keep its thread busy *)
Theorem C52_idle e buf inp s : reach e buf inp s -> s_asleep E s = true -> c_ph E (s_c E s) = Read -> c_evw E (s_c E s) = false.
Proof.
  intros R A P. inversion R as [|s0 s1 R0 S]; subst; [discriminate|]. inversion S as [? ? ? A0 H|? A0 V|? A0 V]; subst; [|discriminate..].
  clear R S R0. revert H. unfold CnModel.run1, CnModel.transmit. destruct (c_ph E (s_c E s0)) eqn:P0; cbv beta iota zeta;
    repeat match goal with
    | |- context [match ?x with _ => _ end] => destruct x eqn:?
    end; intros H; try discriminate H; injection H as H; subst s; cbn in A, P |- *; try discriminate; congruence.
Qed.
(* C52: a connection that only waits for data, when none is on the way, has answered everything *)
Theorem C52_no_lost_wakeup_partial e buf inp s : engine_ok -> lines_ok e inp -> reach e buf inp s ->
  s_asleep E s = true -> c_evw E (s_c E s) = false -> s_inp E s = [] -> s_sent E s = answer e inp.
Proof.
  intros EO L R A V I. destruct (reach_inv e buf inp s EO L R) as [(W1 & W2 & W3 & W4 & W5) F]. specialize (W5 A).
  assert (G : forall f : bytes, answer e inp = s_sent E s ++ f -> f = [] -> s_sent E s = answer e inp).
  { intros f H ->. rewrite H. symmetry. apply app_nil_r. }
  destruct (c_ph E (s_c E s)) eqn:P; try tauto; try congruence; destruct F as [F _]; apply (G _ F); unfold CnInv.future; rewrite P.
  - unfold rest. rewrite I, app_nil_r. specialize (W5 V).
    assert (X : content E (s_c E s) = []) by (apply length_zero_iff_nil; rewrite content_len; exact W5). rewrite X. now rewrite answers_none.
  - unfold rest. rewrite I, app_nil_r. rewrite answers_none; auto. now apply find_nl_none.
  - destruct W5 as [Z1 Z2]. assert (X : content E (s_c E s) = []) by (apply length_zero_iff_nil; rewrite content_len; exact Z1).
    destruct W4 as (_ & _ & W4). unfold rest. rewrite I, X. cbn [app length].
    replace (Nat.leb (rem E (s_c E s)) 0) with false; auto. symmetry. apply Nat.leb_gt. unfold rem.
    destruct (Nat.ltb 0 (c_rt E (s_c E s))) eqn:Q; auto. now apply Nat.ltb_lt in Q.
  - destruct W5 as [Z1 Z2]. assert (X : content E (s_c E s) = []) by (apply length_zero_iff_nil; rewrite content_len; exact Z1).
    unfold skipping, rest. rewrite I, X. cbn [app length].
    replace (Nat.leb (c_sb E (s_c E s)) 0) with false; auto. symmetry. now apply Nat.leb_gt.
Qed.
(* the connection stays inside its buffers, and never uses a stale or exhausted list of parts *)
Theorem C52_memory_partial e buf inp s : engine_ok -> lines_ok e inp -> reach e buf inp s ->
  c_cur E (s_c E s) + c_cnt E (s_c E s) <= c_size E (s_c E s) /\ c_ph E (s_c E s) <> Broken.
Proof.
  intros EO L R. destruct (reach_inv e buf inp s EO L R) as [(W1 & W2 & W3 & W4 & W5) F]. split; auto. intros P. now rewrite P in W4.
Qed.

(* C51: the answers to a sequence of requests are the replies to the single requests, in order; whatever bytes the data
   blocks hold *)
Theorem C51_framing e rs tail : Forall (req_ok parse) rs -> cut tail = None ->
  answer e (encode rs ++ tail) = snd (replies (mkX E e p_start) rs).
Proof. intros F T. apply answers_replies; auto. Qed.
Theorem C51_connection_partial e buf rs tail s : engine_ok -> Forall (req_ok parse) rs -> cut tail = None ->
  lines_ok e (encode rs ++ tail) -> reach e buf (encode rs ++ tail) s ->
  (exists r, snd (replies (mkX E e p_start) rs) = s_sent E s ++ r) /\
  (s_asleep E s = true -> c_evw E (s_c E s) = false -> s_inp E s = [] -> s_sent E s = snd (replies (mkX E e p_start) rs)).
Proof.
  intros EO F T L R. rewrite <- (C51_framing e rs tail F T). split.
  - eapply C50_answers_partial; eauto.
  - eapply C52_no_lost_wakeup_partial; eauto.
Qed.
(* outside of pipelines: one status line for each command without noreply, none for the others *)
Notation singles := (singles E parse prepare exec_c comp_c exec_q comp_q).
Theorem C51_replies e rs : Forall (unpiped parse) rs ->
  snd (replies (mkX E e p_start) rs) = snd (singles e rs) /\ x_e E (fst (replies (mkX E e p_start) rs)) = fst (singles e rs).
Proof. intros F. apply replies_singles; auto. repeat split. Qed.
Theorem C51_client_partial e buf rs s : engine_ok -> Forall (req_ok parse) rs -> Forall (unpiped parse) rs ->
  lines_ok e (encode rs) -> reach e buf (encode rs) s ->
  (exists r, snd (singles e rs) = s_sent E s ++ r) /\
  (s_asleep E s = true -> c_evw E (s_c E s) = false -> s_inp E s = [] -> s_sent E s = snd (singles e rs)).
Proof.
  intros EO F U L R. rewrite <- (proj1 (C51_replies e rs U)). apply (C51_connection_partial e buf rs []); rewrite ?app_nil_r; auto.
Qed.

(* C53: pipelining as documented *)
Theorem C53_pipeline e p rs last : off p -> rs <> [] -> Forall (piped parse) rs -> plain parse last ->
  exists p', off p' /\ replies (mkX E e p) (rs ++ [last]) =
    (mkX E (fst (pipeline e 0 [] (rs ++ [last]))) p', snd (pipeline e 0 [] (rs ++ [last]))).
Proof. intros O N F L. apply pipe_run; auto. apply Nat.ltb_lt. reflexivity. Qed.
Theorem C53_client_partial e buf rs last s : engine_ok -> rs <> [] -> Forall (piped parse) rs -> plain parse last ->
  Forall (req_ok parse) (rs ++ [last]) -> lines_ok e (encode (rs ++ [last])) -> reach e buf (encode (rs ++ [last])) s ->
  (exists r, snd (pipeline e 0 [] (rs ++ [last])) = s_sent E s ++ r) /\
  (s_asleep E s = true -> c_evw E (s_c E s) = false -> s_inp E s = [] -> s_sent E s = snd (pipeline e 0 [] (rs ++ [last]))).
Proof.
  intros EO N P Q F L R. destruct (C53_pipeline e p_start rs last) as (p' & _ & H); auto; [split; reflexivity|].
  replace (snd (pipeline e 0 [] (rs ++ [last]))) with (snd (replies (mkX E e p_start) (rs ++ [last]))) by now rewrite H.
  apply (C51_connection_partial e buf (rs ++ [last]) []); rewrite ?app_nil_r; auto.
Qed.

(* the responses fit in the buffer for them, whatever the commands *)
Inductive calls : cst E -> Prop :=
| cl_new e : calls (mkX E e p_start)
| cl_line x line : calls x -> calls (fst (on_line x line))
| cl_data x line d : calls x -> calls (fst (on_data x line d)).
Theorem C53_response_fits x : calls x ->
  PIPE_RES_HEAD_SIZE + length (p_res (x_p E x)) < PIPE_RES_MAX_SIZE /\ length (res_head (p_cnt (x_p E x))) <= PIPE_RES_HEAD_SIZE.
Proof.
  intros C. assert (B : buf_ok (x_p E x)).
  { induction C as [e|x line C IH|x line d C IH]; [|now apply on_line_buf|now apply on_data_buf].
    split; [apply Nat.ltb_lt; reflexivity|]. cbn. split; [lia|reflexivity]. }
  destruct B as (B1 & B2 & _). split.
  - unfold PIPE_RES_MAX_SIZE, PIPE_CMD_MAX_COUNT, PIPE_RES_HEAD_SIZE, PIPE_RES_TAIL_SIZE. revert B1. generalize (500 * 40). intros z B1. lia.
  - assert (G : forallb (fun n => Nat.leb (length (res_head n)) PIPE_RES_HEAD_SIZE) (seq 0 501) = true) by (vm_compute; reflexivity).
    rewrite forallb_forall in G. apply Nat.leb_le. apply G. apply in_seq. split; [lia|]. clear -B2. lia.
Qed.
End Props.

(* ---------- a concrete server ---------- *)

(* p..: piped command; c..: the same without pipe; s..: piped command with four bytes of data; g..: query; q: quit *)
Definition t_parse (line : bytes) : shape :=
  let b := hd 0%N line in
  if (b =? 112)%N then Command WPipe true None None
  else if (b =? 99)%N || (b =? 32)%N then Command WNone true None None
  else if (b =? 115)%N then Command WPipe true None (Some 4)
  else if (b =? 103)%N then Query None
  else if (b =? 113)%N then Quit
  else Reject (text "ERROR unknown command").
Definition t_prepare (e : list bytes) (line : bytes) : list bytes * (list nat + bytes) := (e, inl [3; 3]).
Definition t_exec (e : list bytes) (line : bytes) : list bytes * bytes := (e ++ [line], text "STORED").
Definition t_comp (e : list bytes) (line d : bytes) : list bytes * bytes := (e ++ [line ++ d], text "STORED").
Definition t_query (e : list bytes) (line : bytes) : list bytes * reply := (e, Pieces [text "VALUE "; line ++ crlf]).
Definition t_cquery (e : list bytes) (line d : bytes) : list bytes * reply := (e, Pieces [text "VALUE "; line ++ crlf]).
Definition T := list bytes.
Notation t_run := (run1 T t_parse t_prepare t_exec t_comp t_query t_cquery).
Notation t_reach := (reach T t_parse t_prepare t_exec t_comp t_query t_cquery 3).
Notation t_replies := (replies T t_parse t_prepare t_exec t_comp t_query t_cquery).
Notation t_answer := (answer T t_parse t_prepare t_exec t_comp t_query t_cquery).

Lemma t_engine_ok : engine_ok T t_parse t_prepare t_query t_cquery.
Proof.
  assert (Q : forall line ps, Pieces [text "VALUE "; line ++ crlf] = Pieces ps -> Forall (fun p => p <> []) ps).
  { intros line ps [= <-]. repeat constructor; try discriminate. apply text_crlf_ne. }
  split; [|split].
  - intros e line e' parts n D P. unfold t_prepare in P. injection P as _ <-. unfold t_parse in D.
    assert (n = 4).
    { repeat match type of D with context [if ?x then _ else _] => destruct x; try discriminate end; now injection D. }
    subst. cbn. split; [lia|repeat constructor].
  - intros e line e' ps H. unfold t_query in H. apply (Q line). congruence.
  - intros e line d e' ps H. unfold t_cquery in H. apply (Q line). congruence.
Qed.

(* a run of it: reads and writes of at most k bytes *)
Fixpoint auto (fuel k : nat) (s : sys T) : sys T :=
  match fuel with
  | O => s
  | S f =>
      if s_asleep T s then (if c_evw T (s_c T s) || negb (is_nil (s_inp T s)) then auto f k (wake T 3 s) else s)
      else match t_run s (Got k) with
           | Some s' => auto f k s'
           | None => match t_run s (Got 1) with
                     | Some s' => auto f k s'
                     | None => match t_run s Again with Some s' => auto f k s' | None => s end
                     end
           end
  end.
Lemma auto_reach e buf inp fuel k : forall s, t_reach e buf inp s -> t_reach e buf inp (auto fuel k s).
Proof.
  induction fuel as [|f IH]; intros s R; [exact R|]. cbn [auto]. destruct (s_asleep T s) eqn:A.
  - destruct (c_evw T (s_c T s) || negb (is_nil (s_inp T s))); [|exact R]. apply IH. eapply r_step; [exact R|].
    destruct (c_evw T (s_c T s)) eqn:V; [now apply st_write|now apply st_read].
  - destruct (t_run s (Got k)) as [s'|] eqn:G1; [apply IH; eapply r_step; [exact R|eapply st_run; eauto]|].
    destruct (t_run s (Got 1)) as [s'|] eqn:G2; [apply IH; eapply r_step; [exact R|eapply st_run; eauto]|].
    destruct (t_run s Again) as [s'|] eqn:G3; [apply IH; eapply r_step; [exact R|eapply st_run; eauto]|exact R].
Qed.
Inductive act := W | R (r : io).
Fixpoint go (s : sys T) (l : list act) : option (sys T) :=
  match l with
  | [] => Some s
  | W :: l' => if s_asleep T s then go (wake T 3 s) l' else None
  | R r :: l' => if s_asleep T s then None else match t_run s r with Some s' => go s' l' | None => None end
  end.
Lemma go_reach e buf inp l : forall s s', t_reach e buf inp s -> go s l = Some s' -> t_reach e buf inp s'.
Proof.
  induction l as [|a l IH]; intros s s' H G; cbn [go] in G.
  - now injection G as <-.
  - destruct a as [|r]; destruct (s_asleep T s) eqn:A; try discriminate.
    + apply (IH (wake T 3 s)); auto. eapply r_step; [exact H|].
      destruct (c_evw T (s_c T s)) eqn:V; [now apply st_write|now apply st_read].
    + destruct (t_run s r) as [s2|] eqn:G2; [|discriminate]. apply (IH s2); auto. eapply r_step; [exact H|eapply st_run; eauto].
Qed.

Definition stream : bytes :=
  text "pa" ++ crlf ++ text "s1" ++ crlf ++ [13; 10; 99; 10]%N ++ text "cb" ++ crlf ++ text "gk" ++ crlf ++ text "zz" ++ crlf ++ text "p".
Definition stream_reqs : list req :=
  [(text "pa", []); (text "s1", [13; 10; 99; 10]%N); (text "cb", []); (text "gk", []); (text "zz", [])].
Definition stream_out : bytes :=
  text "RESPONSE 3" ++ crlf ++ text "STORED" ++ crlf ++ text "STORED" ++ crlf ++ text "STORED" ++ crlf ++ text "END" ++ crlf ++
  text "VALUE gk" ++ crlf ++ text "ERROR unknown command" ++ crlf.
Example C50_nontrivial : forall k, In k [2; 7; 100] ->
  exists s, t_reach [] (fun _ => 0%N) stream s /\ s_sent T s = stream_out /\ s_asleep T s = true /\ c_evw T (s_c T s) = false /\ s_inp T s = [] /\
    lines_ok T t_parse t_prepare t_exec t_comp t_query t_cquery [] stream.
Proof.
  intros k K. exists (auto 500 k (s_new T [] (fun _ => 0%N) stream)). split; [apply auto_reach; constructor|].
  cut (lines_ok T t_parse t_prepare t_exec t_comp t_query t_cquery [] stream).
  - intros L.
    assert (X : forall (s : sys T) o, (s_sent T s, s_asleep T s, c_evw T (s_c T s), s_inp T s) = (o, true, false, []) ->
              s_sent T s = o /\ s_asleep T s = true /\ c_evw T (s_c T s) = false /\ s_inp T s = [] /\ lines_ok T t_parse t_prepare t_exec t_comp t_query t_cquery [] stream)
      by (intros s o [= -> -> -> ->]; auto).
    apply X. clear X. repeat destruct K as [<-|K]; try easy; vm_compute; reflexivity.
  - unfold lines_ok. vm_compute. repeat (constructor; [left; apply Nat.leb_le; reflexivity|]). constructor.
Qed.
Example C51_nontrivial : Forall (req_ok t_parse) stream_reqs /\ encode stream_reqs ++ text "p" = stream /\
  snd (t_replies (mkX T [] p_start) stream_reqs) = stream_out /\ fst (t_replies (mkX T [] p_start) stream_reqs) =
    mkX T [text "pa"; text "s1" ++ [13; 10; 99; 10]%N; text "cb"] (mkP POff 0 (text "STORED" ++ crlf ++ text "STORED" ++ crlf ++ text "STORED" ++ crlf ++ text "END" ++ crlf) false).
Proof.
  split; [|split; [|split]]; try (vm_compute; reflexivity).
  repeat constructor; try discriminate; cbn; intros H; repeat destruct H as [H|H]; try discriminate; auto.
Qed.
Example C51_replies_nontrivial : let rs := [(text "c1", []); (text "gk", []); (text "zz", [])] in
  Forall (unpiped t_parse) rs /\ snd (singles T t_parse t_prepare t_exec t_comp t_query t_cquery [] rs) =
    text "STORED" ++ crlf ++ text "VALUE gk" ++ crlf ++ text "ERROR unknown command" ++ crlf.
Proof.
  cbv zeta. split; [|vm_compute; reflexivity]. repeat constructor; intros b d H; vm_compute in H; discriminate.
Qed.

(* the theorems need the bound on the lines: this line is answered if it arrives in one piece, and the connection is closed
   without an answer if not *)
Definition long : bytes := repeat 32%N 101 ++ repeat 97%N 999 ++ [10]%N.
Theorem C50_split_refuted :
  exists s1 s2, t_reach [] (fun _ => 0%N) long s1 /\ t_reach [] (fun _ => 0%N) long s2 /\
    c_ph T (s_c T s1) = Closed /\ s_sent T s1 = [] /\ s_asleep T s2 = true /\ s_sent T s2 = text "STORED" ++ crlf.
Proof.
  destruct (go (s_new T [] (fun _ => 0%N) long) [W; R Again; R Again; W; R Again; R (Got 1050); R Again; R Again]) as [s1|] eqn:G1; [|exfalso; vm_compute in G1; discriminate].
  destruct (go (s_new T [] (fun _ => 0%N) long) [W; R Again; R Again; W; R Again; R (Got 1101); R Again; R (Got 8); R Again; R Again; R Again]) as [s2|] eqn:G2; [|exfalso; vm_compute in G2; discriminate].
  exists s1, s2. split; [eapply go_reach; [|exact G1]; constructor|]. split; [eapply go_reach; [|exact G2]; constructor|].
  assert (X1 : option_map (fun s => (c_ph T (s_c T s), s_sent T s)) (Some s1) = Some (Closed, [])) by (rewrite <- G1; vm_compute; reflexivity).
  assert (X2 : option_map (fun s => (s_asleep T s, s_sent T s)) (Some s2) = Some (true, text "STORED" ++ crlf)) by (rewrite <- G2; vm_compute; reflexivity).
  cbn in X1, X2. injection X1 as -> ->. injection X2 as -> ->. auto.
Qed.
(* nor may the end of the stream follow a read that filled the buffer: complete commands are dropped *)
Definition filled : bytes := text "c1" ++ crlf ++ repeat 99%N 2044.
Theorem C50_end_of_stream_refuted :
  exists s, t_reach [] (fun _ => 0%N) filled s /\ c_ph T (s_c T s) = Closed /\ s_sent T s = [] /\ x_e T (c_x T (s_c T s)) = [] /\
    t_answer [] filled = text "STORED" ++ crlf.
Proof.
  destruct (go (s_new T [] (fun _ => 0%N) filled) [W; R Again; R Again; W; R Again; R (Got 2048); R Eof; R Again]) as [s|] eqn:G; [|exfalso; vm_compute in G; discriminate].
  exists s. split; [eapply go_reach; [|exact G]; constructor|].
  assert (X : option_map (fun s => (c_ph T (s_c T s), s_sent T s, x_e T (c_x T (s_c T s)))) (Some s) = Some (Closed, [], [])) by (rewrite <- G; vm_compute; reflexivity).
  cbn in X. injection X as -> -> ->. do 3 (split; [reflexivity|]). vm_compute. reflexivity.
Qed.

Example C53_nontrivial : let rs := repeat (text "pa", []) 510 in
  Forall (piped t_parse) rs /\ plain t_parse (text "cb", []) /\
  length (fst (pipeline T t_parse t_prepare t_exec t_comp [] 0 [] (rs ++ [(text "cb", [])]))) = 500 /\
  snd (pipeline T t_parse t_prepare t_exec t_comp [] 0 [] (firstn 2 rs ++ [(text "cb", [])])) =
    text "RESPONSE 3" ++ crlf ++ text "STORED" ++ crlf ++ text "STORED" ++ crlf ++ text "STORED" ++ crlf ++ text "END" ++ crlf.
Proof.
  cbv zeta. split; [|split; [|split]].
  - apply Forall_forall. intros r H. apply repeat_spec in H. subst. exists None. reflexivity.
  - exists None. reflexivity.
  - vm_compute. reflexivity.
  - vm_compute. reflexivity.
Qed.
(* a line that is refused before its last word is looked at ends the pipeline: the rest of it is executed nevertheless *)
Theorem C53_rejected_line_refuted :
  ~ (forall rs1 bad rs2 last, rs1 <> [] -> Forall (piped t_parse) rs1 -> Forall (piped t_parse) rs2 -> plain t_parse last ->
     (exists msg, t_parse (fst bad) = Reject msg /\ severe msg = true) ->
     x_e T (fst (t_replies (mkX T [] p_start) (rs1 ++ bad :: rs2 ++ [last]))) = x_e T (fst (t_replies (mkX T [] p_start) (rs1 ++ [bad])))).
Proof.
  intros H. specialize (H [(text "p1", [])] (text "zz pipe", []) [(text "p2", [])] (text "c3", [])).
  assert (P : forall l, hd 0%N l = 112%N -> piped t_parse (l, [])) by (intros l Q; exists None; unfold t_parse; cbn [fst]; now rewrite Q).
  assert (X : [text "p1"; text "p2"; text "c3"] = [text "p1"]); [|discriminate X].
  apply H; [discriminate|repeat constructor; now apply P|repeat constructor; now apply P|exists None; reflexivity|].
  exists (text "ERROR unknown command"). split; reflexivity.
Qed.
(* a query inside a pipeline is answered before the commands in front of it *)
Theorem C53_query_order_refuted :
  ~ (forall rs1 q last, rs1 <> [] -> Forall (piped t_parse) rs1 -> t_parse (fst q) = Query None -> plain t_parse last ->
     exists o, snd (t_replies (mkX T [] p_start) (rs1 ++ [q; last])) = text "RESPONSE " ++ o).
Proof.
  intros H. destruct (H [(text "p1", [])] (text "gk", []) (text "c3", [])) as [o O]; try discriminate; auto.
  - repeat constructor. exists None. reflexivity.
  - exists None. reflexivity.
Qed.

Print Assumptions C50_answers_partial.
Print Assumptions C50_closed_partial.
Print Assumptions C52_idle.
Print Assumptions C52_no_lost_wakeup_partial.
Print Assumptions C52_memory_partial.
Print Assumptions C51_framing.
Print Assumptions C51_connection_partial.
Print Assumptions C51_replies.
Print Assumptions C51_client_partial.
Print Assumptions C53_pipeline.
Print Assumptions C53_client_partial.
Print Assumptions C53_response_fits.
Print Assumptions C50_split_refuted.
Print Assumptions C50_end_of_stream_refuted.
Print Assumptions C53_rejected_line_refuted.
Print Assumptions C53_query_order_refuted.
