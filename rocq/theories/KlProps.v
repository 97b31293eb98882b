From Coq Require Import String Ascii.
From Verif Require Import Base UtilModel UtilSpec UtilProofs ArgTypes ArgSpec ArgModel ArgProofs.
From Verif Require KvModel KvSpec KvRefine KvFlush KvStep KvRun AtModel AtSpec.
From Verif Require Import KlModel KlSpec KlProofs KlRun.
From Coq Require Import List ZArith NArith Lia Bool.
Import KvSpec.
Local Open Scope nat_scope.
Local Open Scope list_scope.

(* ---------- C63: the key-value command lines ---------- *)
(* Every documented line is the request it describes, but for one (see C63_noreply_refuted). *)
Theorem C63_documented_partial toks r q : says toks r q -> toks <> [txt "flush_prefix"; txt "noreply"] -> parse toks = Ask r q.
Proof. exact (says_parsed toks r q). Qed.
(* No other line is a request, but for those listed in [ignores]. *)
Theorem C63_nothing_else_partial toks r q : parse toks = Ask r q -> says toks r q \/ ignores toks r q.
Proof. intro H. destruct (parsed_says toks r q H) as [[S _]|I]; auto. Qed.
(* and those are all accepted *)
Theorem C63_others_accepted toks r q : ignores toks r q -> parse toks = Ask r q.
Proof. exact (ignores_parsed toks r q). Qed.
Theorem C63_one_meaning toks r q r' q' : says toks r q -> says toks r' q' -> r = r' /\ q = q'.
Proof. exact (says_one toks r q r' q'). Qed.
(* A line that is refused is answered with a client error; nothing is said only if noreply was asked for. *)
Theorem C63_refused toks t q : parse toks = Refused t q -> error_reply t /\ (q = true -> last toks [] = txt "noreply").
Proof. exact (refused_text toks t q). Qed.
(* and every line of these commands with a possible number of words is answered or carried out *)
Theorem C63_not_passed_over toks : ours toks -> parse toks <> Other.
Proof. intros H E. exact (other_not_ours toks E H). Qed.

(* a misspelt noreply makes a flush that was asked for in ten seconds immediate *)
Theorem C63_flush_refuted :
  let l := [txt "flush_all"; txt "10"; txt "norepl"] in
  parse l = Ask (RFlushAll 0) false /\ forall r q, ~ says l r q.
Proof.
  cbv zeta. split; [vm_compute; reflexivity|]. intros r q S. pose proof (says_parsed _ _ _ S) as P.
  assert (N : ~ silly [txt "flush_all"; txt "10"; txt "norepl"]) by (apply ns; reflexivity). specialize (P N).
  inversion S as [w cas k keys W K| | |w incr k d dn q0 b W K D Q| |k z q0 b K Z Q|k e ex q0 b K E Q|w d q0 b D Q|p po w d q0 b P0 D Q]; subst; try discriminate.
  inversion D; subst; inversion Q; subst; discriminate.
Qed.
(* the prefix "noreply" is flushed without an answer, although one is due *)
Theorem C63_noreply_refuted :
  let l := [txt "flush_prefix"; txt "noreply"] in
  says l (RFlushPrefix (Some (txt "noreply")) 0) false /\ parse l = Ask (RFlushPrefix (Some (txt "noreply")) 0) true.
Proof.
  cbv zeta. split; [|vm_compute; reflexivity]. apply (s_prefix (txt "noreply") _ [] 0 []); [|constructor|constructor].
  constructor; [intro X; discriminate X|cbn; lia].
Qed.
(* a word too many is ignored *)
Theorem C63_extra_refuted :
  let l := [txt "incr"; txt "a"; txt "1"; txt "norepyl"] in
  parse l = Ask (RArith true (txt "a") 1 None) false /\ forall r q, ~ says l r q.
Proof.
  cbv zeta. split; [vm_compute; reflexivity|]. intros r q S.
  inversion S as [w cas k keys W K| | |w incr k d dn q0 b W K D Q| |k z q0 b K Z Q|k e ex q0 b K E Q|w d q0 b D Q|p po w d q0 b P0 D Q]; subst; try discriminate.
  - inversion W.
  - inversion Q.
Qed.
Example C63_set : says [txt "set"; txt "foo"; txt "7"; txt "-1"; txt "3"; txt "noreply"] (RStore KvModel.KSet (txt "foo") 7 (-1) 3 0) true.
Proof.
  econstructor; [constructor|cbv; discriminate|apply u32_ok; vm_compute; reflexivity|apply i64_ok; vm_compute; reflexivity|apply i32_ok; vm_compute; reflexivity|split; discriminate|constructor].
Qed.
Example C63_incr : says [txt "incr"; txt "n"; txt "5"; txt "0"; txt "60"; txt "100"] (RArith true (txt "n") 5 (Some (0%N, 60%Z, 100%N))) false.
Proof.
  econstructor; [constructor|cbv; discriminate|apply u64_ok; vm_compute; reflexivity|apply u32_ok; vm_compute; reflexivity|apply i64_ok; vm_compute; reflexivity|apply u64_ok; vm_compute; reflexivity|constructor].
Qed.
Example C63_refused_case : parse [txt "set"; txt "foo"; txt "7"; txt "x"; txt "3"] = Refused bad_line false.
Proof. vm_compute. reflexivity. Qed.

(* ---------- C64: the dialogue ---------- *)
Section Dialogue.
Variable lru_class : bool -> bytes -> bytes -> nat.
Variable maxcls : nat.
Notation run started l := (snd (serve_all lru_class maxcls false started KvModel.init l)).

(* a history a client can bring about: each data block as long as announced, no flush, up for less than 68
   years less 30 days *)
Definition history (started : Z) (l : list event) : Prop :=
  (0 <= started)%Z /\ Forall plain_event l /\ (2 + waits l < 2 ^ 31 - 2592000)%Z.
(* With eviction switched off, every reply is that of a map from keys to values. *)
Theorem C64_dialogue_partial started l : history started l -> exists st, dialogue started empty_cache l (run started l) st.
Proof.
  intros (S & P & T). destruct (serve_all lru_class maxcls false started KvModel.init l) as [s os] eqn:E.
  destruct (serve_all_ok lru_class maxcls started S l _ _ _ _ (KvRun.R_init _ _) P ltac:(cbn; lia) T E) as (st & D & _). exists st. exact D.
Qed.

Lemma dialogue_app started l1 : forall st l2 os st', dialogue started st (l1 ++ l2) os st' ->
  exists os1 os2 st1, os = os1 ++ os2 /\ List.length os1 = List.length l1 /\ dialogue started st l1 os1 st1 /\ dialogue started st1 l2 os2 st'.
Proof.
  induction l1 as [|e l1 IH]; intros st l2 os st' D.
  - exists [], os, st. repeat split; [constructor|exact D].
  - cbn [app] in D. inversion D as [|? ? o st1 ? os1 ? X D1]; subst. destruct (IH _ _ _ _ D1) as (a & b & st2 & -> & L & A & B).
    exists (o :: a), b, st2. repeat split; [cbn; now rewrite L|econstructor; eassumption|exact B].
Qed.
Lemma exchange_request started st toks data o1 o2 tail o st' r q : exchange started st (Line toks data o1 o2 tail) o st' -> says toks r q ->
  toks <> [txt "flush_prefix"; txt "noreply"] -> exists t, answers started st r data tail t st' /\ reply_is q t o.
Proof.
  intros X S N. pose proof (says_parsed _ _ _ S N) as P.
  inversion X as [|? ? ? ? ? ? r0 q0 t ? ? S0 A RP|? ? ? ? ? ? r0 q0 t ? ? S0 A RP|? ? ? ? ? ? t q0 ? ? NS|? ? ? ? ? ? _ NS]; subst.
  - destruct (says_one _ _ _ _ _ S S0) as [<- <-]. eauto.
  - pose proof (ignores_parsed _ _ _ S0) as P0. rewrite P in P0. apply ask_inj in P0. destruct P0 as [<- <-]. eauto.
  - exfalso. exact (NS _ _ S).
  - exfalso. exact (NS _ _ S).
Qed.
Lemma line_inj a b : a ++ line_end = b ++ line_end -> a = b.
Proof. apply app_inv_tail. Qed.

(* Whatever came before: a value whose storage is confirmed is what the next get returns, byte for byte. *)
Theorem C64_set_get started l set_line get_line k f e n v o1 o2 o3 o4 t1 t2 :
  let events := l ++ [Line set_line (v ++ line_end) o1 o2 t1; Line get_line [] o3 o4 t2] in
  history started events ->
  says set_line (RStore KvModel.KSet k f e n 0) false ->
  says get_line (RGet false [k]) false ->
  (e = -1 \/ 0 <= e <= 2592000)%Z ->
  forall os o, run started events = os ++ [Some (txt "STORED" ++ line_end); o] ->
  o = Some (txt "VALUE " ++ k ++ [32%N] ++ dec_text f ++ [32%N] ++ dec_text (N.of_nat (List.length v)) ++ line_end ++ v ++ line_end ++ txt "END" ++ line_end).
Proof.
  cbv zeta. intros Hi S1 S2 EX os o OUT. pose proof Hi as (S0 & P & T).
  destruct (serve_all lru_class maxcls false started KvModel.init (l ++ [Line set_line (v ++ line_end) o1 o2 t1; Line get_line [] o3 o4 t2])) as [s os0] eqn:E. cbn [snd] in OUT.
  destruct (serve_all_ok lru_class maxcls started S0 _ _ _ _ _ (KvRun.R_init _ _) P ltac:(cbn; lia) T E) as (st & D & _).
  destruct (dialogue_app started l _ _ _ _ D) as (a & b & st1 & EQ & L & D1 & D2).
  rewrite EQ in OUT. clear EQ E D.
  inversion D2 as [|? ? x1 st2 ? xs ? X1 D3]; subst. inversion D3 as [|? ? x2 st3 ? ys ? X2 D4]; subst. inversion D4; subst.
  assert (Q : a = os /\ x1 = Some (txt "STORED" ++ line_end) /\ x2 = o).
  { change [x1; x2] with ([x1] ++ [x2]) in OUT. change [Some (txt "STORED" ++ line_end); o] with ([Some (txt "STORED" ++ line_end)] ++ [o]) in OUT.
    rewrite !app_assoc in OUT. apply app_inj_tail in OUT. destruct OUT as [OUT <-]. apply app_inj_tail in OUT. destruct OUT as [<- ->]. auto. }
  destruct Q as (-> & -> & ->). clear OUT D2 D3 D4.
  destruct (exchange_request _ _ _ _ _ _ _ _ _ _ _ X1 S1) as (u1 & A1 & R1).
  { intros ->. inversion S1. }
  destruct (exchange_request _ _ _ _ _ _ _ _ _ _ _ X2 S2) as (u2 & A2 & R2).
  { intros ->. inversion S2; subst. match goal with H : get_word _ _ |- _ => inversion H end. }
  unfold reply_is in R1, R2. assert (U1 : u1 = txt "STORED") by (apply line_inj; congruence). subst u1.
  cbn [answers] in A1. destruct A1 as [[A _]|[[A _]|(w & DW & A)]]; try discriminate A.
  apply app_inv_tail in DW. subst w.
  assert (NE : new_entry st1 k v f (expiry started st1 e) st2).
  { destruct (slook st1 k) as [x|]; [destruct (e_coll x); [destruct A as [A _]; discriminate A|exact (proj2 A)]|].
    destruct A as [A|[A _]]; [exact (proj2 A)|discriminate A]. }
  destruct NE as (c & _ & (M & _ & _ & NW)). cbn [answers] in A2. destruct A2 as [_ ->].
  assert (LK : slook st2 k = Some (mkEntry v f (expiry started st1 e) c false)).
  { unfold slook. rewrite M, beqb_refl, NW. cbv iota. unfold alive. cbn [e_exp].
    (* the clock stays inside its range *)
    assert (RG : (1 <= snow st1 < 2 ^ 31 - 2592000)%Z).
    { assert (G : forall m st0 xs st9, dialogue started st0 m xs st9 -> Forall plain_event m -> snow st9 = (snow st0 + waits m)%Z).
      { assert (AN : forall st0 r data tail t st9, answers started st0 r data tail t st9 -> snow st9 = snow st0).
        { assert (B1 : forall a b, same_cache a b -> snow b = snow a) by (intros ? ? (_ & _ & _ & B); exact B).
          assert (B2 : forall a k v c b, entry_set a k v c b -> snow b = snow a) by (intros ? ? ? ? ? (_ & _ & _ & B); exact B).
          assert (B3 : forall a k v f e b, new_entry a k v f e b -> snow b = snow a) by (intros ? ? ? ? ? ? (? & _ & B); eapply B2; exact B).
          clear - B1 B2 B3. intros st0 r data tail t st9 A. destruct r as [cas keys|kind k f e n c|incr k d ini|k|k e|d|p d]; cbn [answers] in A; try contradiction.
          - apply B1, A.
          - destruct A as [[_ A]|[(_ & _ & A)|(w & _ & A)]]; [destruct kind; eauto; destruct (slook st0 k); eauto|eauto|].
            destruct (slook st0 k) as [x|]; [destruct (e_coll x); [apply B1, A|]|]; destruct kind; try (apply B1, A); try (eapply B3, A);
            repeat match goal with H : _ \/ _ |- _ => destruct H as [H|H] | H : _ /\ _ |- _ => destruct H end; eauto.
          - destruct (slook st0 k) as [x|]; [destruct (e_coll x); [apply B1, A|]|destruct ini as [[[? ?] ?]|]; [|apply B1, A]];
            repeat match goal with H : _ \/ _ |- _ => destruct H as [H|H] | H : _ /\ _ |- _ => destruct H | H : exists _, _ |- _ => destruct H end; eauto.
          - destruct (slook st0 k); destruct A; eauto.
          - destruct (slook st0 k); [destruct (Bool.eqb _ _)|]; destruct A; eauto. }
        clear - AN. induction 1 as [st0|st0 ev x st8 m xs st9 X D IH]; intro P; cbn [waits]; [lia|]. inversion P; subst. rewrite IH by assumption.
        inversion X; subst; cbn [waits]; try (match goal with A : answers _ _ _ _ _ _ _ |- _ => apply AN in A; lia end); try lia.
        match goal with A : same_cache _ _ |- _ => destruct A as (_ & _ & _ & A); lia end. }
      apply Forall_app in P. destruct P as [P1 _]. rewrite (G _ _ _ _ D1 P1).
      assert (W : forall m, (0 <= waits m)%Z) by (intro m; induction m as [|[] m IH]; cbn [waits]; lia).
      assert (WA : forall m1 m2, waits (m1 ++ m2) = (waits m1 + waits m2)%Z) by (intros m1 m2; induction m1 as [|[] m1 IH]; cbn [waits app]; lia).
      rewrite WA in T. cbn [waits] in T. pose proof (W l). change (snow empty_cache) with 2%Z. lia. }
    assert (AL : ((expiry started st1 e =? 0) || (snow st1 <? expiry started st1 e))%Z%bool = true).
    { apply orb_true_iff. rewrite Z.eqb_eq, Z.ltb_lt. unfold expiry, AtSpec.due. cbn [AtModel.cur AtModel.started].
      destruct (Z.eqb_spec e 0); [left; reflexivity|]. destruct (Z.eqb_spec e (-1)); [right; lia|].
      destruct (Z.ltb_spec e 0); [lia|]. destruct (Z.leb_spec e 2592000); lia. }
    rewrite AL. reflexivity. }
  cbv iota in R2. rewrite R2. cbn [map List.concat]. rewrite LK. cbn [e_coll]. rewrite app_nil_r. f_equal.
  unfold value_line. cbn [e_flags e_val]. cbv iota. do 8 (cbn [app]; try rewrite <- !app_assoc). reflexivity.
Qed.
End Dialogue.

(* ---------- a concrete dialogue ---------- *)
Definition mem : KvModel.oracle := KvModel.mkOracle false 0 [true; true; true].
Definition cls1 : bool -> bytes -> bytes -> nat := fun _ _ _ => 1.
Definition ln (ws : list string) (data : bytes) : event := Line (map txt ws) data mem mem [].
Definition blk (w : string) : bytes := txt w ++ line_end.
Definition talk : list event :=
  [ ln ["set"; "foo"; "7"; "10"; "3"] (blk "bar");
    ln ["append"; "foo"; "0"; "0"; "2"; "noreply"] (blk "12");
    ln ["gets"; "foo"; "zoo"] [];
    ln ["add"; "foo"; "0"; "0"; "1"] (blk "x");
    ln ["incr"; "n"; "5"; "0"; "0"; "41"] [];
    ln ["incr"; "n"; "1"] [];
    Wait 9;
    ln ["get"; "foo"; "n"] [];
    Wait 1;
    ln ["get"; "foo"] [];
    ln ["set"; "foo"; "7"; "0"; "3"] (txt "barxx");
    ln ["set"; "foo"; "x"; "0"; "3"] [];
    ln ["delete"; "n"] [];
    ln ["set"; "k"; "9"; "0"; "4"] (blk "abcd");
    ln ["get"; "k"] [] ]%string.
Example C64_talk : snd (serve_all cls1 2 false 1000 KvModel.init talk) =
  [ Some (txt "STORED" ++ line_end); None;
    Some (txt "VALUE foo 7 5 2" ++ line_end ++ txt "bar12" ++ line_end ++ txt "END" ++ line_end);
    Some (txt "NOT_STORED" ++ line_end); Some (txt "41" ++ line_end); Some (txt "42" ++ line_end); None;
    Some (txt "VALUE foo 7 5" ++ line_end ++ txt "bar12" ++ line_end ++ txt "VALUE n 0 2" ++ line_end ++ txt "42" ++ line_end ++ txt "END" ++ line_end);
    None; Some (txt "END" ++ line_end); Some (txt "CLIENT_ERROR bad data chunk" ++ line_end);
    Some (txt "CLIENT_ERROR bad command line format" ++ line_end); Some (txt "DELETED" ++ line_end);
    Some (txt "STORED" ++ line_end);
    Some (txt "VALUE k 9 4" ++ line_end ++ txt "abcd" ++ line_end ++ txt "END" ++ line_end) ].
Proof. vm_compute. reflexivity. Qed.
Lemma plain_by_parse toks data o1 o2 tail : toks <> [txt "flush_prefix"; txt "noreply"] ->
  match parse toks with Ask r _ => plain r data | _ => True end -> plain_event (Line toks data o1 o2 tail).
Proof.
  intros N H r q [S|S]; [rewrite (says_parsed _ _ _ S N) in H|rewrite (ignores_parsed _ _ _ S) in H]; exact H.
Qed.
Lemma short_none k : KvFlush.fpfx k = None -> short_prefix k.
Proof. intros H q P. apply KvFlush.fpfx_has in P. congruence. Qed.
Example C64_talk_history : history 1000 talk.
Proof.
  split; [lia|]. split; [|vm_compute; reflexivity]. unfold talk.
  repeat (constructor; [first [exact I|apply plain_by_parse; [discriminate|
    match goal with |- match ?p with _ => _ end => let v := eval vm_compute in p in change p with v end; cbv iota; cbn [plain];
    first [exact I|split; [vm_compute; reflexivity|apply short_none; vm_compute; reflexivity]|apply short_none; vm_compute; reflexivity]]]|]).
  constructor.
Qed.
(* the last two events are those of C64_set_get *)
Example C64_set_get_case : exists l t1 t2 o1 o2 o3 o4, talk = l ++ [Line (map txt ["set"; "k"; "9"; "0"; "4"]%string) (txt "abcd" ++ line_end) o1 o2 t1; Line (map txt ["get"; "k"]%string) [] o3 o4 t2] /\
  says (map txt ["set"; "k"; "9"; "0"; "4"]%string) (RStore KvModel.KSet (txt "k") 9 0 4 0) false /\ says (map txt ["get"; "k"]%string) (RGet false [txt "k"]) false.
Proof.
  exists (firstn 13 talk), [], [], mem, mem, mem, mem. split; [reflexivity|]. split.
  - apply (s_store (txt "set") KvModel.KSet (txt "k") (txt "9") 9 (txt "0") 0 (txt "4") 4 [] false);
    [constructor|cbv; discriminate|apply u32_ok; vm_compute; reflexivity|apply i64_ok; vm_compute; reflexivity|apply i32_ok; vm_compute; reflexivity|split; discriminate|constructor].
  - constructor; [constructor|]. repeat constructor. cbv. discriminate.
Qed.

Print Assumptions C63_documented_partial.
Print Assumptions C63_nothing_else_partial.
Print Assumptions C63_others_accepted.
Print Assumptions C63_one_meaning.
Print Assumptions C63_refused.
Print Assumptions C63_not_passed_over.
Print Assumptions C63_flush_refuted.
Print Assumptions C63_noreply_refuted.
Print Assumptions C63_extra_refuted.
Print Assumptions C64_dialogue_partial.
Print Assumptions C64_set_get.
