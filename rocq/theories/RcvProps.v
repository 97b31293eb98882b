(* Property theorems about recovery from the command log (C27, C28). *)
From Verif Require Import Base RecModel RecSpec RecProofs RcvModel RcvSpec RcvProofs.
Local Open Scope N_scope.

(* C27: whatever the commands, whatever the byte at which the log ends, and whatever applying an operation
   does to the data: recovery gives the data after the commands done, those all of whose records are in the
   file, and nothing of the others; it fails only for lack of memory. *)
Theorem C27_recovery (St : Type) exec clk junk pjunk (us : list command) n (st : St) :
  fine clk us -> (n <= length (log us))%nat ->
  exists done rest, us = done ++ rest /\ (length (log done) <= n)%nat /\
    (forall u rest', rest = u :: rest' -> (n < length (log (done ++ [u])))%nat) /\
    match effects St exec clk done st with
    | Some st' => exists pos, recover St exec clk junk pjunk (firstn n (log us)) st = (st', Some pos)
    | None => snd (recover St exec clk junk pjunk (firstn n (log us)) st) = None
    end.
Proof.
  intros HF HN. destruct (split_at us n HN) as (done & rest & E & LD & A & B). exists done, rest.
  split; [exact E|]. split; [exact LD|]. split.
  - intros u rest' ->. specialize (B u eq_refl). rewrite log_app, app_length. unfold log at 2. cbn [map concat].
    rewrite app_nil_r. lia.
  - assert (FN : firstn n (log us) = log done ++ firstn (n - length (log done)) (log rest)).
    { rewrite E, log_app, firstn_app, (firstn_all2 (log done)) by exact LD. reflexivity. }
    rewrite FN. rewrite E in HF.
    destruct (recover_split St exec clk junk pjunk done rest (n - length (log done)) st HF) as (p & _ & _ & _ & P).
    + intros ->. rewrite A, E, app_nil_r by reflexivity. lia.
    + exact B.
    + destruct (effects St exec clk done st); [eexists; exact P|exact P].
Qed.

(* the whole log: all commands *)
Theorem C27_all (St : Type) exec clk junk pjunk (us : list command) (st : St) :
  fine clk us ->
  match effects St exec clk us st with
  | Some st' => recover St exec clk junk pjunk (log us) st = (st', Some (N.of_nat (length (log us))))
  | None => snd (recover St exec clk junk pjunk (log us) st) = None
  end.
Proof.
  intros HF. destruct (recover_split St exec clk junk pjunk us [] 0 st) as (p & _ & P0 & _ & P).
  - rewrite app_nil_r. exact HF.
  - reflexivity.
  - discriminate.
  - rewrite (P0 eq_refl), Nat.add_0_r, firstn_O, app_nil_r in P. exact P.
Qed.

(* an engine that remembers the calls *)
Definition note (st : list call) (c : option call) : list call * bool :=
  (match c with None => st | Some c => st ++ [c] end, false).
Definition jk0 : nat -> N := fun n => N.of_nat (n mod 256).
Definition clkA : clock := Clock 600 1700000000.
Definition clkB : clock := Clock 10 1700000500.
Definition kv (k v : bytes) : ritem := RItem 0 k v 0 0 1 0 0 0%Z (255, []).
Definition ls (k : bytes) : ritem := RItem 1 k [13; 10] 0 0 1 1 2 100%Z (255, []).
Definition h0 : list command :=
  [One (Entry jk0 clkA (OLink (kv [97] [49; 13; 10])));
   Many jk0 [Entry jk0 clkA (OListDel (ls [98]) 3 0%Z 1 false); Entry jk0 clkA (OListDel (ls [98]) 2 0%Z 1 false)] jk0;
   One (Entry jk0 clkA (OUnlink (kv [97] [])))].
Example C27_fine : fine clkB h0.
Proof.
  unfold fine, h0, loggable, wf, wf_item, timed, clocks. cbn [map concat entries app e_op e_clk].
  repeat (apply Forall_cons || apply Forall_nil); cbn [e_op e_clk kv ls r_type r_key r_data r_flags r_exp r_cas r_ovfl r_mflags r_mcnt r_maxbkr fst];
    repeat split; try discriminate; try (unfold blen; cbn [length]; lia);
    try (cbn [clkA clkB c_unix c_cur]; lia); try (vm_compute; discriminate).
Qed.
(* cut inside the group: the set is applied, neither of the deletions *)
Example C27_cut : length (log h0) = 136%nat /\
  recover (list call) note clkB [] [] (firstn 110 (log h0)) [] =
  ([CKvLink [97] 0 0 [49; 13; 10] 1], Some 80).
Proof. vm_compute. split; reflexivity. Qed.

(* C28: a second crash.  After the first recovery, with the descriptor at pos, new commands are logged over
   what is left of the torn record.  If the first crash was not between the records of a group, and the new
   records are at least as long as the torn one, the second recovery gives the data after the commands
   recovered at first and the new ones whose records are whole. *)
Lemma overwrite_log (a t new : bytes) p :
  (length t <= length new)%nat -> p = N.of_nat (length a) -> overwrite (a ++ t) p new = a ++ new.
Proof.
  intros H ->. unfold overwrite. rewrite Nat2N.id. rewrite firstn_app, Nat.sub_diag, firstn_all, firstn_O, app_nil_r.
  rewrite skipn_all2 by (rewrite app_length; lia). rewrite app_nil_r. reflexivity.
Qed.

Theorem C28_recovery_partial (St : Type) exec clk1 clk2 junk pjunk junk2 pjunk2 us1 us2 n k (st0 st1 : St) pos :
  fine clk1 us1 -> fine clk2 (us1 ++ us2) -> (n <= length (log us1))%nat -> (k <= length (log us2))%nat ->
  recover St exec clk1 junk pjunk (firstn n (log us1)) st0 = (st1, Some pos) ->
  (N.to_nat pos + k >= n)%nat ->
  (forall u rest done, us1 = done ++ u :: rest -> (length (log done) + 8 <= n)%nat ->
     (n < length (log done) + length (cbytes u))%nat -> exists e, u = One e) ->
  exists done rest done2 rest2, us1 = done ++ rest /\ us2 = done2 ++ rest2 /\
    effects St exec clk1 done st0 = Some st1 /\
    (length (log done) <= n)%nat /\ (forall u rest', rest = u :: rest' -> (n < length (log (done ++ [u])))%nat) /\
    (length (log done2) <= k)%nat /\ (forall u rest', rest2 = u :: rest' -> (k < length (log (done2 ++ [u])))%nat) /\
    forall st, match effects St exec clk2 (done ++ done2) st with
    | Some st' => exists pos', recover St exec clk2 junk2 pjunk2
                    (overwrite (firstn n (log us1)) pos (firstn k (log us2))) st = (st', Some pos')
    | None => snd (recover St exec clk2 junk2 pjunk2
                    (overwrite (firstn n (log us1)) pos (firstn k (log us2))) st) = None
    end.
Proof.
  intros HF1 HF2 HN HK HR HC HG.
  destruct (split_at us1 n HN) as (done & rest & E & LD & A & B).
  destruct (split_at us2 k HK) as (done2 & rest2 & E2 & LD2 & A2 & B2).
  exists done, rest, done2, rest2. split; [exact E|]. split; [exact E2|].
  assert (FN : firstn n (log us1) = log done ++ firstn (n - length (log done)) (log rest)).
  { rewrite E, log_app, firstn_app, (firstn_all2 (log done)) by exact LD. reflexivity. }
  rewrite FN in *. rewrite E in HF1.
  destruct (recover_split St exec clk1 junk pjunk done rest (n - length (log done)) st0 HF1) as (p & P1 & P2 & P3 & P).
  { intros ->. rewrite A, E, app_nil_r by reflexivity. lia. } { exact B. }
  rewrite HR in P. destruct (effects St exec clk1 done st0) as [st'|] eqn:EF; [|discriminate].
  injection P as <- PP. split; [reflexivity|]. split; [exact LD|].
  assert (P0 : p = 0%nat).
  { destruct rest as [|u rest]; [apply P2; reflexivity|]. specialize (P1 u eq_refl). specialize (B u eq_refl).
    destruct u as [e|b es f]; [exact P1|]. cbn [resume] in P1. destruct P1 as [(_ & P1)|(e1 & e2 & _ & P1 & P4 & _)]; [exact P1|].
    exfalso. destruct (HG (Many b es f) rest done) as (e & H); [exact E|lia|lia|discriminate]. }
  subst p. rewrite Nat.add_0_r in PP. subst pos. rewrite Nat2N.id in HC.
  split. { intros u rest' ->. specialize (B u eq_refl). rewrite log_app, app_length. unfold log at 2. cbn [map concat]. rewrite app_nil_r. lia. }
  split; [exact LD2|].
  split. { intros u rest' ->. specialize (B2 u eq_refl). rewrite log_app, app_length. unfold log at 2. cbn [map concat]. rewrite app_nil_r. lia. }
  intros st.
  assert (FN2 : firstn k (log us2) = log done2 ++ firstn (k - length (log done2)) (log rest2)).
  { rewrite E2, log_app, firstn_app, (firstn_all2 (log done2)) by exact LD2. reflexivity. }
  rewrite (overwrite_log (log done)).
  2: { rewrite !firstn_length. lia. } 2: reflexivity.
  rewrite FN2, app_assoc, <- log_app.
  destruct (recover_split St exec clk2 junk2 pjunk2 (done ++ done2) rest2 (k - length (log done2)) st) as (q & _ & _ & _ & Q).
  { rewrite E, E2 in HF2. unfold fine in *. rewrite !map_app, !concat_app in *. rewrite !Forall_app in *. intuition auto. }
  { intros ->. rewrite A2, E2, app_nil_r by reflexivity. lia. } { exact B2. }
  destruct (effects St exec clk2 (done ++ done2) st); [eexists; exact Q|exact Q].
Qed.

Definition h1 : list command := [One (Entry jk0 clkA (OUnlink (kv [99; 99; 99; 99; 99; 99; 99] [])))].
Example C28_torn :   (* cut in the last record, a longer one is written over it *)
  recover (list call) note clkB [] [] (firstn 130 (log h0)) [] =
    ([CKvLink [97] 0 0 [49; 13; 10] 1; CListDel [98] 3%Z 0%Z 1%Z false; CListDel [98] 2%Z 0%Z 1%Z false], Some 120) /\
  recover (list call) note clkB [] [] (overwrite (firstn 130 (log h0)) 120 (log h1)) [] =
    ([CKvLink [97] 0 0 [49; 13; 10] 1; CListDel [98] 3%Z 0%Z 1%Z false; CListDel [98] 2%Z 0%Z 1%Z false;
      CUnlink [99; 99; 99; 99; 99; 99; 99]], Some 144).
Proof. vm_compute. split; reflexivity. Qed.

(* Otherwise it does not.  (1) If the first crash was between the records of a group, its BEGIN record stays
   in the file: every single-record command executed after the first recovery is lost at the second one ... *)
Theorem C28_lost_refuted (St : Type) exec clk1 clk2 junk pjunk junk2 pjunk2 done b es1 e es2 f us1 us2 m (st0 st1 st : St) pos :
  fine clk1 (done ++ Many b (es1 ++ e :: es2) f :: us1) -> fine clk2 (done ++ [Many b es1 f]) -> Forall (loggable clk2) us2 ->
  (m < length (ebytes e))%nat -> (m <= length (log (map One us2)))%nat ->
  effects St exec clk2 done st <> None ->
  recover St exec clk1 junk pjunk
    (firstn (length (log done) + 8 + length (concat (map ebytes es1)) + m)
            (log (done ++ Many b (es1 ++ e :: es2) f :: us1))) st0 = (st1, Some pos) ->
  effects St exec clk1 done st0 = Some st1 /\
  exists st' pos', effects St exec clk2 done st = Some st' /\
  recover St exec clk2 junk2 pjunk2
    (overwrite (firstn (length (log done) + 8 + length (concat (map ebytes es1)) + m)
            (log (done ++ Many b (es1 ++ e :: es2) f :: us1))) pos (log (map One us2))) st = (st', Some pos').
Proof.
  intros HF1 HF2 HU HM HC HE HR.
  set (M := Many b (es1 ++ e :: es2) f) in *.
  set (pre := log done ++ mark b true ++ concat (map ebytes es1)).
  assert (CB : exists R, cbytes M = mark b true ++ concat (map ebytes es1) ++ ebytes e ++ R).
  { unfold M. cbn [cbytes]. rewrite map_app, concat_app. cbn [map concat]. rewrite <- !app_assoc. eexists. reflexivity. }
  destruct CB as (R & CB).
  assert (ML : length (mark b true) = 8%nat) by (rewrite mark_eq; reflexivity).
  assert (FN : firstn (length (log done) + 8 + length (concat (map ebytes es1)) + m) (log (done ++ M :: us1)) =
               log done ++ firstn (8 + length (concat (map ebytes es1)) + m) (log (M :: us1))).
  { rewrite log_app, firstn_app, (firstn_all2 (log done)) by lia. do 2 f_equal. lia. }
  assert (FN2 : firstn (8 + length (concat (map ebytes es1)) + m) (log (M :: us1)) =
                mark b true ++ concat (map ebytes es1) ++ firstn m (ebytes e)).
  { unfold log. cbn [map concat]. rewrite CB, <- !app_assoc.
    rewrite firstn_app, ML, (firstn_all2 (mark b true)) by lia. f_equal.
    rewrite firstn_app, firstn_all2 by lia. f_equal.
    rewrite firstn_app. replace (8 + length (concat (map ebytes es1)) + m - 8 - length (concat (map ebytes es1)) - length (ebytes e))%nat with 0%nat by lia.
    rewrite firstn_O, app_nil_r. f_equal. lia. }
  rewrite FN in *.
  destruct (recover_split St exec clk1 junk pjunk done (M :: us1) (8 + length (concat (map ebytes es1)) + m) st0 HF1)
    as (p & P1 & P2 & P3 & P); [discriminate| |].
  { intros u Hu. injection Hu as <-. rewrite CB, !app_length, ML. lia. }
  rewrite HR in P. destruct (effects St exec clk1 done st0) as [st'|] eqn:EF; [|discriminate P].
  injection P as <- PP. split; [reflexivity|].
  specialize (P1 M eq_refl). cbn [resume M] in P1.
  assert (HP : p = (8 + length (concat (map ebytes es1)))%nat).
  { destruct P1 as [(P1 & _)|(e1 & e2 & A & B & C & D & D0)]; [lia|].
    assert (POS : forall x, In x (es1 ++ e :: es2) -> (0 < length (ebytes x))%nat).
    { intros x Hx. unfold fine in HF1. rewrite map_app, concat_app in HF1. apply Forall_app in HF1. destruct HF1 as (_ & HF1).
      cbn [map concat M entries] in HF1. apply Forall_app in HF1. destruct HF1 as (HF1 & _).
      rewrite Forall_forall in HF1. pose proof (loggable_ok clk1 x (HF1 x Hx)) as (_ & (H8 & _) & _). cbn [fst ekey] in H8. unfold blen in H8. lia. }
    subst p. f_equal.
    assert (LEN : forall k, (k < length es1)%nat -> (length (concat (map ebytes (firstn k es1))) + length (ebytes (nth k es1 e)) <= length (concat (map ebytes es1)))%nat).
    { clear. induction es1 as [|x xs IH]; intros k Hk; [cbn in Hk; lia|]. destruct k as [|k].
      - cbn [firstn map concat nth]. rewrite app_length. cbn [length]. lia.
      - cbn [firstn map concat nth]. rewrite !app_length. cbn [length] in Hk. specialize (IH k ltac:(lia)). lia. }
    destruct (Nat.lt_trichotomy (length e1) (length es1)) as [L|[L|L]].
    - assert (E1 : e1 = firstn (length e1) es1 /\ e2 = nth (length e1) es1 e :: tl e2).
      { assert (S1 : es1 = e1 ++ firstn (length es1 - length e1) e2).
        { assert (firstn (length es1) (es1 ++ e :: es2) = firstn (length es1) (e1 ++ e2)) as H by (rewrite A; reflexivity).
          rewrite firstn_app, Nat.sub_diag, firstn_all, firstn_O, app_nil_r in H.
          rewrite firstn_app, (firstn_all2 e1) in H by lia. exact H. }
        destruct e2 as [|x e2]; [rewrite firstn_nil, app_nil_r in S1; rewrite S1 in L; lia|].
        destruct (length es1 - length e1)%nat as [|q] eqn:EQ; [lia|].
        split.
        - rewrite S1, firstn_app, Nat.sub_diag, firstn_all, firstn_O, app_nil_r. reflexivity.
        - cbn [tl]. rewrite S1. rewrite app_nth2, Nat.sub_diag by lia. reflexivity. }
      destruct E1 as (E1 & E2). specialize (D _ E2). specialize (LEN (length e1) L). rewrite <- E1 in LEN. lia.
    - assert (es1 = e1) as <-; [|reflexivity].
      assert (firstn (length es1) (es1 ++ e :: es2) = firstn (length es1) (e1 ++ e2)) as H by (rewrite A; reflexivity).
      rewrite firstn_app, Nat.sub_diag, firstn_all, firstn_O, app_nil_r in H. rewrite <- L in H.
      rewrite firstn_app, Nat.sub_diag, firstn_all, firstn_O, app_nil_r in H. exact H.
    - exfalso. assert (S1 : exists t, e1 = es1 ++ e :: t).
      { assert (firstn (length e1) (es1 ++ e :: es2) = firstn (length e1) (e1 ++ e2)) as H by (rewrite A; reflexivity).
        rewrite (firstn_app _ e1), Nat.sub_diag, firstn_all, firstn_O, app_nil_r in H.
        rewrite firstn_app, (firstn_all2 es1) in H by lia.
        destruct (length e1 - length es1)%nat as [|q] eqn:EQ; [lia|]. cbn [firstn] in H. eexists. symmetry. exact H. }
      destruct S1 as (t & S1). rewrite S1 in C. rewrite map_app, concat_app, app_length in C. cbn [map concat] in C.
      rewrite app_length in C. lia. }
  subst p. subst pos.
  rewrite FN2. replace (log done ++ mark b true ++ concat (map ebytes es1) ++ firstn m (ebytes e)) with (pre ++ firstn m (ebytes e))
    by (unfold pre; rewrite <- !app_assoc; reflexivity).
  rewrite overwrite_log.
  2: { rewrite firstn_length. lia. }
  2: { unfold pre. rewrite !app_length, ML. lia. }
  destruct (effects St exec clk2 done st) as [st2|] eqn:EF2; [|congruence].
  exists st2. unfold pre. rewrite <- !app_assoc.
  assert (LO : log (map One us2) = concat (map ebytes us2)) by (unfold log; rewrite map_map; reflexivity). rewrite LO.
  set (rs := map (ekey clk2) (es1 ++ us2)).
  assert (RB : concat (map ebytes es1) ++ concat (map ebytes us2) = rbytes rs).
  { unfold rs. rewrite rbytes_ekey, map_app, concat_app. reflexivity. }
  rewrite RB. set (file := log done ++ mark b true ++ rbytes rs).
  unfold fine in HF2. rewrite map_app, concat_app in HF2. apply Forall_app in HF2. destruct HF2 as (HD & HF2).
  cbn [map concat entries] in HF2. rewrite app_nil_r in HF2.
  assert (HO : Forall (okr clk2) rs).
  { unfold rs. apply Forall_map. apply Forall_app. split; (eapply Forall_impl; [|eassumption]); apply loggable_ok. }
  exists (blen file). unfold recover. destruct (N.eqb_spec (blen file) 0) as [Z|Z].
  { exfalso. unfold file, blen in Z. rewrite !app_length, ML in Z. lia. }
  destruct (commands_ok St exec clk2 done (S (length file)) [] (mark b true ++ rbytes rs) junk2 pjunk2 st HD) as (f1 & b1 & s1 & L1 & E1).
  { unfold file. lia. }
  cbn [app] in E1. rewrite EF2 in E1. fold file in E1. change (blen []) with 0 in E1. rewrite E1. clear E1.
  destruct f1 as [|f1]; [lia|]. unfold file at 1.
  destruct (begin_ok St exec clk2 f1 (log done) b (rbytes rs) b1 pjunk2 st2) as (b2 & E2). rewrite E2. clear E2.
  replace (blen (log done) + 8) with (blen (log done ++ mark b true)) by (rewrite blen_app, mark_len; reflexivity).
  pose proof (rbytes_len clk2 rs HO) as RL. rewrite app_length, ML in L1.
  replace f1 with (length rs + (f1 - length rs))%nat by lia.
  replace (log done ++ mark b true ++ rbytes rs) with ((log done ++ mark b true) ++ rbytes rs ++ []) by (rewrite app_nil_r, <- app_assoc; reflexivity).
  destruct (skip_ok St exec clk2 rs (f1 - length rs) (log done ++ mark b true) [] b2 pjunk2 (blen (log done ++ mark b true)) st2 HO) as (b3 & E3).
  rewrite E3. clear E3. destruct (f1 - length rs)%nat as [|f2] eqn:F2; [lia|].
  rewrite (app_assoc (log done ++ mark b true)). rewrite (torn_short St exec clk2) by (cbn; lia).
  split; [reflexivity|]. do 2 f_equal. unfold file. rewrite <- app_assoc. reflexivity.
Qed.

(* for instance: cut between the two deletions of h0, then a key is set; it is not there after the next crash *)
Example C28_lost :
  recover (list call) note clkB [] [] (firstn 90 (log h0)) [] = ([CKvLink [97] 0 0 [49; 13; 10] 1], Some 80) /\
  recover (list call) note clkB [] []
    (overwrite (firstn 90 (log h0)) 80 (log [One (Entry jk0 clkA (OLink (kv [120] [13; 10])))])) [] =
  ([CKvLink [97] 0 0 [49; 13; 10] 1], Some 120).
Proof. vm_compute. split; reflexivity. Qed.

(* ... and a second BEGIN record makes it fail *)
Theorem C28_fails_refuted :
  exists n pos us2, fine clkB (h0 ++ us2) /\
  snd (recover (list call) note clkB [] [] (firstn n (log h0)) []) = Some pos /\
  (n <= N.to_nat pos + length (log us2))%nat /\
  snd (recover (list call) note clkB [] [] (overwrite (firstn n (log h0)) pos (log us2)) []) = None.
Proof.
  exists 80%nat, 80, (tl h0). split.
  - pose proof C27_fine as H. unfold fine in *. rewrite map_app, concat_app. apply Forall_app. split; [exact H|].
    unfold h0 in H |- *. cbn [tl map concat entries app] in *. inversion H; assumption.
  - vm_compute. split; [reflexivity|]. split; [lia|reflexivity].
Qed.

(* (2) If the new records do not cover what is left of the torn one, the rest of it is taken for records.
   Here a client has stored the bytes of a record of its own making in a value (this one deletes the key k): *)
Definition forged : bytes := write jk0 clkA (OUnlink (kv [107] [])).
Definition h2 : list command :=
  [One (Entry jk0 clkA (OLink (kv [49; 50; 51; 52; 53; 54; 55; 56] (forged ++ repeat 0 24 ++ [13; 10]))))].
Definition h3 : list command := [One (Entry jk0 clkA (OLink (kv [97] [13; 10])))].
Theorem C28_forged_refuted :
  exists n pos, fine clkB (h2 ++ h3) /\
  recover (list call) note clkB [] [] (firstn n (log h2)) [] = ([], Some pos) /\
  recover (list call) note clkB [] [] (overwrite (firstn n (log h2)) pos (log h3)) [] =
    ([CKvLink [97] 0 0 [13; 10] 1; CUnlink [107]], Some 56).
Proof.
  exists 60%nat, 0. split.
  - unfold fine, h2, h3, loggable, wf, wf_item, timed, clocks. cbn [map concat entries app e_op e_clk].
    repeat (apply Forall_cons || apply Forall_nil); cbn [e_op e_clk kv r_type r_key r_data r_flags r_exp r_cas r_ovfl r_mflags r_mcnt r_maxbkr fst];
    repeat split; try discriminate; try (unfold blen; cbn [length]; lia);
    try (cbn [clkA clkB c_unix c_cur]; lia); try (vm_compute; discriminate); vm_compute; reflexivity.
  - vm_compute. split; reflexivity.
Qed.

Print Assumptions C27_recovery.
Print Assumptions C27_all.
Print Assumptions C28_recovery_partial.
Print Assumptions C28_lost_refuted.
Print Assumptions C28_fails_refuted.
Print Assumptions C28_forged_refuted.
