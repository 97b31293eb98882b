(* Proofs about recovery: replaying any prefix of a log gives the effect of the commands that are whole in it. *)
From Verif Require Import Base RecModel RecSpec RecProofs RcvModel RcvSpec.
Local Open Scope N_scope.
Ltac Zify.zify_post_hook ::= Z.to_euclidean_division_equations.

Lemma put_min jk ty upd bl fx dt : 8 + blen fx + blen dt <= blen (put jk ty upd bl fx dt).
Proof. unfold put. rewrite !blen_app. change (blen [ty; upd; jk 2%nat; jk 3%nat]) with 4. change (blen (le32 bl)) with 4. lia. Qed.

Lemma write_min jk c o : o <> OBegin -> o <> OEnd -> 8 < blen (write jk c o).
Proof.
  intros H1 H2.
  assert (G : forall ty upd bl x fx dt, 8 < blen (put jk ty upd bl (x :: fx) dt)).
  { intros. pose proof (put_min jk ty upd bl (x :: fx) dt) as H. rewrite blen_cons in H. lia. }
  destruct o; cbn [write]; try congruence; apply G.
Qed.

Lemma write_type jk c o : o <> OBegin -> o <> OEnd -> u8_at (write jk c o) 0 <> 13 /\ u8_at (write jk c o) 0 <> 14.
Proof. intros H1 H2. destruct o; cbn [write]; try congruence; (split; [intros E|intros E]); discriminate E. Qed.

Lemma log_app a b : log (a ++ b) = log a ++ log b.
Proof. unfold log. rewrite map_app, concat_app. reflexivity. Qed.

Lemma split_at us : forall n, (n <= length (log us))%nat ->
  exists done rest, us = done ++ rest /\ (length (log done) <= n)%nat /\
    (rest = [] -> n = length (log us)) /\ (forall u, rest = u :: tl rest -> (n - length (log done) < length (cbytes u))%nat).
Proof.
  induction us as [|u us IH]; intros n HN.
  - exists [], []. unfold log in *; cbn in *. repeat split; try lia. intros u Hu; discriminate Hu.
  - unfold log in *. cbn [map concat] in *. rewrite app_length in *.
    destruct (Nat.lt_ge_cases n (length (cbytes u))) as [H|H].
    + exists [], (u :: us). cbn [map concat app length]. split; [reflexivity|]. split; [lia|]. split; [discriminate|].
      intros v Hv. injection Hv as <-. lia.
    + destruct (IH (n - length (cbytes u))%nat) as (d & r & E & L & A & B); [lia|].
      exists (u :: d), r. cbn [app map concat]. rewrite app_length. split; [rewrite E; reflexivity|]. split; [lia|]. split.
      * intros Hr. specialize (A Hr). lia.
      * intros v Hv. specialize (B v Hv). lia.
Qed.

Section P.
Variable St : Type.
Variable exec : St -> option call -> St * bool.
Variable clk : clock.
Let fapply := file_apply St exec clk.
Let rpend := redo_pending St exec clk.

Definition okr (rk : bytes * call) : Prop :=
  framed (fst rk) /\ 8 < blen (fst rk) <= MAX_RECORD /\
  u8_at (fst rk) 0 <> 13 /\ u8_at (fst rk) 0 <> 14 /\
  forall rest, redo clk (fst rk ++ rest) = Some (snd rk).

Definition ekey (e : entry) : bytes * call := (ebytes e, expected (e_clk e) clk (e_op e)).

Lemma loggable_ok e : loggable clk e -> okr (ekey e).
Proof.
  intros (W & T & N1 & N2 & L). unfold okr, ekey, ebytes; cbn [fst snd].
  split; [apply write_framed, W|]. split; [split; [apply write_min; assumption|exact L]|].
  destruct (write_type (e_jk e) (e_clk e) _ N1 N2) as (A & B).
  split; [exact A|]. split; [exact B|].
  intros rest. apply round_trip; assumption.
Qed.

Fixpoint run (rs : list (bytes * call)) (st : St) : option St :=
  match rs with
  | [] => Some st
  | rk :: rs => let (st', oom) := exec st (Some (snd rk)) in if oom then None else run rs st'
  end.
Definition rbytes (rs : list (bytes * call)) : bytes := concat (map fst rs).

Lemma sub_mid (a m p : bytes) n : n <= blen m -> sub_at (a ++ m ++ p) (blen a) n = firstn (N.to_nat n) m.
Proof.
  intros H. unfold sub_at, blen in *. rewrite Nat2N.id, skipn_app, skipn_all, Nat.sub_diag. cbn [app skipn].
  rewrite firstn_app. replace (N.to_nat n - length m)%nat with 0%nat by lia. rewrite firstn_O, app_nil_r. reflexivity.
Qed.
Lemma sub_mid2 (a m p : bytes) o n : o + n <= blen m ->
  sub_at (a ++ m ++ p) (blen a + o) n = firstn (N.to_nat n) (skipn (N.to_nat o) m).
Proof.
  intros H. unfold sub_at, blen in *. rewrite N2Nat.inj_add, Nat2N.id, skipn_app.
  rewrite skipn_all2 by lia. replace (length a + N.to_nat o - length a)%nat with (N.to_nat o) by lia. cbn [app].
  rewrite skipn_app, firstn_app, skipn_length.
  replace (N.to_nat n - (length m - N.to_nat o))%nat with 0%nat by lia. rewrite firstn_O, app_nil_r. reflexivity.
Qed.
Lemma nth_hd (x y : bytes) k : (8 <= length x)%nat -> (k < 8)%nat -> nth k (firstn 8 x ++ y) 0 = nth k x 0.
Proof.
  intros L H. rewrite app_nth1 by (rewrite firstn_length; lia).
  rewrite <- (firstn_skipn 8 x) at 2. rewrite app_nth1 by (rewrite firstn_length; lia). reflexivity.
Qed.

(* the buffer after the header of the record m, and after all of it *)
Lemma buf_hd (m y : bytes) : (8 <= length m)%nat ->
  u8_at (firstn 8 m ++ y) 0 = u8_at m 0 /\ u32_at (firstn 8 m ++ y) 4 = u32_at m 4.
Proof.
  intros L. unfold u8_at, u32_at. cbn [Nat.add]. rewrite !nth_hd by lia. split; reflexivity.
Qed.

Lemma buf_all (m y z : bytes) bl : blen m = 8 + bl ->
  firstn 8 (firstn 8 m ++ y) ++ firstn (N.to_nat bl) (skipn (N.to_nat 8) m) ++ z = m ++ z.
Proof.
  intros L. unfold blen in L.
  rewrite firstn_app, firstn_firstn, firstn_length. replace (8 - Nat.min 8 (length m))%nat with 0%nat by lia.
  rewrite firstn_O, app_nil_r. cbn [Nat.min].
  rewrite (firstn_all2 (skipn _ m)) by (rewrite skipn_length; lia).
  rewrite app_assoc. f_equal. apply firstn_skipn.
Qed.

Lemma step_rec fuel pre rk post buf pbuf pend st :
  okr rk -> exists buf',
  fapply (S fuel) (pre ++ fst rk ++ post) buf pbuf (blen pre) pend st =
  match pend with
  | Some _ => fapply fuel (pre ++ fst rk ++ post) buf' pbuf (blen (pre ++ fst rk)) pend st
  | None => let (st', oom) := exec st (Some (snd rk)) in
            if oom then (st', None) else fapply fuel (pre ++ fst rk ++ post) buf' pbuf (blen (pre ++ fst rk)) None st'
  end.
Proof.
  intros ((FR & _) & (L8 & LM) & T1 & T2 & RD). destruct rk as (rec, k). cbn [fst snd] in *.
  set (file := pre ++ rec ++ post).
  assert (LF : blen file = blen pre + blen rec + blen post) by (unfold file; rewrite !blen_app; lia).
  assert (L8' : (8 <= length rec)%nat) by (unfold blen in L8; lia).
  set (bl := u32_at rec 4) in *.
  exists (rec ++ skipn (N.to_nat (8 + bl)) (firstn 8 rec ++ skipn 8 buf)).
  unfold fapply. cbn [file_apply].
  destruct (N.ltb_spec (blen pre) (blen file)); [|lia]. cbn [negb].
  destruct (N.ltb_spec (blen file - blen pre) 8); [lia|].
  assert (SB : sub_at file (blen pre) 8 = firstn 8 rec) by (apply (sub_mid pre rec post 8); lia).
  rewrite SB.
  destruct (buf_hd rec (skipn 8 buf) L8') as (E0 & E4). cbv zeta.
  rewrite !E0, !E4. fold bl.
  rewrite (proj2 (N.eqb_neq _ _) T1), (proj2 (N.eqb_neq _ _) T2).
  destruct (N.ltb_spec 0 bl); [|lia]. cbn [andb].
  destruct (N.ltb_spec (blen file - (blen pre + 8)) bl); [lia|].
  destruct (N.ltb_spec (MAX_RECORD - 8) bl); [unfold MAX_RECORD in *; lia|].
  assert (SB2 : sub_at file (blen pre + 8) bl = firstn (N.to_nat bl) (skipn (N.to_nat 8) rec))
    by (apply (sub_mid2 pre rec post 8 bl); lia).
  rewrite SB2.
  rewrite (buf_all rec _ _ bl) by lia.
  replace (blen pre + 8 + bl) with (blen (pre ++ rec)) by (rewrite blen_app; lia).
  destruct pend; [reflexivity|]. rewrite RD. reflexivity.
Qed.

Lemma step_pend fuel pre rk post buf stop st :
  okr rk -> blen pre < stop -> exists buf',
  rpend (S fuel) (pre ++ fst rk ++ post) buf (blen pre) stop st =
  let (st', oom) := exec st (Some (snd rk)) in
  if oom then (st', false) else rpend fuel (pre ++ fst rk ++ post) buf' (blen (pre ++ fst rk)) stop st'.
Proof.
  intros ((FR & _) & (L8 & LM) & T1 & T2 & RD) HS. destruct rk as (rec, k). cbn [fst snd] in *.
  set (file := pre ++ rec ++ post).
  assert (LF : blen file = blen pre + blen rec + blen post) by (unfold file; rewrite !blen_app; lia).
  assert (L8' : (8 <= length rec)%nat) by (unfold blen in L8; lia).
  set (bl := u32_at rec 4) in *.
  exists (rec ++ skipn (N.to_nat (8 + bl)) (firstn 8 rec ++ skipn 8 buf)).
  unfold rpend. cbn [redo_pending].
  destruct (N.ltb_spec (blen pre) stop); [|lia]. cbn [negb].
  destruct (N.ltb_spec (blen file - blen pre) 8); [lia|].
  assert (SB : sub_at file (blen pre) 8 = firstn 8 rec) by (apply (sub_mid pre rec post 8); lia).
  rewrite SB. destruct (buf_hd rec (skipn 8 buf) L8') as (E0 & E4). cbv zeta. rewrite !E4. fold bl.
  destruct (N.ltb_spec 0 bl); [|lia].
  destruct (N.ltb_spec (blen file - (blen pre + 8)) bl); [lia|].
  assert (SB2 : sub_at file (blen pre + 8) bl = firstn (N.to_nat bl) (skipn (N.to_nat 8) rec))
    by (apply (sub_mid2 pre rec post 8 bl); lia).
  rewrite SB2, (buf_all rec _ _ bl) by lia.
  replace (blen pre + 8 + bl) with (blen (pre ++ rec)) by (rewrite blen_app; lia).
  rewrite RD. reflexivity.
Qed.

Lemma mark_eq jk b : mark jk b = [if b then 13 else 14; 22; jk 2%nat; jk 3%nat; 0; 0; 0; 0].
Proof. destruct b; reflexivity. Qed.
Lemma mark_len jk b : blen (mark jk b) = 8.
Proof. rewrite mark_eq. reflexivity. Qed.

Lemma mark_at pre jk b post : sub_at (pre ++ mark jk b ++ post) (blen pre) 8 = mark jk b.
Proof.
  rewrite sub_mid by (rewrite mark_len; lia). apply firstn_all2. rewrite mark_eq. cbn [length]. lia.
Qed.

Lemma pend_ok rs : forall fuel pre jk post buf st, Forall okr rs -> (length rs + 2 <= fuel)%nat ->
  exists st1, rpend fuel (pre ++ rbytes rs ++ mark jk false ++ post) buf (blen pre) (blen pre + blen (rbytes rs) + 8) st =
  match run rs st with None => (st1, false) | Some st' => (st', true) end.
Proof.
  induction rs as [|rk rs IH]; intros fuel pre jk post buf st HF HL.
  - exists st. unfold rbytes; cbn [map concat app run]. change (blen []) with 0. rewrite N.add_0_r.
    destruct fuel as [|[|fuel]]; [cbn in HL; lia|cbn in HL; lia|].
    unfold rpend. cbn [redo_pending].
    destruct (N.ltb_spec (blen pre) (blen pre + 8)); [|lia]. cbn [negb].
    assert (LF : blen (pre ++ mark jk false ++ post) = blen pre + 8 + blen post) by (rewrite !blen_app, mark_len; lia).
    destruct (N.ltb_spec (blen (pre ++ mark jk false ++ post) - blen pre) 8); [lia|].
    rewrite mark_at. rewrite mark_eq. change (u32_at ([14; 22; jk 2%nat; jk 3%nat; 0; 0; 0; 0] ++ skipn 8 buf) 4) with 0.
    cbn [N.ltb N.compare]. destruct (N.ltb_spec (blen pre + 8) (blen pre + 8)); [lia|]. reflexivity.
  - inversion HF as [|? ? HO HF']; subst. unfold rbytes in *; cbn [map concat] in *. cbn [length] in HL.
    destruct fuel as [|fuel]; [lia|].
    rewrite <- app_assoc. pose proof HO as (_ & (H8 & _) & _).
    edestruct (step_pend fuel pre rk (concat (map fst rs) ++ mark jk false ++ post) buf
                 (blen pre + blen (fst rk ++ concat (map fst rs)) + 8) st HO) as (buf' & E); [lia|].
    rewrite E. cbn [run]. destruct (exec st (Some (snd rk))) as (st', oom). destruct oom; [exists st'; reflexivity|].
    replace (blen pre + blen (fst rk ++ concat (map fst rs)) + 8)
      with (blen (pre ++ fst rk) + blen (concat (map fst rs)) + 8) by (rewrite !blen_app; lia).
    rewrite (app_assoc pre (fst rk)). apply IH; [exact HF'|lia].
Qed.

Lemma skip_ok rs : forall fuel pre post buf pbuf p st, Forall okr rs ->
  exists buf', fapply (length rs + fuel) (pre ++ rbytes rs ++ post) buf pbuf (blen pre) (Some p) st =
    fapply fuel (pre ++ rbytes rs ++ post) buf' pbuf (blen (pre ++ rbytes rs)) (Some p) st.
Proof.
  induction rs as [|rk rs IH]; intros fuel pre post buf pbuf p st HF.
  - exists buf. unfold rbytes; cbn. rewrite app_nil_r. reflexivity.
  - inversion HF as [|? ? HO HF']; subst. unfold rbytes in *; cbn [map concat length Nat.add].
    rewrite <- app_assoc.
    destruct (step_rec (length rs + fuel) pre rk (concat (map fst rs) ++ post) buf pbuf (Some p) st HO) as (buf1 & E1).
    cbv iota in E1. rewrite E1.
    rewrite (app_assoc pre (fst rk)). destruct (IH fuel (pre ++ fst rk) post buf1 pbuf p st HF') as (buf2 & E2).
    exists buf2. rewrite E2. f_equal. rewrite !blen_app. lia.
Qed.

Lemma begin_ok fuel pre jk post buf pbuf st :
  exists buf', fapply (S fuel) (pre ++ mark jk true ++ post) buf pbuf (blen pre) None st =
    fapply fuel (pre ++ mark jk true ++ post) buf' pbuf (blen pre + 8) (Some (blen pre + 8)) st.
Proof.
  eexists. unfold fapply at 1. cbn [file_apply].
  assert (LF : blen (pre ++ mark jk true ++ post) = blen pre + 8 + blen post) by (rewrite !blen_app, mark_len; lia).
  destruct (N.ltb_spec (blen pre) (blen (pre ++ mark jk true ++ post))); [|lia]. cbn [negb].
  destruct (N.ltb_spec (blen (pre ++ mark jk true ++ post) - blen pre) 8); [lia|].
  rewrite mark_at. cbv zeta.
  assert (T : u8_at (mark jk true ++ skipn 8 buf) 0 = 13) by (rewrite mark_eq; reflexivity). rewrite T.
  change (13 =? 13) with true. cbv iota. reflexivity.
Qed.

Lemma end_ok fuel pre jk post buf pbuf p st :
  exists buf', fapply (S fuel) (pre ++ mark jk false ++ post) buf pbuf (blen pre) (Some p) st =
    let (st', ok) := rpend fuel (pre ++ mark jk false ++ post) pbuf p (blen pre + 8) st in
    if ok then fapply fuel (pre ++ mark jk false ++ post) buf' pbuf (blen pre + 8) None st' else (st', None).
Proof.
  eexists. unfold fapply at 1. cbn [file_apply].
  assert (LF : blen (pre ++ mark jk false ++ post) = blen pre + 8 + blen post) by (rewrite !blen_app, mark_len; lia).
  destruct (N.ltb_spec (blen pre) (blen (pre ++ mark jk false ++ post))); [|lia]. cbn [negb].
  destruct (N.ltb_spec (blen (pre ++ mark jk false ++ post) - blen pre) 8); [lia|].
  rewrite mark_at. cbv zeta.
  assert (T : u8_at (mark jk false ++ skipn 8 buf) 0 = 14) by (rewrite mark_eq; reflexivity). rewrite T.
  change (14 =? 13) with false. change (14 =? 14) with true. cbv iota. reflexivity.
Qed.

Lemma rbytes_len rs : Forall okr rs -> (9 * length rs <= length (rbytes rs))%nat.
Proof.
  induction 1 as [|rk rs HO HF IH]; [cbn; lia|]. unfold rbytes in *; cbn [map concat length].
  rewrite app_length. destruct HO as (_ & (H8 & _) & _). unfold blen in H8. lia.
Qed.

Definition urecs (u : command) : list (bytes * call) := map ekey (entries u).
Lemma urecs_ok u : Forall (loggable clk) (entries u) -> Forall okr (urecs u).
Proof. intros H. unfold urecs. apply Forall_map. eapply Forall_impl; [|exact H]. apply loggable_ok. Qed.

Lemma run_effect es : forall st, run (map ekey es) st = effect St exec clk es st.
Proof.
  induction es as [|e es IH]; intros st; [reflexivity|]. cbn [map run effect ekey snd].
  destruct (exec st _) as (st', oom). destruct oom; [reflexivity|apply IH].
Qed.

Lemma rbytes_ekey es : rbytes (map ekey es) = concat (map ebytes es).
Proof. unfold rbytes. rewrite map_map. reflexivity. Qed.

(* a whole command *)
Lemma step_command u fuel pre post buf pbuf st :
  Forall (loggable clk) (entries u) -> (length (cbytes u ++ post) < fuel)%nat ->
  exists fuel' buf' st1, (length post < fuel')%nat /\
  fapply fuel (pre ++ cbytes u ++ post) buf pbuf (blen pre) None st =
  match effect St exec clk (entries u) st with
  | None => (st1, None)
  | Some st' => fapply fuel' (pre ++ cbytes u ++ post) buf' pbuf (blen (pre ++ cbytes u)) None st'
  end.
Proof.
  intros HF HL. pose proof (urecs_ok u HF) as HO. unfold urecs in HO. destruct u as [e|b es f]; cbn [entries cbytes map] in *.
  - inversion HO as [|? ? HE _]; subst. destruct fuel as [|fuel]; [lia|].
    destruct (step_rec fuel pre (ekey e) post buf pbuf None st HE) as (buf' & E). cbn [fst snd ekey] in E.
    destruct HE as (_ & (H8 & _) & _). cbn [fst ekey] in H8. unfold blen in H8. rewrite app_length in HL.
    cbn [effect]. destruct (exec st _) as (st', oom).
    exists fuel, buf', st'. split; [lia|]. rewrite E. destruct oom; reflexivity.
  - set (rs := map ekey es) in *. assert (RB : concat (map ebytes es) = rbytes rs) by (unfold rs; rewrite rbytes_ekey; reflexivity).
    rewrite RB in *. pose proof (rbytes_len rs HO) as RL. rewrite !app_length in HL.
    assert (ML : length (mark b true) = 8%nat /\ length (mark f false) = 8%nat) by (rewrite !mark_eq; split; reflexivity).
    destruct ML as (ML1 & ML2).
    destruct fuel as [|fuel]; [lia|]. rewrite <- !app_assoc.
    destruct (begin_ok fuel pre b (rbytes rs ++ mark f false ++ post) buf pbuf st) as (buf1 & E1). rewrite E1. clear E1.
    set (q := blen pre + 8). assert (Q : q = blen (pre ++ mark b true)) by (unfold q; rewrite blen_app, mark_len; lia).
    rewrite (app_assoc pre (mark b true)).
    replace fuel with (length rs + (fuel - length rs))%nat by lia. rewrite Q.
    destruct (skip_ok rs (fuel - length rs) (pre ++ mark b true) (mark f false ++ post) buf1 pbuf (blen (pre ++ mark b true)) st HO) as (buf2 & E2).
    rewrite E2. clear E2.
    destruct (fuel - length rs)%nat as [|fuel2] eqn:EF; [lia|].
    rewrite (app_assoc (pre ++ mark b true) (rbytes rs)).
    destruct (end_ok fuel2 ((pre ++ mark b true) ++ rbytes rs) f post buf2 pbuf (blen (pre ++ mark b true)) st) as (buf3 & E3).
    rewrite E3. clear E3.
    rewrite <- (app_assoc (pre ++ mark b true) (rbytes rs)).
    replace (blen ((pre ++ mark b true) ++ rbytes rs) + 8) with (blen (pre ++ mark b true) + blen (rbytes rs) + 8)
      by (rewrite !blen_app; lia).
    destruct (pend_ok rs fuel2 (pre ++ mark b true) f post pbuf st HO) as (st1 & E4); [lia|].
    unfold rpend in E4 |- *. rewrite E4. rewrite <- run_effect. fold rs.
    exists fuel2, buf3, st1. split; [lia|].
    destruct (run rs st); [|reflexivity]. f_equal. rewrite !blen_app, !mark_len. lia.
Qed.

Lemma effect_app a b : forall st, effect St exec clk (a ++ b) st =
  match effect St exec clk a st with None => None | Some st' => effect St exec clk b st' end.
Proof.
  induction a as [|e a IH]; intros st; [reflexivity|]. cbn [app effect].
  destruct (exec st _) as (st', oom). destruct oom; [reflexivity|apply IH].
Qed.

Lemma commands_ok us : forall fuel pre post buf pbuf st, Forall (loggable clk) (concat (map entries us)) ->
  (length (log us ++ post) < fuel)%nat ->
  exists fuel' buf' st1, (length post < fuel')%nat /\
  fapply fuel (pre ++ log us ++ post) buf pbuf (blen pre) None st =
  match effects St exec clk us st with
  | None => (st1, None)
  | Some st' => fapply fuel' (pre ++ log us ++ post) buf' pbuf (blen (pre ++ log us)) None st'
  end.
Proof.
  induction us as [|u us IH]; intros fuel pre post buf pbuf st HF HL.
  - exists fuel, buf, st. unfold log, effects in *; cbn in *. rewrite app_nil_r. split; [exact HL|reflexivity].
  - cbn [map concat] in HF. apply Forall_app in HF. destruct HF as (H1 & H2).
    unfold log in *. cbn [map concat] in *. rewrite <- app_assoc in *.
    destruct (step_command u fuel pre (concat (map cbytes us) ++ post) buf pbuf st H1 HL) as (f1 & b1 & s1 & L1 & E1).
    assert (EA : effects St exec clk (u :: us) st =
      match effect St exec clk (entries u) st with None => None | Some st' => effects St exec clk us st' end).
    { unfold effects. cbn [map concat]. apply effect_app. }
    rewrite EA, E1. destruct (effect St exec clk (entries u) st) as [st'|].
    + rewrite (app_assoc pre (cbytes u)).
      destruct (IH f1 (pre ++ cbytes u) post b1 pbuf st' H2 L1) as (f2 & b2 & s2 & L2 & E2).
      exists f2, b2, s2. split; [exact L2|]. rewrite E2. destruct (effects St exec clk us st'); [|reflexivity].
      f_equal. rewrite <- app_assoc. reflexivity.
    + exists f1, b1, s1. split; [rewrite app_length in L1; lia|reflexivity].
Qed.

(* the file ends inside a record *)
Lemma torn_rec fuel pre rec n buf pbuf pend st :
  framed rec -> (8 <= length rec)%nat -> u8_at rec 0 <> 13 -> u8_at rec 0 <> 14 -> (n < length rec)%nat ->
  fapply (S fuel) (pre ++ firstn n rec) buf pbuf (blen pre) pend st = (st, Some (blen pre)).
Proof.
  intros (FR & _) L8 T1 T2 HN.
  set (file := pre ++ firstn n rec).
  assert (LF : blen file = blen pre + N.of_nat n).
  { unfold file. rewrite blen_app. unfold blen at 2. rewrite firstn_length. lia. }
  unfold fapply. cbn [file_apply].
  destruct (N.ltb_spec (blen pre) (blen file)); [|reflexivity]. cbn [negb].
  destruct (N.ltb_spec (blen file - blen pre) 8); [reflexivity|].
  assert (SB : sub_at file (blen pre) 8 = firstn 8 rec).
  { unfold file. rewrite <- (app_nil_r (firstn n rec)). rewrite sub_mid by (unfold blen; rewrite firstn_length; lia).
    change (N.to_nat 8) with 8%nat. rewrite firstn_firstn. f_equal. lia. }
  rewrite SB. destruct (buf_hd rec (skipn 8 buf) L8) as (E0 & E4). cbv zeta. rewrite E0, E4.
  rewrite (proj2 (N.eqb_neq _ _) T1), (proj2 (N.eqb_neq _ _) T2). unfold blen in FR.
  destruct (N.ltb_spec 0 (u32_at rec 4)); [|lia].
  destruct (N.ltb_spec (blen file - (blen pre + 8)) (u32_at rec 4)); [|lia]. reflexivity.
Qed.

Lemma torn_okr fuel pre rk n buf pbuf pend st : okr rk -> (n < length (fst rk))%nat ->
  fapply (S fuel) (pre ++ firstn n (fst rk)) buf pbuf (blen pre) pend st = (st, Some (blen pre)).
Proof.
  intros (FR & (L8 & _) & T1 & T2 & _) HN. apply torn_rec; try assumption. unfold blen in L8. lia.
Qed.

Lemma torn_short fuel pre (x : bytes) buf pbuf pend st : (length x < 8)%nat ->
  fapply (S fuel) (pre ++ x) buf pbuf (blen pre) pend st = (st, Some (blen pre)).
Proof.
  intros H. unfold fapply. cbn [file_apply].
  assert (LF : blen (pre ++ x) = blen pre + blen x) by apply blen_app. unfold blen at 3 in LF.
  destruct (N.ltb_spec (blen pre) (blen (pre ++ x))); [|reflexivity]. cbn [negb].
  destruct (N.ltb_spec (blen (pre ++ x) - blen pre) 8); [reflexivity|lia].
Qed.

(* ... or inside a group: nothing of it is applied.  The position is after the last whole record *)
Lemma torn_group rs : forall fuel pre jk n, Forall okr rs ->
  (n < length (rbytes rs ++ mark jk false))%nat -> (n < fuel)%nat ->
  exists a b, rs = a ++ b /\ (length (rbytes a) <= n)%nat /\
  (forall buf pbuf p st, fapply fuel (pre ++ firstn n (rbytes rs ++ mark jk false)) buf pbuf (blen pre) (Some p) st =
  (st, Some (blen (pre ++ rbytes a)))) /\
  (forall r, b = r :: tl b -> (n - length (rbytes a) < length (fst r))%nat) /\
  (b = [] -> (n - length (rbytes a) < 8)%nat).
Proof.
  induction rs as [|rk rs IH]; intros fuel pre jk n HF HN HL.
  - exists [], []. unfold rbytes in *; cbn [map concat app length] in *. rewrite mark_eq in HN. cbn [length] in HN.
    destruct fuel as [|fuel]; [lia|]. split; [reflexivity|]. split; [lia|]. split.
    + intros. rewrite app_nil_r. apply torn_short. rewrite firstn_length, mark_eq. cbn [length]. lia.
    + split; [intros r Hr; discriminate Hr|intros; lia].
  - inversion HF as [|? ? HO HF']; subst. unfold rbytes in *; cbn [map concat] in *. rewrite <- app_assoc in *.
    destruct fuel as [|fuel]; [lia|].
    destruct (Nat.lt_ge_cases n (length (fst rk))) as [H|H].
    + exists [], (rk :: rs). cbn [map concat app length]. split; [reflexivity|]. split; [lia|]. split.
      * intros. rewrite app_nil_r. rewrite firstn_app. replace (n - length (fst rk))%nat with 0%nat by lia.
        rewrite firstn_O, app_nil_r. apply torn_okr; assumption.
      * split; [|discriminate]. intros r E. injection E as <-. lia.
    + rewrite firstn_app, (firstn_all2 (fst rk)) by exact H.
      set (m := (n - length (fst rk))%nat). rewrite app_length in HN.
      pose proof HO as (_ & (H8 & _) & _). unfold blen in H8.
      destruct (IH fuel (pre ++ fst rk) jk m HF') as (a & b & E2 & L2 & F2 & G2 & G3).
      { unfold m. lia. } { unfold m. lia. }
      exists (rk :: a), b. cbn [map concat app length]. split; [rewrite E2; reflexivity|].
      rewrite app_length. split; [unfold m in *; lia|]. split.
      * intros buf pbuf p st.
        destruct (step_rec fuel pre rk (firstn m (concat (map fst rs) ++ mark jk false)) buf pbuf (Some p) st HO) as (buf1 & E1).
        cbv iota in E1. rewrite E1, (app_assoc pre (fst rk)), F2. do 3 f_equal. rewrite <- app_assoc. reflexivity.
      * unfold m in *. split.
        -- intros r Hr. specialize (G2 r Hr). lia.
        -- intros Hb. specialize (G3 Hb). lia.
Qed.

(* where the descriptor ends up when the file stops n bytes into the command u *)
Definition resume (u : command) (n p : nat) : Prop :=
  match u with
  | One _ => p = 0%nat
  | Many b es f =>
      (n < 8)%nat /\ p = 0%nat \/
      exists e1 e2, es = e1 ++ e2 /\ p = (8 + length (concat (map ebytes e1)))%nat /\ (p <= n)%nat /\
        (forall e, e2 = e :: tl e2 -> (n - p < length (ebytes e))%nat) /\ (e2 = [] -> (n - p < 8)%nat)
  end.

Lemma torn_command u fuel pre n :
  Forall (loggable clk) (entries u) -> (n < length (cbytes u))%nat -> (n < fuel)%nat ->
  exists p, (p <= n)%nat /\ resume u n p /\ forall buf pbuf st,
  fapply fuel (pre ++ firstn n (cbytes u)) buf pbuf (blen pre) None st = (st, Some (blen pre + N.of_nat p)).
Proof.
  intros HF HN HL. pose proof (urecs_ok u HF) as HO. unfold urecs in HO. destruct u as [e|b es f]; cbn [entries cbytes map] in *.
  - inversion HO as [|? ? HE _]; subst. destruct fuel as [|fuel]; [lia|].
    exists 0%nat. split; [lia|]. split; [reflexivity|]. intros. rewrite N.add_0_r. apply (torn_okr fuel pre (ekey e)); assumption.
  - set (rs := map ekey es) in *. assert (RB : concat (map ebytes es) = rbytes rs) by (unfold rs; rewrite rbytes_ekey; reflexivity).
    rewrite RB in *. assert (ML1 : length (mark b true) = 8%nat) by (rewrite mark_eq; reflexivity).
    destruct fuel as [|fuel]; [lia|]. rewrite firstn_app, ML1.
    destruct (Nat.lt_ge_cases n 8) as [H|H].
    + exists 0%nat. split; [lia|]. split; [left; split; [exact H|reflexivity]|]. intros.
      replace (n - 8)%nat with 0%nat by lia. rewrite firstn_O, app_nil_r, N.add_0_r.
      apply torn_short. rewrite firstn_length, ML1. lia.
    + rewrite (firstn_all2 (mark b true)) by lia. rewrite app_length in HN.
      destruct (torn_group rs fuel (pre ++ mark b true) f (n - 8) HO)
        as (ra & rb & E2 & L2 & F2 & G2 & G3); [lia|lia|].
      assert (ER : exists e1 e2, es = e1 ++ e2 /\ ra = map ekey e1 /\ rb = map ekey e2).
      { unfold rs in E2. apply map_eq_app in E2. destruct E2 as (e1 & e2 & A1 & A2 & A3). exists e1, e2. auto. }
      destruct ER as (e1 & e2 & A1 & A2 & A3).
      exists (8 + length (concat (map ebytes e1)))%nat. rewrite A2, rbytes_ekey in L2, G2, G3. split; [lia|]. split.
      * right. exists e1, e2. split; [exact A1|]. split; [reflexivity|]. split; [lia|]. split.
        -- intros e He. specialize (G2 (ekey e)). rewrite A3, He in G2. specialize (G2 eq_refl). cbn [fst ekey] in G2. lia.
        -- intros ->. specialize (G3 A3). lia.
      * intros buf pbuf st.
        destruct (begin_ok fuel pre b (firstn (n - 8) (rbytes rs ++ mark f false)) buf pbuf st) as (buf1 & E1).
        rewrite E1. clear E1.
        replace (blen pre + 8) with (blen (pre ++ mark b true)) by (rewrite blen_app, mark_len; lia).
        rewrite (app_assoc pre (mark b true)), F2. do 2 f_equal. rewrite A2, rbytes_ekey, !blen_app, mark_len. unfold blen. lia.
Qed.

(* any prefix of a log *)
Lemma recover_split junk pjunk done rest m st :
  fine clk (done ++ rest) -> 
  (rest = [] -> m = 0%nat) -> (forall u, rest = u :: tl rest -> (m < length (cbytes u))%nat) ->
  exists p, (forall u, rest = u :: tl rest -> resume u m p) /\ (rest = [] -> p = 0%nat) /\ (p <= m)%nat /\
    match effects St exec clk done st with
    | Some st' => recover St exec clk junk pjunk (log done ++ firstn m (log rest)) st = (st', Some (N.of_nat (length (log done) + p)))
    | None => snd (recover St exec clk junk pjunk (log done ++ firstn m (log rest)) st) = None
    end.
Proof.
  intros HF M0 MB. unfold fine in HF. rewrite map_app, concat_app in HF. apply Forall_app in HF. destruct HF as (HF1 & HF2).
  set (file := log done ++ firstn m (log rest)).
  assert (MAIN : exists p, (forall u, rest = u :: tl rest -> resume u m p) /\ (rest = [] -> p = 0%nat) /\ (p <= m)%nat /\
    match effects St exec clk done st with
    | Some st' => fapply (S (length file)) file junk pjunk 0 None st = (st', Some (N.of_nat (length (log done) + p)))
    | None => snd (fapply (S (length file)) file junk pjunk 0 None st) = None
    end).
  { unfold file.
    destruct (commands_ok done (S (length (log done ++ firstn m (log rest)))) [] (firstn m (log rest)) junk pjunk st HF1)
      as (f1 & b1 & s1 & L1 & E1); [lia|].
    cbn [app] in E1. change (blen []) with 0 in E1. rewrite E1. clear E1.
    assert (P : exists p, (forall u, rest = u :: tl rest -> resume u m p) /\ (rest = [] -> p = 0%nat) /\ (p <= m)%nat /\
       forall st', fapply f1 (log done ++ firstn m (log rest)) b1 pjunk (blen (log done)) None st' =
         (st', Some (N.of_nat (length (log done) + p)))).
    { destruct rest as [|u rest].
      - exists 0%nat. split; [intros u Hu; discriminate Hu|]. split; [reflexivity|]. split; [lia|].
        intros st'. change (log []) with (@nil N). rewrite firstn_nil. destruct f1 as [|f1]; [lia|].
        rewrite torn_short by (cbn; lia). unfold blen. rewrite Nat.add_0_r. reflexivity.
      - specialize (MB u eq_refl). cbn [map concat] in HF2. apply Forall_app in HF2. destruct HF2 as (HU & _).
        assert (FU : firstn m (log (u :: rest)) = firstn m (cbytes u)).
        { unfold log; cbn [map concat]. rewrite firstn_app. replace (m - length (cbytes u))%nat with 0%nat by lia.
          rewrite firstn_O, app_nil_r. reflexivity. }
        rewrite FU in *. rewrite firstn_length in L1.
        destruct (torn_command u f1 (log done) m HU) as (p & P1 & P2 & P3); [lia|lia|].
        exists p. split; [intros v Hv; injection Hv as <-; exact P2|]. split; [discriminate|]. split; [exact P1|].
        intros st'. rewrite P3. do 2 f_equal. unfold blen. lia. }
    destruct P as (p & P1 & P2 & P3 & P4). exists p. split; [exact P1|]. split; [exact P2|]. split; [exact P3|].
    destruct (effects St exec clk done st) as [st'|]; [apply P4|reflexivity]. }
  unfold recover. destruct (N.eqb_spec (blen file) 0) as [Z|Z]; [|exact MAIN].
  destruct MAIN as (p & P1 & P2 & P3 & P4). exists p. split; [exact P1|]. split; [exact P2|]. split; [exact P3|].
  assert (ZD : log done = []).
  { assert (length (log done) = 0%nat) by (unfold file, blen in Z; rewrite app_length in Z; lia).
    destruct (log done); [reflexivity|discriminate]. }
  assert (DN : done = []).
  { destruct done as [|u done]; [reflexivity|]. exfalso.
    assert (0 < length (log (u :: done)))%nat.
    { unfold log. cbn [map concat]. rewrite app_length.
      assert (0 < length (cbytes u))%nat; [|lia].
      cbn [map concat] in HF1. apply Forall_app in HF1. destruct HF1 as (HU & _).
      destruct u as [e|b es f]; cbn [cbytes].
      - inversion HU as [|? ? HE _]; subst. destruct (loggable_ok e HE) as (_ & (H8 & _) & _). cbn [fst ekey] in H8.
        unfold blen in H8. lia.
      - rewrite app_length, mark_eq. cbn [length]. lia. }
    rewrite ZD in H. cbn in H. lia. }
  subst done. unfold effects in *. cbn [map concat effect] in *.
  assert (m = 0%nat \/ p = 0%nat) as [->|ZP]; [|..].
  { right. unfold file, blen in Z. rewrite app_length, firstn_length in Z. 
    destruct rest as [|u rest]; [apply P2; reflexivity|].
    specialize (MB u eq_refl). unfold log in Z; cbn [map concat] in Z. rewrite app_length in Z. cbn [length] in Z. lia. }
  - replace p with 0%nat by lia. reflexivity.
  - rewrite ZP. reflexivity.
Qed.
End P.
