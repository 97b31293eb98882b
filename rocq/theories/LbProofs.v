(* Proofs about the log buffer. *)
From Verif Require Import Base LbModel LbSpec.
Open Scope N_scope.

Notation len b := (N.of_nat (length b)).
Lemma len_app {A} (a b : list A) : len (a ++ b) = len a + len b.
Proof. rewrite app_length. lia. Qed.
Lemma len_0 {A} (a : list A) : len a = 0 -> a = [].
Proof. destruct a; [reflexivity|cbn; lia]. Qed.

(* ---------- memory ---------- *)
Lemma slice_len m a n : length (slice m a n) = N.to_nat n.
Proof. unfold slice. rewrite map_length, seq_length. reflexivity. Qed.
Lemma slice_nth m a n i x : (i < N.to_nat n)%nat -> nth i (slice m a n) x = m (a + N.of_nat i).
Proof.
  intro H. unfold slice. rewrite (nth_indep _ _ (m (a + N.of_nat 0))) by (rewrite map_length, seq_length; exact H).
  rewrite (map_nth (fun i => m (a + N.of_nat i)) (seq 0 (N.to_nat n)) 0%nat i). rewrite seq_nth by exact H. reflexivity.
Qed.
Lemma list_ext {A} (a b : list A) x : length a = length b -> (forall i, (i < length a)%nat -> nth i a x = nth i b x) -> a = b.
Proof. intros L H. apply (nth_ext a b x x L H). Qed.
Lemma slice_ext m m' a n : (forall j, a <= j < a + n -> m j = m' j) -> slice m a n = slice m' a n.
Proof. intro H. unfold slice. apply map_ext_in. intros i I. apply in_seq in I. apply H. lia. Qed.
Lemma slice_app m a x y : slice m a (x + y) = slice m a x ++ slice m (a + x) y.
Proof.
  unfold slice. rewrite N2Nat.inj_add, seq_app, map_app. f_equal. cbn [Nat.add].
  rewrite <- (Nat.add_0_r (N.to_nat x)) at 1. generalize 0%nat as k. induction (N.to_nat y) as [|n IH]; intro k; [reflexivity|].
  cbn [seq map]. f_equal; [f_equal; lia|]. rewrite <- Nat.add_succ_r. apply IH.
Qed.
Lemma slice_0 m a : slice m a 0 = [].
Proof. reflexivity. Qed.
Lemma slice_take m a n b t : slice m a n = b ++ t -> slice m a (len b) = b /\ slice m (a + len b) (n - len b) = t.
Proof.
  intro E. assert (L : n = len b + len t) by (apply (f_equal (@length N)) in E; rewrite slice_len, app_length in E; lia).
  rewrite L in E. rewrite slice_app in E. replace (n - len b) with (len t) by lia.
  assert (A : length (slice m a (len b)) = length b) by (rewrite slice_len; lia).
  destruct (app_eq_app _ _ _ _ E) as [l [[H1 H2]|[H1 H2]]].
  - assert (l = []) by (apply (f_equal (@length N)) in H1; rewrite app_length, A in H1; apply length_zero_iff_nil; lia). subst l. rewrite app_nil_r in H1. auto.
  - assert (l = []) by (apply (f_equal (@length N)) in H1; rewrite app_length, A in H1; apply length_zero_iff_nil; lia). subst l. rewrite app_nil_r in H1. auto.
Qed.
Lemma slice_blit m a r : slice (blit m a r) a (len r) = r.
Proof.
  apply (list_ext _ _ 0); [rewrite slice_len; lia|]. rewrite slice_len. intros i H. rewrite slice_nth by exact H.
  unfold blit. destruct (N.leb_spec a (a + N.of_nat i)); [|lia]. destruct (N.ltb_spec (a + N.of_nat i) (a + len r)); [|lia].
  cbn [andb]. f_equal. lia.
Qed.
Lemma slice_blit_other m a r b n : b + n <= a \/ a + len r <= b -> slice (blit m a r) b n = slice m b n.
Proof.
  intro H. apply slice_ext. intros j J. unfold blit.
  destruct (N.leb_spec a j), (N.ltb_spec j (a + len r)); cbn [andb]; try reflexivity. lia.
Qed.

(* ---------- lists of flush requests with their data ---------- *)
Notation ent := (bytes * bool)%type.
Fixpoint cat (es : list ent) : bytes := match es with [] => [] | e :: t => fst e ++ cat t end.
Fixpoint duals (es : list ent) : bytes := match es with [] => [] | e :: t => (if snd e then fst e else []) ++ duals t end.
Definition single (es : list ent) : Prop := Forall (fun e : ent => snd e = false) es.
Lemma cat_app a b : cat (a ++ b) = cat a ++ cat b.
Proof. induction a as [|e a IH]; cbn; [reflexivity|]. rewrite IH, app_assoc. reflexivity. Qed.
Lemma duals_app a b : duals (a ++ b) = duals a ++ duals b.
Proof. induction a as [|e a IH]; cbn; [reflexivity|]. rewrite IH, app_assoc. reflexivity. Qed.
Lemma single_duals es : single es -> duals es = [].
Proof. induction 1 as [|e es H _ IH]; cbn; [reflexivity|]. rewrite H, IH. reflexivity. Qed.
Lemma single_app a b : single (a ++ b) <-> single a /\ single b.
Proof. apply Forall_app. Qed.

Section Sizes.
  Variable SZ FQ : N.
  Hypothesis FQ2 : 2 <= FQ.

  (* ---------- the circular queue ---------- *)
  Definition idx (b : N) (i : nat) : N := (b + N.of_nat i) mod FQ.
  Lemma idx_lt b i : idx b i < FQ.
  Proof. apply N.mod_lt. lia. Qed.
  Lemma nxt_idx b i : nxt FQ (idx b i) = idx b (S i).
  Proof.
    unfold nxt, idx. pose proof (N.mod_lt (b + N.of_nat i) FQ ltac:(lia)) as L.
    replace (b + N.of_nat (S i)) with (b + N.of_nat i + 1) by lia.
    rewrite <- (N.add_mod_idemp_l (b + N.of_nat i) 1) by lia.
    destruct (N.eqb_spec ((b + N.of_nat i) mod FQ + 1) FQ) as [E|E].
    - rewrite E. symmetry. apply N.mod_same. lia.
    - symmetry. apply N.mod_small. lia.
  Qed.
  Lemma idx_0 b : b < FQ -> idx b 0 = b.
  Proof. intro H. unfold idx. cbn. rewrite N.add_0_r. apply N.mod_small, H. Qed.
  Lemma idx_shift b i : b < FQ -> idx (nxt FQ b) i = idx b (S i).
  Proof.
    intro H. rewrite <- (idx_0 b H) at 1. rewrite nxt_idx. unfold idx. rewrite N.add_mod_idemp_l by lia. f_equal. lia.
  Qed.
  Lemma idx_inj b i j : b < FQ -> N.of_nat i < FQ -> N.of_nat j < FQ -> idx b i = idx b j -> i = j.
  Proof.
    intros B I J E. unfold idx in E.
    assert (G : forall k, N.of_nat k < FQ -> (b + N.of_nat k) mod FQ = if b + N.of_nat k <? FQ then b + N.of_nat k else b + N.of_nat k - FQ).
    { intros k K. destruct (N.ltb_spec (b + N.of_nat k) FQ); [apply N.mod_small; assumption|].
      symmetry. apply (N.mod_unique _ FQ 1); lia. }
    rewrite !G in E by assumption. destruct (N.ltb_spec (b + N.of_nat i) FQ), (N.ltb_spec (b + N.of_nat j) FQ); lia.
  Qed.

  Definition qrel (q : queue) (es : list ent) (ob : bytes) (od : bool) : Prop :=
    q_bgn q < FQ /\ len es < FQ /\ q_end q = idx (q_bgn q) (length es) /\
    (forall i e, nth_error es i = Some e -> q_at q (idx (q_bgn q) i) = (len (fst e), snd e) /\ fst e <> []) /\
    open_n q = len ob /\ len ob < AUTO /\ (ob <> [] -> snd (q_at q (q_end q)) = od) /\
    (forall j, j < FQ -> (forall i, (i <= length es)%nat -> j <> idx (q_bgn q) i) -> fst (q_at q j) = 0).

  Lemma qrel_used q es ob od s : b_que s = q -> qrel q es ob od -> used FQ s = len es.
  Proof.
    intros <- (B & L & E & _). unfold used. rewrite E. unfold idx. pose proof (N.mod_lt (q_bgn (b_que s) + len es) FQ ltac:(lia)) as M.
    set (b := q_bgn (b_que s)) in *. replace ((b + len es) mod FQ + FQ - b) with ((b + len es) mod FQ + (FQ - b)) by lia.
    rewrite N.add_mod_idemp_l by lia. replace (b + len es + (FQ - b)) with (len es + 1 * FQ) by lia.
    rewrite N.mod_add by lia. apply N.mod_small, L.
  Qed.

  Lemma bump_q q es ob od d' : qrel q es ob od -> ob <> [] -> len es + 1 < FQ ->
    qrel (bump FQ q) (es ++ [(ob, od)]) [] d'.
  Proof.
    intros (B & L & E & I & O & A & D & Z) NE R. unfold qrel, bump, open_n. cbn [q_bgn q_end q_at].
    assert (LE : length (es ++ [(ob, od)]) = S (length es)) by (rewrite app_length; cbn; lia).
    split; [exact B|]. split; [rewrite LE; lia|]. split; [rewrite E, nxt_idx, LE; reflexivity|]. split.
    - intros i e N. destruct (Nat.lt_ge_cases i (length es)).
      + rewrite nth_error_app1 in N by assumption. apply I, N.
      + rewrite nth_error_app2 in N by assumption. destruct (i - length es)%nat as [|k] eqn:K.
        * cbn in N. injection N as <-. replace i with (length es) by lia. rewrite <- E. cbn [fst snd]. split; [|exact NE].
          unfold open_n in O. rewrite <- O, <- (D NE). destruct (q_at q (q_end q)); reflexivity.
        * cbn in N. destruct k; discriminate.
    - assert (Z0 : fst (q_at q (nxt FQ (q_end q))) = 0).
      { rewrite E, nxt_idx. apply Z; [apply idx_lt|]. intros i H C. apply idx_inj in C; [lia|exact B|lia|lia]. }
      split; [exact Z0|]. split; [reflexivity|]. split; [congruence|].
      intros j J H. apply Z; [exact J|]. intros i H1. apply H. lia.
  Qed.

  Lemma close_open_q q es ob od : qrel q es ob od -> len es + 1 < FQ ->
    exists new, qrel (close_open FQ q) (es ++ new) [] false /\ cat new = ob /\ duals new = duals [(ob, od)] /\
      (new = [] \/ new = [(ob, od)]) /\ q_bgn (close_open FQ q) = q_bgn q /\ q_dw (close_open FQ q) = q_dw q /\ q_dwsize (close_open FQ q) = q_dwsize q.
  Proof.
    intros Q R. unfold close_open. destruct (N.ltb_spec 0 (open_n q)) as [H|H].
    - assert (NE : ob <> []) by (destruct Q as (_ & _ & _ & _ & O & _); intros ->; cbn in O; lia).
      exists [(ob, od)]. split; [apply bump_q; assumption|]. cbn. rewrite !app_nil_r. split; [reflexivity|]. split; [reflexivity|].
      split; [right; reflexivity|]. auto.
    - assert (NE : ob = []) by (destruct Q as (_ & _ & _ & _ & O & _); apply len_0; lia). subst ob.
      exists []. rewrite app_nil_r. split; [|cbn; destruct od; auto 10].
      destruct Q as (B & L & E & I & O & A & D & Z). split; [exact B|]. split; [exact L|]. split; [exact E|]. split; [exact I|].
      split; [exact O|]. split; [exact A|]. split; [congruence|exact Z].
  Qed.

  Lemma enqueue_q fuel : forall q es ob od rec d,
    qrel q es ob od -> (ob <> [] -> od = d) -> len es + (len ob + len rec) / AUTO < FQ ->
    (len ob + len rec) / AUTO < N.of_nat fuel ->
    exists new ob' od', qrel (enqueue FQ fuel q (len rec) d) (es ++ new) ob' od' /\ cat new ++ ob' = ob ++ rec /\
      (ob' <> [] -> od' = d) /\
      Forall (fun e : ent => snd e = d) new /\ q_bgn (enqueue FQ fuel q (len rec) d) = q_bgn q /\
      q_dw (enqueue FQ fuel q (len rec) d) = q_dw q /\ q_dwsize (enqueue FQ fuel q (len rec) d) = q_dwsize q.
  Proof.
    induction fuel as [|f IH]; intros q es ob od rec d Q D R F; [exfalso; exact (N.nlt_0_r _ F)|]. cbn [enqueue].
    destruct (N.eqb_spec (len rec) 0) as [E0|E0].
    { apply len_0 in E0. subst rec. exists [], ob, od. rewrite !app_nil_r. split; [exact Q|]. split; [reflexivity|]. split; [exact D|]. auto. }
    destruct Q as (B & L & E & I & O & A & OD & Z). rewrite O.
    assert (AP : AUTO <> 0) by discriminate.
    (* the bytes of this round *)
    set (sp := if len rec <=? AUTO - len ob then len rec else AUTO - len ob).
    assert (SP : sp <= len rec /\ 0 < sp /\ len ob + sp <= AUTO) by (unfold sp; destruct (N.leb_spec (len rec) (AUTO - len ob)); lia).
    assert (SE : sp = len rec \/ len ob + sp = AUTO) by (unfold sp; destruct (N.leb_spec (len rec) (AUTO - len ob)); lia).
    clearbody sp. set (r1 := firstn (N.to_nat sp) rec). set (r2 := skipn (N.to_nat sp) rec).
    assert (RR : rec = r1 ++ r2) by (symmetry; apply firstn_skipn).
    assert (L1 : len r1 = sp) by (unfold r1; rewrite firstn_length; lia).
    assert (L2 : len r2 = len rec - sp) by (unfold r2; rewrite skipn_length; lia).
    set (q1 := {| q_at := upd (q_at q) (q_end q) (len ob + sp, d); q_bgn := q_bgn q; q_end := q_end q; q_dw := q_dw q; q_dwsize := q_dwsize q |}).
    assert (AT : q_at q1 (q_end q) = (len ob + sp, d)) by (cbn; unfold upd; rewrite N.eqb_refl; reflexivity).
    assert (I1 : forall i e, nth_error es i = Some e -> q_at q1 (idx (q_bgn q) i) = (len (fst e), snd e) /\ fst e <> []).
    { intros i e H. assert (i < length es)%nat by (apply nth_error_Some; congruence).
      destruct (I i e H) as [H1 H2]. split; [|exact H2]. cbn. unfold upd. destruct (N.eqb_spec (idx (q_bgn q) i) (q_end q)) as [C|C]; [|exact H1].
      rewrite E in C. apply idx_inj in C; [lia|exact B|lia|lia]. }
    assert (Z1 : forall j, j < FQ -> (forall i, (i <= length es)%nat -> j <> idx (q_bgn q) i) -> fst (q_at q1 j) = 0).
    { intros j J H. cbn. unfold upd. destruct (N.eqb_spec j (q_end q)) as [C|C]; [|apply Z; assumption]. destruct (H (length es) (le_n _)). congruence. }
    destruct (N.eqb_spec (len ob + sp) AUTO) as [FULL|NF].
    - (* the entry is full *)
      assert (DV : (len ob + len rec) / AUTO = 1 + len r2 / AUTO).
      { rewrite L2. replace (len ob + len rec) with (len rec - sp + 1 * AUTO) by lia. rewrite N.div_add by exact AP. apply N.add_comm. }
      assert (DN : 0 <= len r2 / AUTO) by apply N.le_0_l.
      assert (Q2 : qrel (bump FQ q1) (es ++ [(ob ++ r1, d)]) [] false).
      { unfold qrel, bump, open_n. cbn [q_bgn q_end q_at]. change (q_end q1) with (q_end q). change (q_bgn q1) with (q_bgn q).
        assert (LE : length (es ++ [(ob ++ r1, d)]) = S (length es)) by (rewrite app_length; cbn; lia).
        split; [exact B|]. split; [rewrite LE; lia|]. split; [rewrite E, nxt_idx, LE; reflexivity|]. split.
        - intros i e N. destruct (Nat.lt_ge_cases i (length es)).
          + rewrite nth_error_app1 in N by assumption. apply I1, N.
          + rewrite nth_error_app2 in N by assumption. destruct (i - length es)%nat as [|k] eqn:K.
            * cbn in N. injection N as <-. replace i with (length es) by lia. rewrite <- E.
              change (q_at q1 (q_end q) = (len (ob ++ r1), d) /\ ob ++ r1 <> []). rewrite AT, len_app, L1. split; [reflexivity|].
              intro C. apply (f_equal (@length N)) in C. rewrite app_length in C. cbn in C. lia.
            * cbn in N. destruct k; discriminate.
        - split.
          { change (fst (q_at q1 (nxt FQ (q_end q))) = 0). apply Z1; rewrite E, nxt_idx; [apply idx_lt|]. intros i H C. apply idx_inj in C; [lia|exact B|lia|lia]. }
          split; [reflexivity|]. split; [congruence|].
          intros j J H. apply Z1; [exact J|]. intros i H1. apply H. lia. }
      rewrite <- L2.
      destruct (IH (bump FQ q1) (es ++ [(ob ++ r1, d)]) [] false r2 d Q2) as (new & ob' & od' & H1 & H2 & H3 & H4 & H5 & H6 & H7).
      + congruence.
      + rewrite len_app. cbn [length]. change (len ([] : bytes)) with 0. rewrite N.add_0_l. lia.
      + change (len ([] : bytes)) with 0. rewrite N.add_0_l. lia.
      + exists ((ob ++ r1, d) :: new), ob', od'. rewrite <- app_assoc in H1. split; [exact H1|]. split; [cbn [cat fst]; rewrite <- app_assoc, H2, RR, <- app_assoc; reflexivity|].
        split; [exact H3|]. split; [constructor; [reflexivity|exact H4]|]. split; [exact H5|]. split; [exact H6|exact H7].
    - (* the rest fits *)
      assert (r2 = []) by (apply len_0; lia). assert (RS : len rec - sp = 0) by lia. rewrite RS.
      assert (EQ : enqueue FQ f q1 0 d = q1) by (destruct f; reflexivity). rewrite EQ.
      exists [], (ob ++ r1), d. rewrite app_nil_r.
      assert (RE : r1 = rec) by (rewrite RR; rewrite H; symmetry; apply app_nil_r).
      split; [|split; [rewrite RE; reflexivity|split; [reflexivity|split; [constructor|auto]]]].
      split; [exact B|]. split; [exact L|]. split; [exact E|]. split; [exact I1|].
      split; [unfold open_n; change (q_end q1) with (q_end q); rewrite AT; cbn [fst]; rewrite len_app, L1; reflexivity|].
      split; [rewrite len_app, L1; lia|]. split; [intros _; change (q_end q1) with (q_end q); rewrite AT; reflexivity|exact Z1].
  Qed.

  Definition nd (ob : bytes) (od : bool) : Prop := ob <> [] -> od = false.

  Lemma duals_const d (es : list ent) (ob : bytes) od : Forall (fun e : ent => snd e = d) es -> (ob <> [] -> od = d) ->
    duals (es ++ [(ob, od)]) = if d then cat es ++ ob else [].
  Proof.
    induction 1 as [|e es H _ IH]; intro O.
    - cbn. rewrite app_nil_r. destruct ob as [|x ob]; [destruct od, d; reflexivity|]. rewrite (O ltac:(discriminate)). reflexivity.
    - cbn [app duals cat]. rewrite (IH O), H. destruct d; [rewrite app_assoc|]; reflexivity.
  Qed.

  Definition flip (q : queue) (d : bool) : queue :=
    if (0 <? open_n q) && negb (Bool.eqb (snd (q_at q (q_end q))) d) then bump FQ q else q.

  Lemma write_q q es ob od rec d fuel : qrel q es ob od -> rec <> [] -> len es + len rec / AUTO + 1 < FQ ->
    fuel = S (S (N.to_nat (len rec / AUTO))) ->
    exists new ob' od', qrel (enqueue FQ fuel (flip q d) (len rec) d) (es ++ new) ob' od' /\ cat new ++ ob' = ob ++ rec /\
      duals (new ++ [(ob', od')]) = duals [(ob, od)] ++ (if d then rec else []) /\
      (d = false -> nd ob od -> single new /\ nd ob' od') /\
      q_bgn (enqueue FQ fuel (flip q d) (len rec) d) = q_bgn q /\ q_dw (enqueue FQ fuel (flip q d) (len rec) d) = q_dw q /\
      q_dwsize (enqueue FQ fuel (flip q d) (len rec) d) = q_dwsize q.
  Proof.
    intros Q NE R ->. unfold flip. pose proof Q as (B & L & E & I & O & A & D & Z). rewrite O.
    assert (AP : AUTO <> 0) by discriminate.
    assert (DN : 0 <= len rec / AUTO) by apply N.le_0_l.
    assert (DV : (len ob + len rec) / AUTO <= len rec / AUTO + 1).
    { replace (len rec / AUTO + 1) with ((len rec + 1 * AUTO) / AUTO) by (rewrite N.div_add by exact AP; reflexivity). apply N.div_le_mono; [exact AP|lia]. }
    destruct (N.ltb_spec 0 (len ob)) as [NO|NO]; cbn [andb].
    - assert (OB : ob <> []) by (intros ->; cbn in NO; lia). rewrite (D OB). destruct (Bool.eqb_spec od d) as [EQ|NQ]; cbn [negb].
      + subst od. destruct (enqueue_q (S (S (N.to_nat (len rec / AUTO)))) q es ob d rec d Q) as (new & ob' & od' & H1 & H2 & H3 & H4 & H5 & H6 & H7).
        * reflexivity.
        * lia.
        * rewrite !Nat2N.inj_succ, N2Nat.id. lia.
        * exists new, ob', od'. split; [exact H1|]. split; [exact H2|]. split.
          { rewrite (duals_const d) by assumption. rewrite H2. cbn. rewrite app_nil_r. destruct d; reflexivity. }
          split; [|auto]. intros -> _. split; [exact H4|exact H3].
      + destruct (enqueue_q (S (S (N.to_nat (len rec / AUTO)))) (bump FQ q) (es ++ [(ob, od)]) [] false rec d) as (new & ob' & od' & H1 & H2 & H3 & H4 & H5 & H6 & H7).
        * apply bump_q; [exact Q|exact OB|lia].
        * congruence.
        * rewrite len_app. cbn [length]. change (len ([] : bytes)) with 0. rewrite N.add_0_l. lia.
        * change (len ([] : bytes)) with 0. rewrite N.add_0_l, !Nat2N.inj_succ, N2Nat.id. lia.
        * exists ((ob, od) :: new), ob', od'. rewrite <- app_assoc in H1. split; [exact H1|]. split; [cbn [cat fst]; rewrite <- app_assoc, H2; reflexivity|]. split.
          { cbn [app duals]. rewrite (duals_const d) by assumption. rewrite H2. cbn. rewrite app_nil_r. reflexivity. }
          split; [|auto]. intros -> N. split; [constructor; [exact (N OB)|exact H4]|exact H3].
    - assert (OB : ob = []) by (apply len_0; lia). subst ob.
      destruct (enqueue_q (S (S (N.to_nat (len rec / AUTO)))) q es [] od rec d Q) as (new & ob' & od' & H1 & H2 & H3 & H4 & H5 & H6 & H7).
      * congruence.
      * lia.
      * rewrite !Nat2N.inj_succ, N2Nat.id. lia.
      * exists new, ob', od'. split; [exact H1|]. split; [exact H2|]. split.
        { rewrite (duals_const d) by assumption. rewrite H2. cbn. destruct od, d; reflexivity. }
        split; [|auto]. intros -> _. split; [exact H4|exact H3].
  Qed.

  (* ---------- resetting the flags ---------- *)
  Definition unf (es : list ent) : list ent := map (fun e => (fst e, false)) es.
  Lemma unf_single es : single (unf es).
  Proof. unfold unf, single. apply Forall_forall. intros e H. apply in_map_iff in H. destruct H as (x & <- & _). reflexivity. Qed.
  Lemma unf_cat es : cat (unf es) = cat es.
  Proof. induction es as [|e es IH]; cbn; [reflexivity|]. unfold unf in IH. rewrite IH. reflexivity. Qed.

  Lemma undual_at b cnt (B : b < FQ) (C : N.of_nat cnt <= FQ) : forall fuel f i,
    (i <= cnt)%nat -> N.of_nat i < FQ -> (cnt - i <= fuel)%nat ->
    (forall j, (i <= j < cnt)%nat -> 0 < fst (f (idx b j))) -> (N.of_nat cnt < FQ -> fst (f (idx b cnt)) = 0) ->
    let g := undual FQ fuel f (idx b i) b in
    (forall j, (i <= j < cnt)%nat -> g (idx b j) = (fst (f (idx b j)), false)) /\
    (forall x, (forall j, (i <= j < cnt)%nat -> x <> idx b j) -> g x = f x).
  Proof.
    induction fuel as [|k IH]; intros f i I IF FU P Z; [cbn; split; [intros; lia|reflexivity]|]. cbn [undual].
    destruct (Nat.eq_dec i cnt) as [->|NI].
    { rewrite (Z ltac:(lia)). cbn. split; [intros; lia|reflexivity]. }
    pose proof (P i ltac:(lia)) as PI. destruct (N.ltb_spec 0 (fst (f (idx b i)))) as [_|?]; [|lia].
    set (f1 := if snd (f (idx b i)) then upd f (idx b i) (fst (f (idx b i)), false) else f).
    assert (F1 : f1 (idx b i) = (fst (f (idx b i)), false)).
    { unfold f1. destruct (f (idx b i)) as [x []] eqn:E; cbn; [unfold upd; rewrite N.eqb_refl; reflexivity|exact E]. }
    assert (F2 : forall x, x <> idx b i -> f1 x = f x).
    { intros x X. unfold f1. destruct (snd (f (idx b i))); [|reflexivity]. unfold upd. destruct (N.eqb_spec x (idx b i)); congruence. }
    rewrite nxt_idx. destruct (N.eqb_spec (idx b (S i)) b) as [E|E].
    - assert (S (N.to_nat FQ - 1) = N.to_nat FQ)%nat by lia.
      assert (SI : N.of_nat (S i) = FQ).
      { destruct (N.lt_ge_cases (N.of_nat (S i)) FQ) as [H0|]; [|lia]. rewrite <- (idx_0 b B) in E at 2. apply idx_inj in E; [lia|exact B|exact H0|lia]. }
      cbn zeta. split.
      + intros j J. replace j with i by lia. exact F1.
      + intros x X. apply F2, X. lia.
    - assert (SI : N.of_nat (S i) < FQ).
      { destruct (N.lt_ge_cases (N.of_nat (S i)) FQ) as [|H0]; [assumption|]. exfalso. apply E. unfold idx. replace (N.of_nat (S i)) with FQ by lia.
        replace (b + FQ) with (b + 1 * FQ) by lia. rewrite N.mod_add by lia. apply N.mod_small, B. }
      destruct (IH f1 (S i)) as [G1 G2].
      + lia.
      + exact SI.
      + lia.
      + intros j J. rewrite F2; [apply P; lia|]. intro X. apply idx_inj in X; [lia|exact B|lia|lia].
      + intro H. rewrite F2; [exact (Z H)|]. intro X. apply idx_inj in X; [lia|exact B|lia|lia].
      + cbn zeta. split.
        * intros j J. destruct (Nat.eq_dec j i) as [->|NJ].
          { rewrite G2; [exact F1|]. intros j' J' X. apply idx_inj in X; [lia|exact B|lia|lia]. }
          rewrite G1 by lia. rewrite F2; [reflexivity|]. intro X. apply idx_inj in X; [lia|exact B|lia|lia].
        * intros x X. rewrite G2; [apply F2, X; lia|]. intros j J. apply X. lia.
  Qed.

  Lemma undual_q q es ob od w : qrel q es ob od ->
    qrel {| q_at := undual FQ (N.to_nat FQ) (q_at q) (q_bgn q) (q_bgn q); q_bgn := q_bgn q; q_end := q_end q; q_dw := q_dw q; q_dwsize := w |} (unf es) ob false.
  Proof.
    intros (B & L & E & I & O & A & D & Z). unfold open_n in O.
    set (cnt := if len ob =? 0 then length es else S (length es)).
    assert (CN : (len ob = 0 /\ cnt = length es) \/ (len ob <> 0 /\ cnt = S (length es))) by (unfold cnt; destruct (N.eqb_spec (len ob) 0); auto).
    clearbody cnt.
    assert (U := undual_at (q_bgn q) cnt B).
    assert (PP : forall j, (0 <= j < cnt)%nat -> 0 < fst (q_at q (idx (q_bgn q) j))).
    { intros j J. destruct (Nat.lt_ge_cases j (length es)) as [H|H].
      - destruct (nth_error es j) as [e|] eqn:N; [|apply nth_error_None in N; lia]. destruct (I j e N) as [-> H1]. cbn [fst].
        destruct (fst e); [congruence|cbn [length]; lia].
      - replace j with (length es) by lia. rewrite <- E, O. lia. }
    assert (ZZ : N.of_nat cnt < FQ -> fst (q_at q (idx (q_bgn q) cnt)) = 0).
    { intro H. destruct CN as [[H0 ->]|[H0 ->]]; [rewrite <- E, O; exact H0|].
      apply Z; [apply idx_lt|]. intros i HI X. apply idx_inj in X; [lia|exact B|lia|lia]. }
    specialize (U ltac:(lia) (N.to_nat FQ) (q_at q) 0%nat ltac:(lia) ltac:(lia)).
    rewrite (idx_0 _ B) in U.
    assert (FU : (cnt - 0 <= N.to_nat FQ)%nat) by lia.
    destruct (U FU PP ZZ) as [G1 G2]. clear U.
    assert (LE : length (unf es) = length es) by apply map_length.
    split; [exact B|]. split; [rewrite LE; exact L|]. split; [rewrite LE; exact E|]. cbn [q_at q_bgn q_end open_n].
    split; [|split; [|split; [exact A|split]]].
    - intros i e N. unfold unf in N. rewrite nth_error_map in N. destruct (nth_error es i) as [x|] eqn:X; [|discriminate]. cbn in N. injection N as <-.
      destruct (I i x X) as [H1 H2]. cbn [fst snd]. split; [|exact H2]. rewrite G1; [rewrite H1; reflexivity|].
      assert (i < length es)%nat by (apply nth_error_Some; congruence). lia.
    - unfold open_n. cbn [q_at q_end]. destruct CN as [[H0 C0]|[H0 C0]].
      + rewrite G2; [exact O|]. intros j J. rewrite E. intro X. apply idx_inj in X; [lia|exact B|lia|lia].
      + rewrite E, G1; [cbn [fst]; rewrite <- E; exact O|]. lia.
    - intro OB. rewrite E, G1; [reflexivity|]. assert (len ob <> 0) by (intro H0; apply len_0 in H0; contradiction). lia.
    - rewrite LE. intros j J H. rewrite G2; [apply Z; assumption|]. intros i HI. apply H. lia.
  Qed.

  (* removal of the first entry *)
  Lemma pop_q q e es ob od : qrel q (e :: es) ob od ->
    qrel {| q_at := upd (q_at q) (q_bgn q) (0, false); q_bgn := nxt FQ (q_bgn q); q_end := q_end q; q_dw := q_dw q; q_dwsize := q_dwsize q |} es ob od.
  Proof.
    intros (B & L & E & I & O & A & D & Z). cbn [length] in *.
    assert (EX : q_end q <> q_bgn q). { rewrite E. rewrite <- (idx_0 _ B) at 2. intro X. apply idx_inj in X; [lia|exact B|lia|lia]. }
    unfold qrel, open_n. cbn [q_at q_bgn q_end].
    split; [rewrite <- (idx_0 _ B), nxt_idx; apply idx_lt|]. split; [lia|]. split; [rewrite E, idx_shift by exact B; reflexivity|].
    assert (UP : forall x, x <> q_bgn q -> upd (q_at q) (q_bgn q) (0, false) x = q_at q x) by (intros x X; unfold upd; destruct (N.eqb_spec x (q_bgn q)); congruence).
    split; [|split; [|split; [exact A|split]]].
    - intros i x N. rewrite idx_shift by exact B. rewrite UP; [apply I, N|]. rewrite <- (idx_0 _ B) at 2.
      assert (i < length es)%nat by (apply nth_error_Some; congruence). intro X. apply idx_inj in X; [lia|exact B|lia|lia].
    - rewrite UP by exact EX. exact O.
    - intro OB. rewrite UP by exact EX. exact (D OB).
    - intros j J H. destruct (N.eq_dec j (q_bgn q)) as [->|NJ]; [unfold upd; rewrite N.eqb_refl; reflexivity|]. rewrite UP by exact NJ. apply Z; [exact J|].
      intros i HI. destruct i as [|i]; [rewrite (idx_0 _ B); exact NJ|]. specialize (H i ltac:(lia)). rewrite idx_shift in H by exact B. exact H.
  Qed.
End Sizes.
