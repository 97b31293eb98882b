(* Proofs about ArgModel.v: the eflag filter and the memory it is parsed into. *)
From Coq Require Import String Ascii.
From Verif Require Import Base UtilModel UtilSpec UtilProofs ArgTypes ArgModel ArgSpec ArgProofs.
From Coq Require Import List ZArith NArith Lia.
Local Open Scope nat_scope.
Local Open Scope list_scope.

Ltac addr := unfold A_END, A_BITW, A_COMP, A_NBITW, A_NCOMP, A_CNT, A_OFF, A_BITWOP, A_COMPOP in *; lia.
(* ---- memory ---- *)
Lemma put_same m a v : (v < 256)%N -> put m a v a = v.
Proof. intros H. unfold put. rewrite N.eqb_refl. now apply N.mod_small. Qed.
Lemma put_other m a v i : i <> a -> put m a v i = m i.
Proof. intros H. unfold put. now rewrite (proj2 (N.eqb_neq _ _) H). Qed.
Lemma store_out m a bs i : (i < a \/ a + N.of_nat (List.length bs) <= i)%N -> store m a bs i = m i.
Proof.
  intros H. unfold store. destruct (N.leb a i) eqn:A; [|reflexivity].
  destruct (N.ltb i (a + N.of_nat (List.length bs))) eqn:B; [|reflexivity].
  apply N.leb_le in A. apply N.ltb_lt in B. lia.
Qed.
Lemma store_in m a bs k : k < List.length bs -> store m a bs (a + N.of_nat k)%N = nth k bs 0%N.
Proof.
  intros H. unfold store.
  rewrite (proj2 (N.leb_le a (a + N.of_nat k))) by lia.
  rewrite (proj2 (N.ltb_lt (a + N.of_nat k) (a + N.of_nat (List.length bs)))) by lia.
  cbn [andb]. f_equal. lia.
Qed.
Lemma load_ext m m' a n : (forall i, (a <= i < a + n)%N -> m' i = m i) -> load m' a n = load m a n.
Proof.
  intros H. unfold load. apply map_ext_in. intros k K. apply in_seq in K. apply H. lia.
Qed.
Lemma map_nth_seq (bs : bytes) (f : nat -> N) :
  (forall k, k < List.length bs -> f k = nth k bs 0%N) -> map f (seq 0 (List.length bs)) = bs.
Proof.
  revert f. induction bs as [|b bs IH]; intros f H; [reflexivity|].
  cbn [List.length seq map]. f_equal.
  - apply (H 0). cbn. lia.
  - rewrite <- seq_shift, map_map. apply IH. intros k K. apply (H (S k)). cbn. lia.
Qed.
Lemma load_store m a bs : load (store m a bs) a (N.of_nat (List.length bs)) = bs.
Proof.
  unfold load. rewrite Nat2N.id. apply map_nth_seq. intros k K. now apply store_in.
Qed.
Lemma load_len m a n : List.length (load m a n) = N.to_nat n.
Proof. unfold load. now rewrite map_length, seq_length. Qed.

(* ---- what the hexadecimal reader writes ---- *)
Lemma hex_stored_ok t b : hex_loop t = Some b -> Nat.even (List.length t) = true -> hex_stored t = b.
Proof.
  remember (List.length t) as n eqn:E. revert t b E.
  induction n as [n IH] using lt_wf_ind. intros t b -> H V.
  destruct t as [|c1 [|c2 t]]; cbn in H; try congruence; [now injection H as <-|discriminate V|].
  cbn [hex_stored]. destruct (hexval c1) as [h|]; [|discriminate].
  destruct (hexval c2) as [l|]; [|discriminate].
  destruct (hex_loop t) as [r|] eqn:R; [|discriminate]. injection H as <-.
  f_equal. apply (IH (List.length t)); cbn in *; auto; lia.
Qed.
Lemma hex_stored_len t : 2 * List.length (hex_stored t) <= List.length t.
Proof.
  remember (List.length t) as n eqn:E. revert t E.
  induction n as [n IH] using lt_wf_ind. intros t ->.
  destruct t as [|c1 [|c2 t]]; cbn; try lia.
  destruct (hexval c1); [|cbn; lia]. destruct (hexval c2); [|cbn; lia].
  cbn. pose proof (IH (List.length t)) as K. cbn in K. specialize (K ltac:(lia) t eq_refl). lia.
Qed.
Lemma even_of_mod (t : bytes) : (N.of_nat (List.length t) mod 2 = 0)%N -> Nat.even (List.length t) = true.
Proof.
  intros H. apply N.mod_divide in H; [|lia]. destruct H as [q H].
  apply Nat.even_spec. exists (N.to_nat q). lia.
Qed.
Lemma eflag_stored_ok s b : get_eflag_from_str s = Some b -> eflag_stored s = b.
Proof.
  unfold get_eflag_from_str, eflag_stored. destruct (is0x s); [|discriminate].
  unfold safe_strtohexa.
  destruct ((N.of_nat (List.length (drop2 s)) =? 0) || (2 * MAX_EFLAG_LENG <? N.of_nat (List.length (drop2 s)))
    || negb (N.of_nat (List.length (drop2 s)) mod 2 =? 0))%N%bool eqn:G; [discriminate|].
  intros H. apply hex_stored_ok; auto. apply even_of_mod.
  apply Bool.orb_false_iff in G as [_ G]. apply Bool.negb_false_iff in G. now apply N.eqb_eq in G.
Qed.
Lemma eflag_stored_len s : List.length (eflag_stored s) <= 31.
Proof.
  unfold eflag_stored. destruct (is0x s); [|cbn; lia].
  destruct ((N.of_nat (List.length (drop2 s)) =? 0) || (2 * MAX_EFLAG_LENG <? N.of_nat (List.length (drop2 s)))
    || negb (N.of_nat (List.length (drop2 s)) mod 2 =? 0))%N%bool eqn:G; [cbn; lia|].
  apply Bool.orb_false_iff in G as [G _]. apply Bool.orb_false_iff in G as [_ G].
  apply N.ltb_ge in G. unfold MAX_EFLAG_LENG in G.
  pose proof (hex_stored_len (drop2 s)). lia.
Qed.

(* ---- the loop over the values ---- *)
(* the values [vs], each of [n] bytes, are stored *)
Record holds (m : mem) (n : nat) (vs : list bytes) : Prop := {
  h_cnt : m A_CNT = N.of_nat (List.length vs);
  h_ncomp : m A_NCOMP = N.of_nat n;
  h_len : Forall (fun b => List.length b = n) vs;
  h_vals : forall k, k < List.length vs ->
    load m (A_COMP + N.of_nat k * N.of_nat n) (N.of_nat n) = nth k vs []
}.
(* nothing but the values and their number is written *)
Definition kept (m m' : mem) : Prop :=
  forall i, (i < A_COMP \/ A_NBITW <= i /\ i <> A_CNT)%N -> m' i = m i.
Lemma kept_refl m : kept m m.
Proof. intros i _. reflexivity. Qed.
Lemma kept_trans a b c : kept a b -> kept b c -> kept a c.
Proof. intros H K i I. rewrite (K i I). now apply H. Qed.

Lemma holds_add m n vs b : holds m n vs -> List.length vs < 100 -> n <= 31 -> List.length b = n ->
  let m1 := store m (A_COMP + m A_CNT * m A_NCOMP) b in
  let m2 := put m1 A_CNT (m1 A_CNT + 1) in
  holds m2 n (vs ++ [b]) /\ kept m m2 /\ m2 A_CNT = N.of_nat (S (List.length vs)).
Proof.
  intros [C NC L V] LT N31 LB. cbv zeta. rewrite C, NC.
  set (a := (A_COMP + N.of_nat (List.length vs) * N.of_nat n)%N).
  assert (TOP : (a + N.of_nat (List.length b) <= A_NBITW)%N).
  { unfold a, A_COMP, A_NBITW. rewrite LB.
    assert (List.length vs * n <= 99 * n) by (apply Nat.mul_le_mono_r; lia). lia. }
  assert (BOT : (A_COMP <= a)%N) by (unfold a; lia).
  assert (CN : store m a b A_CNT = N.of_nat (List.length vs)).
  { rewrite store_out; [exact C|]. right. unfold A_CNT, A_NBITW in *. lia. }
  assert (CN2 : put (store m a b) A_CNT (store m a b A_CNT + 1) A_CNT = N.of_nat (S (List.length vs))).
  { rewrite put_same; rewrite CN; lia. }
  split; [|split; [|exact CN2]].
  - constructor.
    + rewrite CN2. rewrite app_length. cbn. lia.
    + rewrite put_other by discriminate. rewrite store_out; [exact NC|].
      right. unfold A_NCOMP, A_NBITW in *. lia.
    + apply Forall_app. split; auto.
    + intros k K. rewrite app_length in K. cbn in K.
      assert (AD : forall i, (A_COMP <= i < A_NBITW)%N ->
        put (store m a b) A_CNT (store m a b A_CNT + 1) i = store m a b i).
      { intros i I. apply put_other. unfold A_CNT, A_COMP, A_NBITW in *. lia. }
      destruct (Nat.eq_dec k (List.length vs)) as [->|NE].
      * rewrite app_nth2, Nat.sub_diag by lia. cbn [nth]. fold a.
        rewrite (load_ext (store m a b)).
        -- rewrite <- LB. apply load_store.
        -- intros i I. apply AD. rewrite LB in TOP. lia.
      * rewrite app_nth1 by lia. rewrite <- V by lia.
        assert (KN : k * n + n <= List.length vs * n).
        { replace (k * n + n) with (S k * n) by lia. apply Nat.mul_le_mono_r. lia. }
        apply load_ext. intros i I.
        rewrite AD.
        -- apply store_out. left. unfold a. lia.
        -- unfold a in TOP. rewrite LB in TOP. lia.
  - intros i I. rewrite put_other; [apply store_out|].
    + unfold A_CNT, A_NBITW in *. lia.
    + unfold A_CNT, A_COMP, A_NBITW in *. lia.
Qed.

(* the bytes of one value never reach behind the array *)
Lemma store_kept m n vs p : holds m n vs -> n <= 31 ->
  List.length vs < 100 \/ (List.length vs = 100 /\ n <= 30) ->
  let m1 := store m (A_COMP + m A_CNT * m A_NCOMP) (eflag_stored p) in
  kept m (put m1 A_CNT (m1 A_CNT + 1)) /\ m1 A_CNT = N.of_nat (List.length vs) /\ m1 A_NCOMP = N.of_nat n.
Proof.
  intros [C NC L V] N31 B. cbv zeta. rewrite C, NC. pose proof (eflag_stored_len p) as EL.
  set (a := (A_COMP + N.of_nat (List.length vs) * N.of_nat n)%N).
  assert (TOP : (a + N.of_nat (List.length (eflag_stored p)) <= A_NBITW)%N).
  { unfold a, A_COMP, A_NBITW. destruct B as [B|[B1 B2]].
    - assert (List.length vs * n <= 99 * 31) by (apply Nat.mul_le_mono; lia). lia.
    - assert (List.length vs * n <= 100 * 30) by (apply Nat.mul_le_mono; lia). lia. }
  assert (BOT : (A_COMP <= a)%N) by (unfold a; lia).
  split; [|split].
  - intros i I. rewrite put_other by (unfold A_CNT, A_COMP, A_NBITW in *; lia).
    apply store_out. unfold A_CNT, A_COMP, A_NBITW in *. lia.
  - rewrite store_out; [exact C|]. right. unfold A_CNT, A_NBITW in *. lia.
  - rewrite store_out; [exact NC|]. right. unfold A_NCOMP, A_NBITW in *. lia.
Qed.

Lemma loop_rest offset (ps : list bytes) : forall m n (vs : list bytes), holds m n vs -> 1 <= List.length vs <= 100 -> n <= 31 ->
  (List.length vs + List.length ps <= 100 \/ n <= 30) ->
  let r := efilter_loop offset m ps in
  kept m (fst r) /\
  (snd r = true -> exists ws, Forall2 hex_arg ps ws /\ holds (fst r) n (vs ++ ws) /\
     List.length vs + List.length ws <= 100) /\
  (forall ws, Forall2 hex_arg ps ws -> Forall (fun b => List.length b = n) ws ->
     List.length vs + List.length ws <= 100 -> snd r = true).
Proof.
  induction ps as [|p ps IH]; intros m n vs H LV N31 NW; cbv zeta.
  - cbn. split; [apply kept_refl|]. split; [|auto]. intros _. exists [].
    rewrite app_nil_r. split; [constructor|]. split; [assumption|cbn; lia].
  - cbn [efilter_loop].
    assert (B : List.length vs < 100 \/ (List.length vs = 100 /\ n <= 30)) by (cbn in NW; lia).
    destruct (store_kept m n vs p H N31 B) as (K & CN & NC).
    set (m1 := store m (A_COMP + m A_CNT * m A_NCOMP) (eflag_stored p)) in *.
    set (m2 := put m1 A_CNT (m1 A_CNT + 1)) in *.
    assert (C2 : m2 A_CNT = N.of_nat (S (List.length vs))).
    { unfold m2. rewrite put_same; rewrite CN; lia. }
    assert (NC2 : m2 A_NCOMP = N.of_nat n).
    { unfold m2. rewrite put_other by discriminate. exact NC. }
    destruct (N.ltb MAX_EFLAG_COMPARE_COUNT (m2 A_CNT)) eqn:BIG.
    + apply N.ltb_lt in BIG. rewrite C2 in BIG. unfold MAX_EFLAG_COMPARE_COUNT in BIG.
      cbn [fst snd]. split; [exact K|]. split; [discriminate|].
      intros ws F _ L. exfalso. destruct ws; [inversion F|]. cbn in L. lia.
    + apply N.ltb_ge in BIG. rewrite C2 in BIG. unfold MAX_EFLAG_COMPARE_COUNT in BIG.
      rewrite C2, NC2. destruct (N.eqb (N.of_nat (S (List.length vs))) 1) eqn:ONE.
      { apply N.eqb_eq in ONE. lia. }
      destruct (get_eflag_from_str p) as [v|] eqn:G.
      * destruct (N.eqb (N.of_nat (List.length v)) (N.of_nat n)) eqn:LN.
        -- apply N.eqb_eq in LN. assert (LN' : List.length v = n) by lia.
           assert (ES : eflag_stored p = v) by now apply eflag_stored_ok.
           destruct (holds_add m n vs v H ltac:(lia) N31 LN') as (H2 & _ & _).
           assert (H3 : holds m2 n (vs ++ [v])).
           { unfold m2, m1. rewrite ES. exact H2. }
           destruct (IH m2 n (vs ++ [v]) H3) as (I1 & I2 & I3);
             [rewrite app_length; cbn; lia|assumption|rewrite app_length; cbn in NW |- *; lia|].
           split; [exact (kept_trans _ _ _ K I1)|]. split.
           ++ intros OK. destruct (I2 OK) as (ws & F & HH & LL). exists (v :: ws).
              split; [constructor; auto; now apply eflag_ok|].
              rewrite <- app_assoc in HH. split; [exact HH|].
              rewrite app_length in LL. cbn in LL |- *. lia.
           ++ intros ws F A L. destruct ws as [|w ws]; [inversion F|].
              inversion F; subst. inversion A; subst. apply (I3 ws); auto.
              rewrite app_length. cbn in L |- *. lia.
        -- cbn [fst snd]. split; [exact K|]. split; [discriminate|].
           intros ws F A L. exfalso. destruct ws as [|w ws]; [inversion F|].
           inversion F; subst. inversion A; subst. apply eflag_ok in H3.
           rewrite G in H3. injection H3 as ->. rewrite N.eqb_refl in LN. discriminate.
      * cbn [fst snd]. split; [exact K|]. split; [discriminate|].
        intros ws F A L. exfalso. destruct ws as [|w ws]; [inversion F|].
        inversion F; subst. apply eflag_ok in H3. congruence.
Qed.

(* the whole loop: one value at least, [nb] is the length of the bitwise operand or 0 *)
Definition first_ok (offset nb : N) (n : nat) : Prop :=
  (offset + N.of_nat n <= 31)%N /\ (nb = 0%N \/ nb = N.of_nat n).
Definition kept2 (m m' : mem) : Prop :=
  forall i, (i < A_COMP \/ A_NBITW <= i /\ i <> A_CNT /\ i <> A_NCOMP)%N -> m' i = m i.
Lemma loop_all offset m (p : bytes) (ps : list bytes) : m A_CNT = 0%N ->
  (List.length ps < 100 \/ List.length p <> 64) ->
  let r := efilter_loop offset m (p :: ps) in
  kept2 m (fst r) /\
  (snd r = true -> exists n vs, Forall2 hex_arg (p :: ps) vs /\ holds (fst r) n vs /\
     List.length vs <= 100 /\ first_ok offset (m A_NBITW) n) /\
  (forall n vs, Forall2 hex_arg (p :: ps) vs -> Forall (fun b => List.length b = n) vs ->
     List.length vs <= 100 -> first_ok offset (m A_NBITW) n -> snd r = true).
Proof.
  intros C0 NW. cbv zeta. cbn [efilter_loop]. rewrite C0. rewrite N.mul_0_l, N.add_0_r.
  set (m1 := store m A_COMP (eflag_stored p)).
  pose proof (eflag_stored_len p) as EL.
  assert (OUT : forall i, (i < A_COMP \/ A_NBITW <= i)%N -> m1 i = m i).
  { intros i I. apply store_out. unfold A_COMP, A_NBITW in *. lia. }
  assert (C1 : m1 A_CNT = 0%N).
  { rewrite OUT; [exact C0|]. right. unfold A_NBITW, A_CNT. lia. }
  rewrite C1. cbn [N.add]. set (m2 := put m1 A_CNT 1).
  assert (C2 : m2 A_CNT = 1%N) by (unfold m2; now rewrite put_same).
  assert (NB2 : m2 A_NBITW = m A_NBITW).
  { unfold m2. rewrite put_other by discriminate. apply OUT. right. lia. }
  assert (K2 : kept2 m m2).
  { intros i I. unfold m2. rewrite put_other by (unfold A_COMP, A_NBITW, A_CNT in *; lia).
    apply OUT. lia. }
  rewrite C2, NB2. cbn [N.ltb N.compare MAX_EFLAG_COMPARE_COUNT Pos.compare Pos.compare_cont N.eqb Pos.eqb].
  destruct (get_eflag_from_str p) as [v|] eqn:G.
  2:{ cbn [fst snd]. split; [exact K2|]. split; [discriminate|].
      intros n vs F _ _ _. exfalso. inversion F; subst. apply eflag_ok in H1. congruence. }
  assert (HA : hex_arg p v) by now apply eflag_ok.
  pose proof (hex_len _ _ HA) as LV. unfold MAX_EFLAG_LENG.
  destruct (N.ltb 31 (offset + N.of_nat (List.length v))) eqn:TL.
  { apply N.ltb_lt in TL. cbn [fst snd]. split; [exact K2|]. split; [discriminate|].
    intros n vs F A _ [O _]. exfalso. inversion F; subst. inversion A; subst.
    rewrite (hex_fun _ _ _ H1 HA) in O. lia. }
  apply N.ltb_ge in TL.
  destruct (N.ltb 0 (m A_NBITW) && negb (N.eqb (N.of_nat (List.length v)) (m A_NBITW)))%bool eqn:NBT.
  { apply andb_prop in NBT as [X Y]. apply N.ltb_lt in X. apply Bool.negb_true_iff, N.eqb_neq in Y.
    cbn [fst snd]. split; [exact K2|]. split; [discriminate|].
    intros n vs F A _ [_ O]. exfalso. inversion F; subst. inversion A; subst.
    rewrite (hex_fun _ _ _ H1 HA) in O. lia. }
  assert (NBOK : m A_NBITW = 0%N \/ m A_NBITW = N.of_nat (List.length v)).
  { apply Bool.andb_false_iff in NBT as [X|X].
    - apply N.ltb_ge in X. left. lia.
    - apply Bool.negb_false_iff, N.eqb_eq in X. auto. }
  set (m3 := put m2 A_NCOMP (N.of_nat (List.length v))).
  assert (H3 : holds m3 (List.length v) [v]).
  { constructor.
    - unfold m3. rewrite put_other by discriminate. exact C2.
    - unfold m3. rewrite put_same; lia.
    - auto.
    - intros k K. cbn in K. replace k with 0 by lia. cbn [nth N.of_nat]. rewrite N.mul_0_l, N.add_0_r.
      rewrite (load_ext m1).
      + unfold m1. rewrite (eflag_stored_ok _ _ G). apply load_store.
      + intros i I. unfold m3, m2. unfold A_COMP in I.
        rewrite !put_other; auto; unfold A_CNT, A_NCOMP; lia. }
  destruct (loop_rest offset ps m3 (List.length v) [v] H3) as (I1 & I2 & I3);
    [cbn; lia|assumption| |].
  { cbn. destruct NW as [NW|NW]; [left; exact NW|]. right.
    pose proof (hex_chars _ _ HA). lia. }
  split; [|split].
  - intros i I. rewrite (I1 i) by (unfold A_NBITW, A_COMP, A_CNT, A_NCOMP in *; lia).
    unfold m3. rewrite put_other by (unfold A_NBITW, A_COMP, A_NCOMP in *; lia). now apply K2.
  - intros OK. destruct (I2 OK) as (ws & F & HH & LL).
    exists (List.length v), (v :: ws). split; [constructor; auto|]. split; [exact HH|].
    split; [cbn in LL |- *; lia|]. split; assumption.
  - intros n vs F A L O. inversion F; subst. inversion A; subst.
    assert (y = v) by (eapply hex_fun; eauto). subst y.
    apply (I3 l'); auto.
Qed.

(* ---- the values argument ---- *)
Lemma commas_0x (t : bytes) (ps : list bytes) : commas (48%N :: 120%N :: t) ps ->
  exists (p : bytes) (qs : list bytes), ps = p :: qs.
Proof.
  intros H. inversion H; subst; eauto.
Qed.

(* the part behind the bitwise operation *)
Lemma Forall2_len {A B} (R : A -> B -> Prop) l k : Forall2 R l k -> List.length l = List.length k.
Proof. induction 1; cbn; congruence. Qed.

Definition narrow1 (v : bytes) : Prop :=
  forall p ps, commas v (p :: ps) -> 100 <= List.length ps -> List.length p <> 64.

Lemma holds_vals m n vs : holds m n vs ->
  map (fun k => load m (A_COMP + N.of_nat k * m A_NCOMP) (m A_NCOMP)) (seq 0 (N.to_nat (m A_CNT))) = vs.
Proof.
  intros [C NC L V]. rewrite C, NC, Nat2N.id.
  rewrite <- (map_id vs) at 2.
  assert (G : forall l (f : nat -> bytes), (forall k, k < List.length l -> f k = nth k l []) ->
    map f (seq 0 (List.length l)) = l).
  { induction l as [|b l IH]; intros f H; [reflexivity|]. cbn [List.length seq map]. f_equal.
    - apply (H 0). cbn. lia.
    - rewrite <- seq_shift, map_map. apply IH. intros k K. apply (H (S k)). cbn. lia. }
  rewrite map_id. apply G. exact V.
Qed.

Definition kept3 (m m' : mem) : Prop :=
  forall i, (i < A_COMP \/ A_NBITW <= i /\ i <> A_CNT /\ i <> A_NCOMP /\ i <> A_COMPOP)%N -> m' i = m i.

Lemma comp_ok offset m toks tc c v : nth_error toks tc = Some c -> nth_error toks (tc + 1) = Some v ->
  is0x v = true -> narrow1 v ->
  let r := efilter_comp offset m toks tc in
  kept3 m (fst r) /\ snd r <> No Fault /\
  (forall u, snd r = Got u -> u = tc + 2 /\ exists n op vs, cmp_arg c op /\ vals_arg n op v vs /\
     first_ok offset (m A_NBITW) n /\ 1 <= n /\ fst r A_COMPOP = op /\ holds (fst r) n vs) /\
  (forall n op vs, cmp_arg c op -> vals_arg n op v vs -> first_ok offset (m A_NBITW) n ->
     snd r = Got (tc + 2)).
Proof.
  intros T1 T2 V0 NW. unfold efilter_comp, tk. rewrite T1.
  destruct (N.eqb (get_compare_op_from_str c) 6) eqn:OP.
  { apply N.eqb_eq in OP. cbv zeta. cbn [fst snd]. split; [|split; [discriminate|split; [discriminate|]]].
    - intros i I. apply put_other. addr.
    - intros n op vs CA _ _. exfalso. apply cmp_ok in CA. intuition congruence. }
  apply N.eqb_neq in OP.
  assert (CA : cmp_arg c (get_compare_op_from_str c)) by (apply cmp_ok; auto).
  pose proof (cmp_code c OP) as LT6.
  rewrite T2. set (op := get_compare_op_from_str c) in *. set (m0 := put m A_COMPOP op).
  assert (OP0 : m0 A_COMPOP = op) by (unfold m0; rewrite put_same; lia).
  assert (NB0 : m0 A_NBITW = m A_NBITW) by (unfold m0; now rewrite put_other).
  apply is0x_iff in V0 as [t V0].
  assert (FUN : forall op', cmp_arg c op' -> op' = op).
  { intros op' X. apply cmp_ok in X as [X _]. unfold op. congruence. }
  destruct (N.eqb op 0 || N.eqb op 1)%bool eqn:EQ.
  - assert (EQ' : op = 0%N \/ op = 1%N).
    { apply Bool.orb_true_iff in EQ as [E|E]; apply N.eqb_eq in E; auto. }
    pose proof (pieces_commas v) as PC. rewrite V0 in PC.
    destruct (commas_0x t _ PC) as (p & ps & PP). rewrite <- V0 in PC, PP. rewrite PP in *.
    set (mm := put m0 A_CNT 0).
    assert (CC : mm A_CNT = 0%N) by (unfold mm; now rewrite put_same).
    assert (NBM : mm A_NBITW = m A_NBITW) by (unfold mm; rewrite put_other by discriminate; exact NB0).
    assert (NWP : List.length ps < 100 \/ List.length p <> 64).
    { destruct (le_lt_dec 100 (List.length ps)) as [X|X]; [right; exact (NW p ps PC X)|auto]. }
    destruct (loop_all offset mm p ps CC NWP) as (K & S1 & S2).
    cbv zeta in K, S1, S2.
    destruct (efilter_loop offset mm (p :: ps)) as [m' ok] eqn:ELP. rewrite ?ELP in K, S1, S2. cbn [fst snd] in *.
    rewrite NBM in *.
    split; [|split; [destruct ok; discriminate|split]].
    + intros i I. rewrite (K i) by addr. unfold mm, m0. rewrite !put_other; auto; addr.
    + intros u E. destruct ok; [|discriminate]. injection E as <-. split; [reflexivity|].
      destruct (S1 eq_refl) as (n & vs & F & HH & LL & FO).
      exists n, op, vs. split; [exact CA|]. split; [|split; [exact FO|split; [|split; [|exact HH]]]].
      * apply va_list with (t := t) (ps := p :: ps); auto. exact (h_len _ _ _ HH).
      * inversion F; subst. pose proof (hex_pos _ _ H1). pose proof (h_len _ _ _ HH) as FL.
        inversion FL; subst. assumption.
      * rewrite (K A_COMPOP) by (right; repeat split; discriminate).
        unfold mm. now rewrite put_other.
    + intros n op' vs CA' VA FO. rewrite (S2 n vs); [reflexivity| | | |exact FO].
      * apply FUN in CA'. subst op'. inversion VA; subst; [|tauto].
        assert (ps0 = p :: ps). { apply commas_pieces in H1. congruence. } subst. assumption.
      * destruct VA; auto.
      * destruct VA; auto. cbn. lia.
  - apply Bool.orb_false_iff in EQ as [E0 E1]. apply N.eqb_neq in E0, E1.
    set (mm := store m0 A_COMP (eflag_stored v)).
    pose proof (eflag_stored_len v) as EL.
    assert (OUT : forall i, (i < A_COMP \/ A_NBITW <= i)%N -> mm i = m0 i).
    { intros i I. apply store_out. unfold A_COMP, A_NBITW in *. lia. }
    assert (NBM : mm A_NBITW = m A_NBITW).
    { rewrite OUT; [exact NB0|]. right. lia. }
    assert (K0 : kept3 m mm).
    { intros i I. rewrite OUT by addr. unfold m0. apply put_other. addr. }
    assert (REJ : forall X : Prop, (forall b, hex_arg v b -> first_ok offset (m A_NBITW) (List.length b) -> False) ->
      forall n op0 vs, cmp_arg c op0 -> vals_arg n op0 v vs -> first_ok offset (m A_NBITW) n -> X).
    { intros X R n op0 vs CA' VA FO. exfalso. apply FUN in CA'. subst op0.
      inversion VA; subst; [tauto|]. exact (R _ H1 FO). }
    destruct (get_eflag_from_str v) as [b|] eqn:G.
    2:{ cbn [fst snd]. split; [exact K0|]. split; [discriminate|]. split; [discriminate|].
        apply REJ. intros b HB _. apply eflag_ok in HB. congruence. }
    assert (HB : hex_arg v b) by now apply eflag_ok.
    pose proof (hex_len _ _ HB) as LB. unfold MAX_EFLAG_LENG. rewrite NBM.
    destruct (N.ltb 31 (offset + N.of_nat (List.length b))) eqn:TL.
    { apply N.ltb_lt in TL. cbn [fst snd]. split; [exact K0|]. split; [discriminate|]. split; [discriminate|].
      apply REJ. intros b' HB' [O _]. rewrite (hex_fun _ _ _ HB' HB) in O. lia. }
    apply N.ltb_ge in TL.
    destruct (N.ltb 0 (m A_NBITW) && negb (N.eqb (N.of_nat (List.length b)) (m A_NBITW)))%bool eqn:NBT.
    { apply andb_prop in NBT as [X Y]. apply N.ltb_lt in X. apply Bool.negb_true_iff, N.eqb_neq in Y.
      cbn [fst snd]. split; [exact K0|]. split; [discriminate|]. split; [discriminate|].
      apply REJ. intros b' HB' [_ O]. rewrite (hex_fun _ _ _ HB' HB) in O. lia. }
    assert (NBOK : m A_NBITW = 0%N \/ m A_NBITW = N.of_nat (List.length b)).
    { apply Bool.andb_false_iff in NBT as [X|X].
      - apply N.ltb_ge in X. left. lia.
      - apply Bool.negb_false_iff, N.eqb_eq in X. auto. }
    cbn [fst snd]. split; [|split; [discriminate|split; [|auto]]].
    + intros i I. rewrite !put_other by addr. now apply K0.
    + intros u E. injection E as <-. split; [reflexivity|]. exists (List.length b), op, [b].
      split; [exact CA|]. split; [apply va_one; auto|]. split; [split; assumption|].
      split; [exact (hex_pos _ _ HB)|]. split.
      * rewrite !put_other by discriminate. rewrite OUT; [exact OP0|]. right. discriminate.
      * constructor.
        -- now rewrite put_same.
        -- rewrite put_other by discriminate. rewrite put_same; lia.
        -- auto.
        -- intros k K. cbn in K. replace k with 0 by lia. cbn [nth N.of_nat]. rewrite N.mul_0_l, N.add_0_r.
           rewrite (load_ext mm).
           ++ unfold mm. rewrite (eflag_stored_ok _ _ G). apply load_store.
           ++ intros i I. unfold A_COMP in I. rewrite !put_other; auto; unfold A_CNT, A_NCOMP; lia.
Qed.

(* ---- the filter ---- *)
Lemma narrow_in toks v : narrow toks -> In v toks -> narrow1 v.
Proof. intros H I p ps C L. exact (H v p ps I C L). Qed.

Definition behind (m m' : mem) : Prop := forall i, (A_END <= i)%N -> m' i = m i.
Lemma kept3_behind m m' : kept3 m m' -> behind m m'.
Proof.
  intros K i I. apply K. right. unfold A_END, A_NBITW, A_CNT, A_NCOMP, A_COMPOP in *. lia.
Qed.

(* a filter begins here *)
Definition at_filter (toks : list bytes) : bool :=
  (Nat.leb 3 (List.length toks) && match nth_error toks 2 with Some t => is0x t | None => false end)%bool.
(* it has a bitwise operation *)
Definition at_bitw (toks : list bytes) : bool :=
  (Nat.leb 5 (List.length toks) && match nth_error toks 4 with Some t => is0x t | None => false end)%bool.

(* the token with the values *)
Definition narrow_f (toks : list bytes) : Prop :=
  forall v, nth_error toks (if at_bitw toks then 4 else 2) = Some v -> narrow1 v.
Lemma narrow_narrow_f toks : narrow toks -> narrow_f toks.
Proof. intros H v E. apply nth_error_In in E. exact (narrow_in _ _ H E). Qed.

Lemma filter_sound m toks m' r : narrow_f toks -> get_efilter_from_tokens m toks = (m', r) ->
  behind m m' /\ r <> No Fault /\
  (forall u, r = Got u ->
     (u = 0 /\ at_filter toks = false /\ m' A_NCOMP = 0%N) \/
     (at_filter toks = true /\ u = (if at_bitw toks then 5 else 3) /\
      exists f, filter_toks (firstn u toks) f /\ read_filter m' = f /\ m' A_NCOMP <> 0%N)) /\
  (forall ft l f, toks = ft ++ l -> filter_toks ft f ->
     (List.length ft = 3 -> forall x, nth_error l 1 = Some x -> is0x x = false) ->
     r = Got (List.length ft)).
Proof.
  intros NW. unfold get_efilter_from_tokens. fold (at_filter toks). fold (at_bitw toks).
  destruct (at_filter toks) eqn:AF.
  2:{ intros E. injection E as <- <-. split; [|split; [discriminate|split]].
      - intros i I. apply put_other. unfold A_END, A_NCOMP in *. lia.
      - intros u E. injection E as <-. left. now rewrite put_same.
      - intros ft l f -> FT _. exfalso. unfold at_filter in AF.
        destruct FT as [o off c op v vs n H1 H2 H3 H4 H5|o off b bop w wb c op v vs H1 H2 H3 H4 H5 H6 H7]; cbn in AF.
        + destruct H4 as [op t v vs ps X|op v b X1 X2 X]; [subst v; cbn in AF; discriminate|].
          rewrite (hex_is0x _ _ X) in AF. discriminate.
        + rewrite (hex_is0x _ _ H4) in AF. discriminate. }
  destruct toks as [|o [|x1 [|x2 rest]]]; try discriminate AF.
  assert (X2 : is0x x2 = true) by exact AF. cbn [tk nth_error].
  destruct (safe_strtoul o) as [off|] eqn:SO.
  2:{ intros E. injection E as <- <-. split; [intros i _; reflexivity|]. split; [discriminate|].
      split; [discriminate|]. intros ft l f EQ FT _. exfalso.
      destruct FT as [o' off c op v vs n H1 H2 H3 H4 H5|o' off b bop w wb c op v vs H1 H2 H3 H4 H5 H6 H7];
        injection EQ as -> _; apply u32_ok in H1; congruence. }
  assert (NO : num_u32 o off) by now apply u32_ok.
  unfold MAX_EFLAG_LENG. destruct (N.leb 31 off) eqn:BO.
  { apply N.leb_le in BO. intros E. injection E as <- <-. split; [intros i _; reflexivity|].
    split; [discriminate|]. split; [discriminate|]. intros ft l f EQ FT _. exfalso.
    destruct FT as [o' off' c op v vs n H1 H2 H3 H4 H5|o' off' b bop w wb c op v vs H1 H2 H3 H4 H5 H6 H7];
      injection EQ as -> _; apply u32_ok in H1; assert (off' = off) by congruence; lia. }
  apply N.leb_gt in BO.
  set (m1 := put m A_OFF off).
  assert (B1 : behind m m1).
  { intros i I. apply put_other. unfold A_END, A_OFF in *. lia. }
  destruct (at_bitw (o :: x1 :: x2 :: rest)) eqn:AB.
  - destruct rest as [|x3 [|x4 rest]]; try discriminate AB.
    assert (X4 : is0x x4 = true) by exact AB. cbn [nth_error tk].
    (* what a matching filter looks like *)
    assert (SHAPE : forall ft l f, o :: x1 :: x2 :: x3 :: x4 :: rest = ft ++ l -> filter_toks ft f ->
      (List.length ft = 3 -> forall x, nth_error l 1 = Some x -> is0x x = false) ->
      List.length ft = 5 /\ exists bop wb op vs, bitw_arg x1 bop /\ hex_arg x2 wb /\ cmp_arg x3 op /\
        vals_arg (List.length wb) op x4 vs /\ N.to_nat off + List.length wb <= 31).
    { intros ft l f EQ FT NX.
      destruct FT as [o' off' c op v vs n H1 H2 H3 H4 H5|o' off' b bop w wb c op v vs H1 H2 H3 H4 H5 H6 H7].
      - exfalso. cbn in EQ. injection EQ as -> -> -> EQ. subst l.
        specialize (NX eq_refl x4 eq_refl). congruence.
      - cbn in EQ. injection EQ as -> -> -> -> -> _. split; [reflexivity|].
        apply u32_ok in H1. assert (off' = off) by congruence. subst off'.
        exists bop, wb, op, vs. auto. }
    destruct (N.eqb (get_bitwise_op_from_str x1) 3) eqn:OP.
    { apply N.eqb_eq in OP. intros E. injection E as <- <-. split; [|split; [discriminate|split; [discriminate|]]].
      - intros i I. rewrite put_other by (unfold A_END, A_BITWOP in *; lia). now apply B1.
      - intros ft l f EQ FT NX. exfalso. destruct (SHAPE _ _ _ EQ FT NX) as (_ & bop & wb & op & vs & BA & _).
        apply bitw_ok in BA. intuition congruence. }
    apply N.eqb_neq in OP. assert (BA : bitw_arg x1 (get_bitwise_op_from_str x1)) by (apply bitw_ok; auto).
    assert (LT3 : (get_bitwise_op_from_str x1 < 3)%N) by (destruct BA; cbn; lia).
    set (bop := get_bitwise_op_from_str x1) in *.
    set (m2 := put m1 A_BITWOP bop). set (m3 := store m2 A_BITW (eflag_stored x2)).
    pose proof (eflag_stored_len x2) as EL.
    assert (B3 : forall i, (A_COMP <= i)%N -> m3 i = m2 i).
    { intros i I. apply store_out. right. unfold A_COMP, A_BITW in *. lia. }
    destruct (get_eflag_from_str x2) as [wb|] eqn:G.
    2:{ intros E. injection E as <- <-. split; [|split; [discriminate|split; [discriminate|]]].
        - intros i I. rewrite B3 by (unfold A_END, A_COMP in *; lia).
          unfold m2. rewrite put_other by (unfold A_END, A_BITWOP in *; lia). now apply B1.
        - intros ft l f EQ FT NX. exfalso.
          destruct (SHAPE _ _ _ EQ FT NX) as (_ & bop' & wb & op & vs & _ & HW & _).
          apply eflag_ok in HW. congruence. }
    assert (HW : hex_arg x2 wb) by now apply eflag_ok.
    pose proof (hex_len _ _ HW) as LW. pose proof (hex_pos _ _ HW) as PW.
    set (m4 := put m3 A_NBITW (N.of_nat (List.length wb))).
    assert (NB4 : m4 A_NBITW = N.of_nat (List.length wb)) by (unfold m4; rewrite put_same; lia).
    assert (B4 : behind m m4).
    { intros i I. unfold m4. rewrite put_other by (unfold A_END, A_NBITW in *; lia).
      rewrite B3 by (unfold A_END, A_COMP in *; lia).
      unfold m2. rewrite put_other by (unfold A_END, A_BITWOP in *; lia). now apply B1. }
    destruct (comp_ok off m4 (o :: x1 :: x2 :: x3 :: x4 :: rest) 3 x3 x4 eq_refl eq_refl X4)
      as (K & NF & S1 & S2); [apply NW; rewrite AB; reflexivity|].
    intros E. rewrite E in *. cbn [fst snd] in *. rewrite NB4 in *.
    split; [|split; [exact NF|split]].
    + intros i I. rewrite (kept3_behind _ _ K i I). now apply B4.
    + intros u EU. right. split; [reflexivity|]. destruct (S1 u EU) as (-> & n & op & vs & CA & VA & FO & N1 & OPM & HH).
      split; [reflexivity|]. destruct FO as [FO1 [FO2|FO2]]; [lia|].
      assert (n = List.length wb) by lia. subst n.
      exists {| f_off := off; f_bitw := Some (bop, wb); f_cmp := op; f_vals := vs |}.
      split; [|split].
      * cbn [firstn Nat.add]. apply ft_bitw; auto. lia.
      * assert (KK : forall i, (i < A_COMP \/ i = A_OFF \/ i = A_BITWOP \/ i = A_NBITW)%N -> m' i = m4 i).
        { intros i I. apply K. unfold A_COMP, A_OFF, A_BITWOP, A_NBITW, A_CNT, A_NCOMP, A_COMPOP in *. lia. }
        unfold read_filter. rewrite (holds_vals _ _ _ HH), OPM.
        rewrite (KK A_NBITW), (KK A_OFF), (KK A_BITWOP), NB4 by auto.
        rewrite (proj2 (N.ltb_lt _ _)) by lia.
        f_equal.
        -- unfold m4. rewrite put_other by discriminate. rewrite B3 by discriminate.
           unfold m2. rewrite put_other by discriminate. unfold m1. rewrite put_same; lia.
        -- f_equal. f_equal.
           ++ unfold m4. rewrite put_other by discriminate. rewrite B3 by discriminate.
              unfold m2. rewrite put_same; lia.
           ++ rewrite (load_ext m3).
              ** unfold m3. rewrite (eflag_stored_ok _ _ G). apply load_store.
              ** intros i I. rewrite KK by (unfold A_BITW, A_COMP in *; lia).
                 unfold m4. apply put_other. unfold A_BITW, A_NBITW in *. lia.
      * rewrite (h_ncomp _ _ _ HH). lia.
    + intros ft l f EQ FT NX. destruct (SHAPE _ _ _ EQ FT NX) as (-> & bop' & wb' & op & vs & BA' & HW' & CA & VA & LE).
      assert (wb' = wb) by (eapply hex_fun; eauto). subst wb'.
      apply (S2 (List.length wb) op vs CA VA). split; [lia|auto].
  - set (m4 := put m1 A_NBITW 0).
    assert (NB4 : m4 A_NBITW = 0%N) by (unfold m4; now rewrite put_same).
    assert (B4 : behind m m4).
    { intros i I. unfold m4. rewrite put_other by (unfold A_END, A_NBITW in *; lia). now apply B1. }
    destruct (comp_ok off m4 (o :: x1 :: x2 :: rest) 1 x1 x2 eq_refl eq_refl X2)
      as (K & NF & S1 & S2); [apply NW; rewrite AB; reflexivity|].
    intros E. rewrite E in *. cbn [fst snd] in *. rewrite NB4 in *.
    split; [|split; [exact NF|split]].
    + intros i I. rewrite (kept3_behind _ _ K i I). now apply B4.
    + intros u EU. right. split; [reflexivity|]. destruct (S1 u EU) as (-> & n & op & vs & CA & VA & FO & N1 & OPM & HH).
      split; [reflexivity|]. destruct FO as [FO1 _].
      exists {| f_off := off; f_bitw := None; f_cmp := op; f_vals := vs |}.
      split; [|split].
      * cbn [firstn Nat.add]. apply ft_plain with (n := n); auto. lia.
      * assert (KK : forall i, (i = A_OFF \/ i = A_NBITW)%N -> m' i = m4 i).
        { intros i I. apply K. unfold A_COMP, A_OFF, A_BITWOP, A_NBITW, A_CNT, A_NCOMP, A_COMPOP in *. lia. }
        unfold read_filter. rewrite (holds_vals _ _ _ HH), OPM.
        rewrite (KK A_NBITW), (KK A_OFF), NB4 by auto. cbn [N.ltb N.compare].
        f_equal. unfold m4. rewrite put_other by discriminate. unfold m1. rewrite put_same; lia.
      * rewrite (h_ncomp _ _ _ HH). lia.
    + intros ft l f EQ FT NX.
      destruct FT as [o' off' c op v vs n H1 H2 H3 H4 H5|o' off' b bop w wb c op v vs H1 H2 H3 H4 H5 H6 H7].
      * cbn in EQ. injection EQ as -> -> -> _. apply u32_ok in H1. assert (off' = off) by congruence. subst off'.
        apply (S2 n op vs H3 H4). split; [lia|auto].
      * exfalso. cbn in EQ. injection EQ as -> -> -> ->. unfold at_bitw in AB. cbn in AB.
        destruct H6 as [op t v vs ps X|op v b' Y1 Y2 X]; [subst v; cbn in AB; discriminate|].
        rewrite (hex_is0x _ _ X) in AB. discriminate.
Qed.

(* without the hypothesis: a missing token is never read *)
Lemma comp_nofault offset m toks tc : tc + 1 < List.length toks -> snd (efilter_comp offset m toks tc) <> No Fault.
Proof.
  intros L. unfold efilter_comp, tk.
  destruct (nth_error toks tc) eqn:E1; [|apply nth_error_None in E1; lia].
  destruct (N.eqb _ 6); [discriminate|].
  destruct (nth_error toks (tc + 1)) eqn:E2; [|apply nth_error_None in E2; lia].
  destruct (N.eqb _ 0 || N.eqb _ 1)%bool.
  - destruct (efilter_loop _ _ _) as [m' ok]. destruct ok; discriminate.
  - destruct (get_eflag_from_str _); [|discriminate].
    destruct (N.ltb _ _); [discriminate|]. destruct (_ && _)%bool; discriminate.
Qed.
Lemma filter_nofault m toks : snd (get_efilter_from_tokens m toks) <> No Fault.
Proof.
  unfold get_efilter_from_tokens. fold (at_filter toks). fold (at_bitw toks).
  destruct (at_filter toks) eqn:AF; [|discriminate].
  destruct toks as [|o [|x1 [|x2 rest]]]; try discriminate AF. cbn [tk nth_error].
  destruct (safe_strtoul o); [|discriminate]. destruct (N.leb _ _); [discriminate|].
  destruct (at_bitw _) eqn:AB.
  - destruct rest as [|x3 [|x4 rest]]; try discriminate AB. cbn [tk nth_error].
    destruct (N.eqb _ 3); [discriminate|]. destruct (get_eflag_from_str x2); [|discriminate].
    apply comp_nofault. cbn. lia.
  - apply comp_nofault. cbn. lia.
Qed.

Lemma hex_piece w b p ps : hex_arg w b -> commas w (p :: ps) -> ps = [].
Proof.
  intros H C. apply commas_pieces in C. unfold pieces in C.
  assert (NC : ~ In 44%N w).
  { destruct H as (t & -> & _ & T & _). cbn. intros [X|[X|X]]; try discriminate X.
    revert X. clear C. induction T as [|c1 c2 h l s b C1 C2 T IH]; cbn; [tauto|].
    intros [X|[X|X]]; [subst c1|subst c2|exact (IH X)].
    - inversion C1; lia.
    - inversion C2; lia. }
  rewrite pieces_from_word in C by exact NC. cbn in C. destruct w; [discriminate|]. now injection C.
Qed.
Lemma vals_narrow n op v vs : vals_arg n op v vs -> narrow1 v.
Proof.
  intros H p ps C L. exfalso. destruct H as [op t v vs qs V O Q F A LE|op v b O1 O2 HB LB].
  - assert (qs = p :: ps) by (apply commas_pieces in C; apply commas_pieces in Q; congruence). subst qs.
    apply Forall2_len in F. cbn in F. lia.
  - rewrite (hex_piece _ _ _ _ HB C) in L. cbn in L. lia.
Qed.

Lemma hexs_fun ps vs vs' : Forall2 hex_arg ps vs -> Forall2 hex_arg ps vs' -> vs = vs'.
Proof.
  intros F. revert vs'. induction F as [|p v ps vs H F IH]; intros vs' G; inversion G; subst; [reflexivity|].
  f_equal; [exact (hex_fun _ _ _ H H2)|auto].
Qed.
Lemma vals_fun n n' op v vs vs' : vals_arg n op v vs -> vals_arg n' op v vs' -> vs = vs'.
Proof.
  intros H K. destruct H as [op t v vs qs V O Q F A LE|op v b O1 O2 HB LB];
    inversion K as [op' t' v' vs'' qs' V' O' Q' F' A' LE'|op' v' b' O1' O2' HB' LB']; subst; try tauto.
  - assert (qs' = qs) by (apply commas_pieces in Q; apply commas_pieces in Q'; congruence). subst.
    exact (hexs_fun _ _ _ F F').
  - f_equal. exact (hex_fun _ _ _ HB HB').
Qed.

Lemma filter_complete m ft l f : filter_toks ft f ->
  (List.length ft = 3 -> forall x, nth_error l 1 = Some x -> is0x x = false) ->
  exists m', get_efilter_from_tokens m (ft ++ l) = (m', Got (List.length ft)) /\
    filter_arg m' = Some f.
Proof.
  intros FT NX.
  assert (AB : at_bitw (ft ++ l) = if Nat.eqb (List.length ft) 5 then true else false).
  { unfold at_bitw. destruct FT as [o off c op v vs n H1 H2 H3 H4 H5|o off b bop w wb c op v vs H1 H2 H3 H4 H5 H6 H7].
    - cbn. destruct l as [|y [|x l]]; try reflexivity. cbn. exact (NX eq_refl x eq_refl).
    - cbn. destruct H6 as [op t v vs ps X|op v b' Y1 Y2 X]; [subst v; reflexivity|]. exact (hex_is0x _ _ X). }
  assert (NW : narrow_f (ft ++ l)).
  { intros v E. rewrite AB in E.
    destruct FT as [o off c op v' vs n H1 H2 H3 H4 H5|o off b bop w wb c op v' vs H1 H2 H3 H4 H5 H6 H7];
      cbn in E; injection E as <-; eauto using vals_narrow. }
  destruct (get_efilter_from_tokens m (ft ++ l)) as [m' r] eqn:G.
  destruct (filter_sound _ _ _ _ NW G) as (_ & _ & S1 & S2).
  assert (R : r = Got (List.length ft)) by (apply (S2 ft l f); auto). subst r.
  exists m'. split; [reflexivity|].
  destruct (S1 _ eq_refl) as [(Z & _)|(_ & _ & f' & FT' & RF & NZ)].
  - destruct FT; discriminate.
  - rewrite firstn_app, Nat.sub_diag, firstn_all in FT'. cbn in FT'. rewrite app_nil_r in FT'.
    unfold filter_arg. rewrite (proj2 (N.eqb_neq _ _) NZ). f_equal. rewrite RF.
    (* the meaning of the tokens is unique *)
    clear - FT FT'.
    destruct FT as [o off c op v vs n H1 H2 H3 H4 H5|o off b bop w wb c op v vs H1 H2 H3 H4 H5 H6 H7];
      inversion FT' as [o' off' c' op' v' vs' n' I1 I2 I3 I4 I5|o' off' b' bop' w' wb' c' op' v' vs' I1 I2 I3 I4 I5 I6 I7];
      subst.
    + apply u32_ok in H1, I1. apply cmp_ok in H3 as [H3 _]. apply cmp_ok in I3 as [I3 _].
      assert (op' = op) by congruence. assert (off' = off) by congruence. subst.
      f_equal. exact (vals_fun _ _ _ _ _ _ I4 H4).
    + apply u32_ok in H1, I1. apply cmp_ok in H5 as [H5 _]. apply cmp_ok in I5 as [I5 _].
      apply bitw_ok in H3 as [H3 _]. apply bitw_ok in I3 as [I3 _].
      assert (op' = op) by congruence. assert (off' = off) by congruence. subst.
      f_equal; [|exact (vals_fun _ _ _ _ _ _ I6 H6)].
      f_equal. f_equal. exact (hex_fun _ _ _ I4 H4).
Qed.
