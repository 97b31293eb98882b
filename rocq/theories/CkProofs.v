(* Proofs about the checkpoint files. *)
From Verif Require Import Base UtilModel UtilSpec UtilProofs CkModel CkSpec.
Open Scope N_scope.

(* ---------- names ---------- *)
Definition acc10 (a d : N) : N := 10 * a + (d - 48).

Lemma fold_lt a b x y : Forall is_digit a -> Forall is_digit b -> length a = length b -> x < y ->
  fold_left acc10 a x < fold_left acc10 b y.
Proof.
  intros A; revert b x y; induction A as [|c a C A IH]; intros [|e b] x y B L H; try discriminate; cbn [fold_left]; [exact H|].
  inversion_clear B. apply IH; [assumption|cbn in L; lia|]. unfold acc10, is_digit in *. lia.
Qed.

Lemma name_le_fold a b x : Forall is_digit a -> Forall is_digit b -> length a = length b ->
  name_le a b = (fold_left acc10 a x <=? fold_left acc10 b x).
Proof.
  intros A; revert b x; induction A as [|c a C A IH]; intros [|e b] x B L; try discriminate; cbn [fold_left name_le].
  - symmetry. apply N.leb_refl.
  - inversion_clear B. assert (L' : length a = length b) by (cbn in L; lia). destruct (N.ltb_spec c e) as [H1|H1].
    + symmetry. apply N.leb_le, N.lt_le_incl, fold_lt; try assumption. unfold acc10, is_digit in *. lia.
    + destruct (N.ltb_spec e c) as [H2|H2].
      * symmetry. apply N.leb_gt, fold_lt; try assumption; [congruence|]. unfold acc10, is_digit in *. lia.
      * assert (c = e) as <- by lia. apply IH; assumption.
Qed.

Lemma dec_len k : forall f n, 10 ^ N.of_nat k <= n < 10 ^ N.of_nat (S k) -> n < 2 ^ N.of_nat f -> f <> O ->
  length (dec_digits f n []) = S k.
Proof.
  induction k as [|k IH]; intros f n [H1 H2] F F0; (destruct f as [|f]; [congruence|]); cbn [dec_digits].
  - change (10 ^ N.of_nat 1) with 10 in H2. rewrite N.div_small by exact H2. reflexivity.
  - assert (G : 10 ^ N.of_nat k <= n / 10 < 10 ^ N.of_nat (S k)).
    { rewrite Nat2N.inj_succ, N.pow_succ_r' in H1. rewrite (Nat2N.inj_succ (S k)), N.pow_succ_r' in H2. split.
      - apply N.div_le_lower_bound; lia.
      - apply N.div_lt_upper_bound; lia. }
    assert (P : 0 < 10 ^ N.of_nat k) by (apply N.neq_0_lt_0, N.pow_nonzero; lia).
    destruct (N.eqb_spec (n / 10) 0) as [E|E]; [lia|].
    rewrite dec_digits_app, app_length, IH; [cbn; lia|exact G| |].
    + rewrite Nat2N.inj_succ, N.pow_succ_r' in F. apply N.div_lt_upper_bound; lia.
    + intros ->. change (2 ^ N.of_nat 1) with 2 in F. apply E, N.div_small. lia.
Qed.

Lemma date_len t : a_date t -> length (dec_text t) = 14%nat.
Proof.
  intros [A B]. unfold dec_text. apply dec_len; [split; assumption| |congruence].
  rewrite Nat2N.inj_succ, N2Nat.id, N.pow_succ_r'. pose proof (N.size_gt t). lia.
Qed.

Lemma dec_fold t : Forall is_digit (dec_text t) /\ t = fold_left acc10 (dec_text t) 0.
Proof. exact (proj1 (decimal_value_fold _ _) (dec_text_value t)). Qed.

Lemma date_le a b : a_date a -> a_date b -> name_le (snap_name a) (snap_name b) = (a <=? b).
Proof.
  intros A B. unfold snap_name. change (name_le (dec_text a) (dec_text b) = (a <=? b)).
  destruct (dec_fold a) as [A1 A2], (dec_fold b) as [B1 B2].
  rewrite (name_le_fold _ _ 0) by (try assumption; rewrite !date_len; auto). rewrite <- A2, <- B2. reflexivity.
Qed.

Lemma dec_inj a b : dec_text a = dec_text b -> a = b.
Proof. intro E. rewrite (proj2 (dec_fold a)), (proj2 (dec_fold b)), E. reflexivity. Qed.
Lemma snap_inj a b : snap_name a = snap_name b -> a = b.
Proof. intro E. apply app_inv_head in E. apply dec_inj, E. Qed.
Lemma log_inj a b : log_name a = log_name b -> a = b.
Proof. intro E. apply app_inv_head in E. apply dec_inj, E. Qed.

Lemma starts_app p s : starts p (p ++ s) = true.
Proof. induction p as [|c p IH]; [reflexivity|]. cbn. rewrite N.eqb_refl. exact IH. Qed.
Lemma snap_starts t : starts SNAP (snap_name t) = true.
Proof. apply starts_app. Qed.

Lemma strtol_dec t : (Z.of_N t < 2 ^ 63)%Z -> strtol64 (dec_text t) = Z.of_N t.
Proof.
  intro H. unfold strtol64.
  pose proof (plain_reads (dec_text t) t [] (dec_text_plain t) (or_introl eq_refl)) as R. rewrite app_nil_r in R.
  apply strto_spec in R. rewrite R. lia.
Qed.

Lemma atoll_snap t : a_date t -> atoll (after_underscore (snap_name t)) = Z.of_N t.
Proof. intros [_ H]. change (atoll (dec_text t) = Z.of_N t). apply strtol_dec. change (10 ^ 14) with 100000000000000 in H. lia. Qed.

(* ---------- the sorted list of snapshots ---------- *)
Lemma insert_in x l y : In y (insert x l) <-> y = x \/ In y l.
Proof.
  induction l as [|z l IH]; cbn; [intuition|]. destruct (name_le _ _); cbn; [intuition|]. rewrite IH. intuition.
Qed.
Lemma sort_in l y : In y (alphasort l) <-> In y l.
Proof. induction l as [|z l IH]; cbn; [tauto|]. rewrite insert_in, IH. intuition. Qed.

Lemma name_le_total a b : name_le a b = false -> name_le b a = true.
Proof.
  revert b; induction a as [|x a IH]; intros [|y b]; cbn; try discriminate; auto.
  destruct (N.ltb_spec x y); [discriminate|]. destruct (N.ltb_spec y x); [reflexivity|].
  intro H1. auto.
Qed.
Lemma name_le_trans a b c : name_le a b = true -> name_le b c = true -> name_le a c = true.
Proof.
  revert b c; induction a as [|x a IH]; intros [|y b] [|z c]; cbn; try discriminate; auto.
  destruct (N.ltb_spec x y), (N.ltb_spec y z), (N.ltb_spec x z); auto; try lia;
    destruct (N.ltb_spec y x), (N.ltb_spec z y), (N.ltb_spec z x); try discriminate; try lia; eauto.
Qed.

Fixpoint sorted (l : list (bytes * bool)) : Prop :=
  match l with
  | [] => True
  | x :: l' => (forall y, In y l' -> name_le (fst x) (fst y) = true) /\ sorted l'
  end.
Lemma insert_sorted x l : sorted l -> sorted (insert x l).
Proof.
  induction l as [|z l IH]; cbn [insert sorted]; [cbn; intuition|]. intros [H1 H2].
  destruct (name_le (fst x) (fst z)) eqn:E; cbn [sorted].
  - split; [|split; assumption]. intros y [<-|Y]; [exact E|]. eapply name_le_trans; [exact E|apply H1, Y].
  - split; [|apply IH, H2]. intros y Y. apply insert_in in Y as [->|Y]; [apply name_le_total, E|apply H1, Y].
Qed.
Lemma sort_sorted l : sorted (alphasort l).
Proof. induction l as [|x l IH]; cbn [alphasort fold_right]; [exact Logic.I|apply insert_sorted, IH]. Qed.

Lemma find_last l : sorted l ->
  match find snd (rev l) with
  | Some x => In x l /\ snd x = true /\ (forall y, In y l -> snd y = true -> name_le (fst y) (fst x) = true \/ y = x)
  | None => forall y, In y l -> snd y = false
  end.
Proof.
  induction l as [|x l IH]; cbn [rev sorted]; [cbn; tauto|]. intros [H1 H2]. specialize (IH H2).
  assert (FA : forall a b : list (bytes * bool), find snd (a ++ b) = match find snd a with Some z => Some z | None => find snd b end).
  { induction a as [|c a IHa]; intro b; cbn; [reflexivity|]. destruct (snd c); [reflexivity|apply IHa]. }
  rewrite FA. destruct (find snd (rev l)) as [z|] eqn:F.
  - destruct IH as (I1 & I2 & I3). split; [right; exact I1|]. split; [exact I2|]. intros y [<-|Y] V; [left; apply H1, I1|auto].
  - cbn [find]. destruct (snd x) eqn:V.
    + split; [left; reflexivity|]. split; [exact V|]. intros y [<-|Y] W; [right; reflexivity|]. rewrite (IH y Y) in W. discriminate.
    + intros y [<-|Y]; [exact V|apply IH, Y].
Qed.

Lemma analysis_spec d :
  (exists n, In (n, true) (d_snaps d) /\ starts SNAP n = true /\ analysis d = atoll (after_underscore n) /\
     forall m, In (m, true) (d_snaps d) -> starts SNAP m = true -> name_le m n = true \/ m = n)
  \/ (analysis d = (-1)%Z /\ forall m, In (m, true) (d_snaps d) -> starts SNAP m = false).
Proof.
  unfold analysis. set (l := filter _ _). pose proof (find_last _ (sort_sorted l)) as F.
  assert (IL : forall x, In x (alphasort l) <-> In x (d_snaps d) /\ starts SNAP (fst x) = true).
  { intro x. rewrite sort_in. apply filter_In. }
  destruct (find snd (rev (alphasort l))) as [[n b]|].
  - left. destruct F as (F1 & F2 & F3). cbn in F2. subst b. apply IL in F1 as [F1 F4]. exists n. split; [exact F1|]. split; [exact F4|].
    split; [reflexivity|]. intros m M S. destruct (F3 (m, true)) as [F|F]; [apply IL; split; assumption|reflexivity|left; exact F|].
    right. congruence.
  - right. split; [reflexivity|]. intros m M. destruct (starts SNAP m) eqn:E; [|reflexivity].
    specialize (F (m, true)). cbn in F. rewrite F; [reflexivity|]. apply IL. split; assumption.
Qed.

(* ---------- the invariant of the directories ---------- *)
Definition DI (c : N) (d : disk) (L : option bytes) : Prop :=
  (forall n b, In (n, b) (d_snaps d) -> starts SNAP n = true -> exists t, n = snap_name t /\ a_date t) /\
  match L with
  | None => forall m, In (m, true) (d_snaps d) -> starts SNAP m = false
  | Some n => exists t, n = snap_name t /\ a_date t /\ t <= c /\ intact d t /\
                forall t', In (snap_name t', true) (d_snaps d) -> t' <= t
  end.

Definition ok_ev (c : N) (d : disk) (L : option bytes) (e : ev) : Prop :=
  match e with
  | NewSnap n => exists t, n = snap_name t /\ a_date t
  | NewLog _ => True
  | Trunc n => L <> Some n
  | Done n => exists t, n = snap_name t /\ a_date t /\ t <= c /\ (exists b, In (n, b) (d_snaps d)) /\
                In (log_name t) (d_logs d) /\ forall t', L = Some (snap_name t') -> t' < t
  | RmSnap n => L <> Some n
  | RmLog n => exists t, n = log_name t /\ L <> Some (snap_name t)
  | SwSnap _ | SwLog _ => False
  end.
Fixpoint oks (c : N) (d : disk) (L : option bytes) (l : list ev) : Prop :=
  match l with
  | [] => True
  | e :: l' => ok_ev c d L e /\ oks c (apply_ev d e) (last_done L [e]) l'
  end.

Lemma mark_in n b l m x : In (m, x) (mark n b l) <-> (m = n /\ x = b /\ exists y, In (m, y) l) \/ (m <> n /\ In (m, x) l).
Proof.
  unfold mark. rewrite in_map_iff. split.
  - intros ([m' y] & E & I). cbn in E. destruct (beqb_spec m' n) as [->|NE]; injection E as <- <-; [left|right]; eauto.
  - intros [(-> & -> & y & I)|[NE I]].
    + exists (n, y). cbn. rewrite beqb_refl. auto.
    + exists (m, x). cbn. destruct (beqb_spec m n); [contradiction|auto].
Qed.
Lemma has_snap_in d n : has_snap d n = true <-> exists b, In (n, b) (d_snaps d).
Proof.
  unfold has_snap. rewrite existsb_exists. split.
  - intros ([m b] & I & E). apply beqb_eq in E. cbn in E. subst m. eauto.
  - intros (b & I). exists (n, b). split; [exact I|apply beqb_refl].
Qed.
Lemma has_log_in d n : has_log d n = true <-> In n (d_logs d).
Proof.
  unfold has_log. rewrite existsb_exists. split.
  - intros (m & I & E). apply beqb_eq in E. subst m. exact I.
  - intro I. exists n. split; [exact I|apply beqb_refl].
Qed.

Lemma DI_ev c d L e : DI c d L -> ok_ev c d L e -> DI c (apply_ev d e) (last_done L [e]).
Proof.
  intros [A B]. destruct e as [n|n|n|n|n|n|n|n]; cbn [ok_ev apply_ev last_done]; intro O.
  - destruct O as (t & -> & T). destruct (has_snap d (snap_name t)); [split; assumption|]. split.
    + cbn [d_snaps]. intros m b I. apply in_app_or in I as [I|[I|[]]]; [apply A with b, I|]. injection I as <- <-. eauto.
    + destruct L as [n|].
      * destruct B as (t0 & E & D & C & (I1 & I2) & M). exists t0. split; [exact E|]. split; [exact D|]. split; [exact C|].
        split; [split; [cbn [d_snaps]; apply in_or_app; left; exact I1|exact I2]|].
        cbn [d_snaps]. intros t' I. apply in_app_or in I as [I|[I|[]]]; [apply M, I|discriminate].
      * cbn [d_snaps]. intros m I. apply in_app_or in I as [I|[I|[]]]; [apply B, I|discriminate].
  - destruct (has_log d n); [split; assumption|]. split; [exact A|]. destruct L as [m|]; [|exact B].
    destruct B as (t0 & E & D & C & (I1 & I2) & M). exists t0. split; [exact E|]. split; [exact D|]. split; [exact C|].
    split; [split; [exact I1|cbn [d_logs]; apply in_or_app; left; exact I2]|exact M].
  - split.
    + cbn [d_snaps]. intros m b I. apply mark_in in I as [(-> & _ & y & I)|[_ I]]; eapply A; exact I.
    + destruct L as [m|].
      * destruct B as (t0 & -> & D & C & (I1 & I2) & M). exists t0. split; [reflexivity|]. split; [exact D|]. split; [exact C|]. split.
        -- split; [|exact I2]. cbn [d_snaps]. apply mark_in. right. split; [congruence|exact I1].
        -- cbn [d_snaps]. intros t' I. apply mark_in in I as [(_ & F & _)|[_ I]]; [discriminate|apply M, I].
      * cbn [d_snaps]. intros m I. apply mark_in in I as [(_ & F & _)|[_ I]]; [discriminate|apply B, I].
  - destruct O as (t & -> & D & C & HS & HL & LT). split.
    + cbn [d_snaps]. intros m b I. apply mark_in in I as [(-> & _ & y & I)|[_ I]]; eapply A; exact I.
    + exists t. split; [reflexivity|]. split; [exact D|]. split; [exact C|]. split.
      * split; [|exact HL]. cbn [d_snaps]. apply mark_in. left. split; [reflexivity|]. split; [reflexivity|exact HS].
      * cbn [d_snaps]. intros t' I. apply mark_in in I as [(E & _)|[_ I]]; [apply snap_inj in E; lia|].
        destruct L as [m|].
        -- destruct B as (t0 & -> & _ & _ & _ & M). specialize (M _ I). specialize (LT _ eq_refl). lia.
        -- specialize (B _ I). rewrite snap_starts in B. discriminate.
  - split.
    + cbn [d_snaps]. intros m b I. apply filter_In in I as [I _]. eapply A, I.
    + destruct L as [m|].
      * destruct B as (t0 & -> & D & C & (I1 & I2) & M). exists t0. split; [reflexivity|]. split; [exact D|]. split; [exact C|]. split.
        -- split; [|exact I2]. cbn [d_snaps]. apply filter_In. split; [exact I1|]. cbn [fst]. destruct (beqb_spec (snap_name t0) n); [congruence|reflexivity].
        -- cbn [d_snaps]. intros t' I. apply filter_In in I as [I _]. apply M, I.
      * cbn [d_snaps]. intros m I. apply filter_In in I as [I _]. apply B, I.
  - destruct O as (t & -> & NE). split; [exact A|]. destruct L as [m|]; [|exact B].
    destruct B as (t0 & -> & D & C & (I1 & I2) & M). exists t0. split; [reflexivity|]. split; [exact D|]. split; [exact C|]. split; [|exact M].
    split; [exact I1|]. cbn [d_logs]. apply filter_In. split; [exact I2|]. destruct (beqb_spec (log_name t0) (log_name t)) as [E|E]; [|reflexivity].
    apply log_inj in E. congruence.
  - destruct O.
  - destruct O.
Qed.

Lemma last_done_app L a b : last_done L (a ++ b) = last_done (last_done L a) b.
Proof. revert L; induction a as [|e a IH]; intro L; [reflexivity|]. destruct e; cbn; apply IH. Qed.
Lemma apply_evs_app d a b : apply_evs d (a ++ b) = apply_evs (apply_evs d a) b.
Proof. apply fold_left_app. Qed.

Lemma DI_evs c l : forall d L, DI c d L -> oks c d L l -> DI c (apply_evs d l) (last_done L l).
Proof.
  induction l as [|e l IH]; intros d L D O; [exact D|]. destruct O as [O1 O2].
  change (e :: l) with ([e] ++ l). rewrite last_done_app, apply_evs_app. apply IH; [|exact O2]. apply DI_ev; assumption.
Qed.
Lemma oks_firstn c k l : forall d L, oks c d L l -> oks c d L (firstn k l).
Proof.
  revert l; induction k as [|k IH]; intros [|e l] d L O; cbn [firstn]; try exact Logic.I. destruct O as [O1 O2].
  split; [exact O1|apply IH, O2].
Qed.
Lemma oks_app c a b : forall d L, oks c d L a -> oks c (apply_evs d a) (last_done L a) b -> oks c d L (a ++ b).
Proof.
  induction a as [|e a IH]; intros d L A B; [exact B|]. destruct A as [A1 A2]. split; [exact A1|]. apply IH; [exact A2|].
  change (e :: a) with ([e] ++ a) in B. rewrite last_done_app, apply_evs_app in B. exact B.
Qed.
Lemma DI_later c c' d L : c <= c' -> DI c d L -> DI c' d L.
Proof.
  intros H [A B]. split; [exact A|]. destruct L as [n|]; [|exact B]. destruct B as (t & E & D & C & I & M).
  exists t. split; [exact E|]. split; [exact D|]. split; [lia|]. split; assumption.
Qed.

(* ---------- the steps ---------- *)
Definition older (c : N) (L : option bytes) : Prop := forall t, L = Some (snap_name t) -> t < c.

Lemma remove_oks c d L t u e u' ok : remove_files t u = (e, u', ok) -> L <> Some (snap_name t) ->
  oks c d L e /\ last_done L e = L.
Proof.
  unfold remove_files. destruct (unlink u) as [[|] u1]; cbn [negb]; [|intros [= <- _ _] _; split; [exact Logic.I|reflexivity]].
  destruct (unlink u1) as [[|] u2]; cbn [negb]; intros [= <- _ _] H; (split; [|reflexivity]); cbn; eauto.
Qed.

Lemma create_oks c d L v t u e u' r : create_files v t u = (e, u', r) -> a_date t -> L <> Some (snap_name t) ->
  oks c d L e /\ last_done L e = L /\
  (r = Success -> (exists b, In (snap_name t, b) (d_snaps (apply_evs d e))) /\ In (log_name t) (d_logs (apply_evs d e))).
Proof.
  unfold create_files. destruct (v_mksnap v); cbn [negb]; [|intros [= <- _ <-] _ _; split; [exact Logic.I|split; [reflexivity|discriminate]]].
  destruct (v_mklog v).
  - intros [= <- _ <-] D H. split; [cbn; eauto|]. split; [reflexivity|]. intros _.
    unfold apply_evs. cbn [fold_left]. set (d1 := apply_ev d (NewSnap (snap_name t))).
    assert (I1 : exists b, In (snap_name t, b) (d_snaps d1)).
    { subst d1. cbn [apply_ev]. destruct (has_snap d (snap_name t)) eqn:E; [apply has_snap_in, E|].
      exists false. cbn [d_snaps]. apply in_or_app. right. left. reflexivity. }
    cbn [apply_ev]. destruct (has_log d1 (log_name t)) eqn:E; [split; [exact I1|apply has_log_in, E]|].
    split; [exact I1|]. cbn [d_logs]. apply in_or_app. right. left. reflexivity.
  - destruct (unlink u) as [[|] u1]; intros [= <- _ <-] D H; (split; [cbn; eauto|split; [reflexivity|discriminate]]).
Qed.

Lemma checkpoint_oks c d L v s u s' e u' r : do_checkpoint v s u = (s', e, u', r) -> v_clock v = c -> a_date c -> older c L ->
  oks c d L e /\
  match r with
  | Success => last_done L e = Some (snap_name c) /\ c_last s' = Z.of_N c /\ c_prev s' = c_last s
  | _ => last_done L e = L /\ s' = s
  end /\ c_need s' = c_need s.
Proof.
  intros H V D O. unfold do_checkpoint in H. rewrite V in H.
  assert (NE : L <> Some (snap_name c)) by (intro E; specialize (O _ E); lia).
  destruct (create_files v c u) as [[e1 u1] r1] eqn:C. destruct (create_oks c d L _ _ _ _ _ _ C D NE) as (C1 & C2 & C3).
  destruct r1.
  - destruct (C3 eq_refl) as [I1 I2].
    destruct (remove_files c u1) as [[e2 u2] ok] eqn:R.
    assert (FR : forall x, (x = [] \/ x = [Trunc (snap_name c)]) ->
      oks c d L (e1 ++ x ++ e2) /\ last_done L (e1 ++ x ++ e2) = L).
    { intros x X. assert (X' : forall d' L', L' = L -> oks c d' L' x /\ last_done L' x = L).
      { intros d' L' ->. destruct X as [->| ->]; [split; [exact Logic.I|reflexivity]|]. split; [split; [exact NE|exact Logic.I]|reflexivity]. }
      destruct (X' (apply_evs d e1) _ C2) as [X1 X2].
      destruct (remove_oks c (apply_evs (apply_evs d e1) x) L _ _ _ _ _ R NE) as [R1 R2].
      split; [|rewrite !last_done_app, X2; exact R2].
      apply oks_app; [exact C1|]. apply oks_app; [exact X1|]. rewrite X2. exact R1. }
    destruct (v_open v); cbn [negb] in H.
    + destruct (v_trunc v); cbn [negb] in H.
      * destruct (v_scan v).
        -- injection H as <- <- <- <-. cbn [c_last c_prev c_need]. split; [|split; [split; [rewrite last_done_app; reflexivity|split; reflexivity]|reflexivity]].
           apply oks_app; [exact C1|]. rewrite C2. split; [exact NE|]. split; [|exact Logic.I]. cbn [last_done].
           exists c. split; [reflexivity|]. split; [exact D|]. split; [lia|]. split; [|split; [exact I2|exact O]].
           exists false. cbn [apply_ev d_snaps]. apply mark_in. left. auto.
        -- destruct (FR [Trunc (snap_name c)] (or_intror eq_refl)) as [F1 F2]. injection H as <- <- <- <-. split; [exact F1|].
           destruct ok; (split; [split; [exact F2|reflexivity]|reflexivity]).
      * destruct (FR [] (or_introl eq_refl)) as [F1 F2]. injection H as <- <- <- <-. split; [exact F1|].
        destruct ok; (split; [split; [exact F2|reflexivity]|reflexivity]).
    + destruct (FR [] (or_introl eq_refl)) as [F1 F2]. injection H as <- <- <- <-. split; [exact F1|].
      destruct ok; (split; [split; [exact F2|reflexivity]|reflexivity]).
  - injection H as <- <- <- <-. split; [exact C1|split; [split; [exact C2|reflexivity]|reflexivity]].
  - injection H as <- <- <- <-. split; [exact C1|split; [split; [exact C2|reflexivity]|reflexivity]].
Qed.

(* what the thread remembers *)
Definition MI (s : ck) (L : option bytes) : Prop :=
  exists t, L = Some (snap_name t) /\ c_last s = Z.of_N t /\
            (c_prev s = (-1)%Z \/ exists p, c_prev s = Z.of_N p /\ p < t).

(* the sweep's part of a round *)
Definition sweeps (v : env) (s : ck) (d : disk) : list ev :=
  if c_need s then if Nat.leb SWEEP_INTERVAL (S (c_sweep s)) then fst (fst (do_sweep v (c_last s) d (v_unlink v))) else [] else [].

Lemma tick_split v s d : exists rest, snd (tick v s d) = sweeps v s d ++ rest /\
  (forall c L, sweeps v s d = [] -> v_clock v = c -> a_date c -> older c L -> MI s L ->
     oks c d L rest /\ MI (fst (tick v s d)) (last_done L rest)).
Proof.
  unfold tick, sweeps.
  destruct (if c_need s then _ else _) as [[[need1 sw1] ev1] u1] eqn:S1.
  assert (EV : ev1 = if c_need s then if Nat.leb SWEEP_INTERVAL (S (c_sweep s)) then fst (fst (do_sweep v (c_last s) d (v_unlink v))) else [] else []).
  { destruct (c_need s); [|congruence]. destruct (Nat.leb _ _); [|congruence]. destruct (do_sweep v (c_last s) d (v_unlink v)) as [[e u] ok].
    cbn. congruence. }
  rewrite <- EV. clear S1 EV. cbn [c_prev c_last c_need c_sweep].
  destruct (Nat.leb CHECK_INTERVAL (S (c_elapsed s))).
  2:{ exists []. split; [cbn [snd]; rewrite app_nil_r; reflexivity|]. intros c L _ _ _ _ M. split; [exact Logic.I|]. exact M. }
  destruct (if negb (c_prev s =? -1)%Z && v_dual v then _ else _) as [[s2 ev2] u2] eqn:S2.
  destruct (if (c_prev s2 =? -1)%Z && v_needed v then _ else _) as [s3 ev3] eqn:S3.
  exists (ev2 ++ ev3). split; [reflexivity|]. intros c L _ V D O M. cbn [fst].
  assert (H2 : oks c d L ev2 /\ last_done L ev2 = L /\ MI s2 L).
  { destruct (negb (c_prev s =? -1)%Z && v_dual v) eqn:G.
    - destruct (remove_files (Z.to_N (c_prev s)) u1) as [[e u] ok] eqn:R. injection S2 as <- <- <-.
      destruct M as (t & EL & LT & [P|(p & P & PT)]); [rewrite P in G; discriminate|].
      rewrite P, N2Z.id in R. assert (NE : L <> Some (snap_name p)) by (rewrite EL; intros [= E%dec_inj]; lia).
      destruct (remove_oks c d L _ _ _ _ _ R NE) as [R1 R2]. split; [exact R1|]. split; [exact R2|].
      exists t. cbn [c_last c_prev]. auto.
    - injection S2 as <- <- <-. split; [exact Logic.I|]. split; [reflexivity|exact M]. }
  destruct H2 as (H2 & H3 & (t & EL & LT & PV)).
  destruct ((c_prev s2 =? -1)%Z && v_needed v) eqn:G.
  - destruct (do_checkpoint v s2 u2) as [[[s' e] u'] r] eqn:C. injection S3 as <- <-.
    destruct (checkpoint_oks c (apply_evs d ev2) L _ _ _ _ _ _ _ C V D O) as (C1 & C2 & _).
    split; [apply oks_app; [exact H2|rewrite H3; exact C1]|]. rewrite last_done_app, H3. cbn [c_last c_prev].
    destruct r.
    + destruct C2 as (C2 & C3 & C4). exists c. split; [exact C2|]. split; [exact C3|]. right. exists t. cbn [c_prev]. rewrite C4. split; [exact LT|apply O, EL].
    + destruct C2 as (C2 & ->). exists t. rewrite C2. auto.
    + destruct C2 as (C2 & ->). exists t. rewrite C2. auto.
  - injection S3 as <- <-. split; [apply oks_app; [exact H2|exact Logic.I]|]. rewrite last_done_app, H3. exists t. auto.
Qed.

Lemma DI_analysis c d L : DI c d L ->
  match L with Some n => exists t, n = snap_name t /\ a_date t /\ analysis d = Z.of_N t | None => analysis d = (-1)%Z end.
Proof.
  intros [A B]. destruct (analysis_spec d) as [(n & I & S & E & M)|[E M]].
  - destruct L as [m|].
    + destruct B as (t & -> & D & C & (I1 & I2) & MX). exists t. split; [reflexivity|]. split; [exact D|].
      destruct (A _ _ I S) as (t' & -> & D'). rewrite E, atoll_snap by exact D'.
      pose proof (MX _ I) as L1. destruct (M _ I1 (snap_starts t)) as [L2|L2].
      * rewrite date_le in L2 by assumption. apply N.leb_le in L2. lia.
      * apply snap_inj in L2. congruence.
    + rewrite (B _ I) in S. discriminate.
  - destruct L as [m|]; [|exact E]. destruct B as (t & -> & D & C & (I1 & I2) & MX).
    specialize (M _ I1). rewrite snap_starts in M. discriminate.
Qed.

Lemma restart_ok v d c L : v_clock v = c -> a_date c -> older c L -> DI c d L ->
  oks c d L (snd (restart v d)) /\
  match fst (restart v d) with Some s => MI s (last_done L (snd (restart v d))) | None => True end.
Proof.
  intros V D O DD. pose proof (DI_analysis _ _ _ DD) as A. unfold restart. destruct L as [n|].
  - destruct A as (t & -> & T & A). rewrite A. assert (P : (0 < Z.of_N t)%Z) by (destruct T as [T _]; change (10 ^ 13) with 10000000000000 in T; lia).
    apply Z.ltb_lt in P. rewrite P. cbn [fst snd]. split; [cbn; auto|]. exists t. cbn. auto.
  - rewrite A. cbn [Z.ltb Z.compare].
    destruct (do_checkpoint v _ (v_unlink v)) as [[[s' e] u'] r] eqn:C.
    destruct (checkpoint_oks c d None _ _ _ _ _ _ _ C V D O) as (C1 & C2 & _). destruct r; cbn [fst snd].
    + destruct C2 as (C2 & C3 & C4). split; [exact C1|]. exists c. cbn in C4. auto.
    + auto.
    + auto.
Qed.

Definition SI (c : N) (y : sys) (L : option bytes) : Prop :=
  DI c (y_disk y) L /\ match y_ck y with Some s => MI s L | None => True end.

Lemma DI_older c c' d L : DI c d L -> c < c' -> older c' L.
Proof. intros [_ B] H t ->. destruct B as (t0 & E & _ & C & _). apply snap_inj in E. lia. Qed.

Lemma SI_step c o y L : SI c y L -> c < v_clock (o_env o) -> a_date (v_clock (o_env o)) -> no_sweep (step_evs o y) ->
  SI (v_clock (o_env o)) (step o y) (last_done L (step_evs o y)).
Proof.
  intros [DD MM] LT D NS. set (c' := v_clock (o_env o)) in *.
  pose proof (DI_older _ _ _ _ DD LT) as O. apply (DI_later _ c') in DD; [|lia].
  assert (Q : step_evs o y = [] /\ o_cut o <> None \/
              oks c' (y_disk y) L (snd (round_of o y)) /\
              match fst (round_of o y) with Some s => MI s (last_done L (snd (round_of o y))) | None => True end).
  { unfold step_evs, round_of in *. destruct (y_ck y) as [s|].
    - destruct (tick_split (o_env o) s (y_disk y)) as (rest & E & T). destruct (tick (o_env o) s (y_disk y)) as [s' e]. cbn [fst snd] in *.
      destruct (sweeps (o_env o) s (y_disk y)) as [|w ws] eqn:W.
      + right. subst e. cbn [app]. apply T; auto.
      + left. subst e. assert (WW : exists n, w = SwSnap n \/ w = SwLog n).
        { clear - W. unfold sweeps in W. destruct (c_need s); [|discriminate]. destruct (Nat.leb _ _); [|discriminate].
          unfold do_sweep in W. destruct (if v_dir1 _ then _ else _) as [[l1 u1] r1]. destruct (if v_dir2 _ then _ else _) as [[l2 u2] r2]. cbn [fst] in W.
          assert (IW : In w (map SwSnap l1 ++ map SwLog l2)) by (rewrite W; left; reflexivity).
          apply in_app_or in IW as [IW|IW]; apply in_map_iff in IW as (n & <- & _); eauto. }
        destruct WW as [n WW]. destruct (o_cut o) as [[|k]|].
        * split; [reflexivity|discriminate].
        * destruct (NS n) as [N1 N2]. destruct WW as [-> | ->]; [destruct N1|destruct N2]; left; reflexivity.
        * destruct (NS n) as [N1 N2]. destruct WW as [-> | ->]; [destruct N1|destruct N2]; left; reflexivity.
    - right. apply restart_ok; auto. }
  unfold SI, step. cbn [y_ck y_disk]. destruct Q as [[Q1 Q2]|[Q1 Q2]].
  - rewrite Q1. cbn [apply_evs fold_left last_done]. split; [exact DD|]. destruct (o_cut o); [exact Logic.I|congruence].
  - split.
    + apply DI_evs; [exact DD|]. unfold step_evs. destruct (o_cut o); [apply oks_firstn, Q1|exact Q1].
    + unfold step_evs. destruct (o_cut o); [exact Logic.I|exact Q2].
Qed.

Lemma no_sweep_app a b : no_sweep (a ++ b) -> no_sweep a /\ no_sweep b.
Proof. intro H. split; intro n; destruct (H n) as [H1 H2]; split; intro I; [apply H1|apply H2|apply H1|apply H2]; apply in_or_app; auto. Qed.

Lemma SI_run l : forall c y L, SI c y L -> clock_forward c l -> no_sweep (trace l y) ->
  exists c', SI c' (run l y) (last_done L (trace l y)).
Proof.
  induction l as [|o l IH]; intros c y L H C NS; [exists c; exact H|]. destruct C as (C1 & C2 & C3). cbn [trace run] in *.
  apply no_sweep_app in NS as [N1 N2]. rewrite last_done_app. eapply IH; [|exact C3|exact N2]. apply SI_step with c; assumption.
Qed.

Lemma SI_start d : fresh d -> SI 0 {| y_ck := None; y_disk := d |} None.
Proof. intro F. split; [|exact Logic.I]. split; cbn [y_disk]; [intros n b I S; rewrite (F _ _ I) in S; discriminate|intros m I; apply (F _ _ I)]. Qed.

(* ---------- without failing removals nothing is swept ---------- *)
Definition calm (y : sys) : Prop := match y_ck y with Some s => c_need s = false | None => True end.

Lemma unlink_true u b u' : Forall (eq true) u -> unlink u = (b, u') -> b = true /\ Forall (eq true) u'.
Proof. intros F H. destruct F as [|x u X F]; injection H as <- <-; auto. Qed.

Lemma create_calm v t u e u' r : Forall (eq true) u -> create_files v t u = (e, u', r) -> r <> ErrorRemove /\ Forall (eq true) u' /\ no_sweep e.
Proof.
  intros F. unfold create_files. destruct (v_mksnap v); cbn [negb]; [|intros [= <- <- <-]; split; [discriminate|split; [exact F|split; intros []]]].
  destruct (v_mklog v).
  - intros [= <- <- <-]. split; [discriminate|]. split; [exact F|]. split; intros [|[|[]]]; discriminate.
  - destruct (unlink u) as [b u1] eqn:U. destruct (unlink_true _ _ _ F U) as [-> F1]. intros [= <- <- <-]. split; [discriminate|].
    split; [exact F1|]. split; intros [|[|[]]]; discriminate.
Qed.
Lemma remove_calm t u e u' ok : Forall (eq true) u -> remove_files t u = (e, u', ok) -> ok = true /\ Forall (eq true) u' /\ no_sweep e.
Proof.
  intros F. unfold remove_files. destruct (unlink u) as [b u1] eqn:U. destruct (unlink_true _ _ _ F U) as [-> F1]. cbn [negb].
  destruct (unlink u1) as [b u2] eqn:U2. destruct (unlink_true _ _ _ F1 U2) as [-> F2]. cbn [negb]. intros [= <- <- <-].
  split; [reflexivity|]. split; [exact F2|]. split; intros [|[|[]]]; discriminate.
Qed.
Lemma no_sweep_join a b : no_sweep a -> no_sweep b -> no_sweep (a ++ b).
Proof. intros A B n. destruct (A n), (B n). split; intro I; apply in_app_or in I as [I|I]; contradiction. Qed.
Lemma checkpoint_calm v s u s' e u' r : Forall (eq true) u -> do_checkpoint v s u = (s', e, u', r) ->
  r <> ErrorRemove /\ c_need s' = c_need s /\ no_sweep e.
Proof.
  intros F H. unfold do_checkpoint in H. destruct (create_files v (v_clock v) u) as [[e1 u1] r1] eqn:C.
  destruct (create_calm _ _ _ _ _ _ F C) as (C1 & C2 & C3). destruct (remove_files (v_clock v) u1) as [[e2 u2] ok] eqn:R.
  destruct (remove_calm _ _ _ _ _ C2 R) as (-> & R2 & R3).
  assert (NT : forall x, no_sweep [Trunc x]) by (intros x n; split; intros [|[]]; discriminate).
  assert (N0 : no_sweep []) by (intro n; split; intros []).
  destruct r1; [|injection H as <- <- <- <-; auto|congruence].
  destruct (v_open v); cbn [negb] in H; [destruct (v_trunc v); cbn [negb] in H; [destruct (v_scan v)|]|]; injection H as <- <- <- <-;
    (split; [discriminate|split; [reflexivity|]]).
  - apply no_sweep_join; [exact C3|]. intro n; split; intros [|[|[]]]; discriminate.
  - apply no_sweep_join; [exact C3|]. exact (no_sweep_join [_] e2 (NT _) R3).
  - apply no_sweep_join; [exact C3|exact R3].
  - apply no_sweep_join; [exact C3|exact R3].
Qed.

Lemma tick_calm v s d : Forall (eq true) (v_unlink v) -> c_need s = false ->
  c_need (fst (tick v s d)) = false /\ no_sweep (snd (tick v s d)).
Proof.
  intros F N. unfold tick. rewrite N. cbn [c_prev c_last c_need c_sweep].
  assert (N0 : no_sweep []) by (intro n; split; intros []).
  destruct (Nat.leb CHECK_INTERVAL (S (c_elapsed s))); [|auto].
  destruct (if negb (c_prev s =? -1)%Z && v_dual v then _ else _) as [[s2 ev2] u2] eqn:S2.
  assert (H2 : c_need s2 = false /\ Forall (eq true) u2 /\ no_sweep ev2).
  { destruct (_ && _) in S2.
    - destruct (remove_files _ _) as [[e u] ok] eqn:R. injection S2 as <- <- <-. destruct (remove_calm _ _ _ _ _ F R) as (-> & R2 & R3). auto.
    - injection S2 as <- <- <-. auto. }
  destruct H2 as (H2 & H3 & H4).
  destruct (if (c_prev s2 =? -1)%Z && v_needed v then _ else _) as [s3 ev3] eqn:S3. cbn [fst snd c_need app].
  assert (H5 : c_need s3 = false /\ no_sweep ev3).
  { destruct (_ && _) in S3.
    - destruct (do_checkpoint v s2 u2) as [[[s' e] u'] r] eqn:C. injection S3 as <- <-. destruct (checkpoint_calm _ _ _ _ _ _ _ H3 C) as (C1 & C2 & C3).
      cbn [c_need]. rewrite C2, H2. destruct r; [auto|auto|congruence].
    - injection S3 as <- <-. auto. }
  destruct H5. split; [assumption|]. apply no_sweep_join; assumption.
Qed.

Lemma restart_calm v d : Forall (eq true) (v_unlink v) ->
  match fst (restart v d) with Some s => c_need s = false | None => True end /\ no_sweep (snd (restart v d)).
Proof.
  intro F. unfold restart. destruct (Z.ltb 0 _).
  - cbn. split; [reflexivity|]. intro n; split; intros [|[]]; discriminate.
  - destruct (do_checkpoint v _ _) as [[[s' e] u'] r] eqn:C. destruct (checkpoint_calm _ _ _ _ _ _ _ F C) as (C1 & C2 & C3).
    destruct r; cbn; auto.
Qed.

Lemma no_sweep_firstn k l : no_sweep l -> no_sweep (firstn k l).
Proof. intro H. rewrite <- (firstn_skipn k l) in H. apply no_sweep_app in H. apply H. Qed.

Lemma calm_run l : forall y, calm y -> removals_work l -> no_sweep (trace l y).
Proof.
  induction l as [|o l IH]; intros y C W; cbn [trace]; [intro n; split; intros []|]. inversion_clear W as [|? ? W1 W2].
  assert (R : no_sweep (snd (round_of o y)) /\ match fst (round_of o y) with Some s => c_need s = false | None => True end).
  { unfold round_of, calm in *. destruct (y_ck y) as [s|].
    - destruct (tick_calm (o_env o) s (y_disk y) W1 C). destruct (tick _ _ _). auto.
    - destruct (restart_calm (o_env o) (y_disk y) W1). auto. }
  apply no_sweep_join.
  - unfold step_evs. destruct (o_cut o); [apply no_sweep_firstn|]; apply R.
  - apply IH; [|exact W2]. unfold calm, step. cbn [y_ck]. destruct (o_cut o); [exact Logic.I|apply R].
Qed.

(* ---------- the sweep itself ---------- *)
Lemma sweep_dir_ok pfx last names u l u' : sweep_dir pfx last names u = (l, u', true) ->
  forall n, In n l <-> In n names /\ starts pfx n = true /\ atoi (skipn (length pfx) n) <> last.
Proof.
  revert u l u'; induction names as [|m names IH]; intros u l u' H n; cbn [sweep_dir] in H.
  - injection H as <- <-. cbn. tauto.
  - destruct (negb (starts pfx m) || Z.eqb last (atoi (skipn (length pfx) m))) eqn:G.
    + rewrite (IH _ _ _ H n). cbn [In]. split; [tauto|]. intros ([<-|I] & S & A); [|auto]. exfalso.
      rewrite S in G. cbn in G. apply Z.eqb_eq in G. congruence.
    + destruct (unlink u) as [[|] u1]; [|discriminate]. destruct (sweep_dir pfx last names u1) as [[l2 u2] r] eqn:Q. injection H as <- <- ->.
      apply orb_false_iff in G as [G1 G2]. apply negb_false_iff in G1. apply Z.eqb_neq in G2. cbn [In]. rewrite (IH _ _ _ Q n).
      split; [intros [<-|?]; [auto|tauto]|]. intros ([<-|I] & S & A); auto.
Qed.
Lemma sweep_dir_works pfx last names u : Forall (eq true) u -> exists l u', sweep_dir pfx last names u = (l, u', true) /\ Forall (eq true) u'.
Proof.
  revert u; induction names as [|m names IH]; intros u F; cbn [sweep_dir]; [eauto|].
  destruct (_ || _); [apply IH, F|]. destruct (unlink u) as [b u1] eqn:U. destruct (unlink_true _ _ _ F U) as [-> F1].
  destruct (IH _ F1) as (l & u2 & -> & F2). eauto.
Qed.
Lemma atoi_small s : atoi s <> Z.of_N (10 ^ 13) /\ (atoi s < 2 ^ 31)%Z.
Proof.
  unfold atoi. pose proof (Z.mod_pos_bound (strtol64 s + 2 ^ 31) (2 ^ 32) ltac:(lia)) as H.
  change (Z.of_N (10 ^ 13)) with 10000000000000%Z. change (2 ^ 31)%Z with 2147483648%Z in *. change (2 ^ 32)%Z with 4294967296%Z in *. lia.
Qed.
