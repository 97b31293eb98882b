(* Expansion steps and scans: the visited area of a scan is exactly what the scan has returned. *)
From Verif Require Import Base AssocModel AssocSpec AssocProofs.
Local Open Scope N_scope.

Definition phs (l : list cell) : list nat := flat_map (fun c => match c with Ph s => [s] | It _ _ => [] end) l.
Lemma phs_app l1 l2 : phs (l1 ++ l2) = phs l1 ++ phs l2.
Proof. apply flat_map_app. Qed.

Lemma cut_ph_some s l p q : cut_ph s l = Some (p, q) -> l = p ++ Ph s :: q /\ ~ In s (phs p).
Proof.
  revert p q; induction l as [|[k v|s'] l IH]; intros p q H; cbn [cut_ph] in H; [discriminate| |].
  - destruct (cut_ph s l) as [(p', q')|] eqn:E; [|discriminate]. injection H as <- <-.
    destruct (IH _ _ eq_refl) as [-> NI]. split; [reflexivity|exact NI].
  - destruct (Nat.eqb_spec s s') as [->|NE].
    + injection H as <- <-. split; [reflexivity|intros []].
    + destruct (cut_ph s l) as [(p', q')|] eqn:E; [|discriminate]. injection H as <- <-.
      destruct (IH _ _ eq_refl) as [-> NI]. split; [reflexivity|]. intros [E1|H1]; [congruence|tauto].
Qed.
Lemma cut_ph_none s l : cut_ph s l = None <-> ~ In s (phs l).
Proof.
  induction l as [|[k v|s'] l IH]; cbn [cut_ph phs flat_map app]; [split; auto| |].
  - fold (phs l). rewrite <- IH. destruct (cut_ph s l) as [(p', q')|]; split; congruence.
  - fold (phs l). destruct (Nat.eqb_spec s s') as [->|NE].
    + split; [discriminate|]. intro H. exfalso. apply H. left; reflexivity.
    + cbn [In]. destruct (cut_ph s l) as [(p', q')|] eqn:E.
      * split; [discriminate|]. intro H. exfalso. apply H. right. apply cut_ph_some in E as [-> _].
        rewrite phs_app. apply in_or_app. right. left. reflexivity.
      * split; [|reflexivity]. intros _ [E1|H1]; [congruence|]. apply IH in H1; auto.
Qed.
Lemma cut_ph_app s p q : ~ In s (phs p) -> cut_ph s (p ++ Ph s :: q) = Some (p, q).
Proof.
  induction p as [|[k v|s'] p IH]; intro NI; cbn [app cut_ph].
  - rewrite Nat.eqb_refl. reflexivity.
  - rewrite IH by exact NI. reflexivity.
  - cbn [phs flat_map app In] in NI. destruct (Nat.eqb_spec s s') as [->|NE]; [exfalso; apply NI; left; reflexivity|].
    rewrite IH; [reflexivity|]. intro H. apply NI. right. exact H.
Qed.

(* the keys before the placeholder of scan s *)
Definition kbef (s : nat) (l : list cell) : list bytes := match cut_ph s l with Some (p, _) => keys p | None => [] end.

Lemma cut_ph_in s l : In s (phs l) -> exists p q, cut_ph s l = Some (p, q).
Proof. intro H. destruct (cut_ph s l) as [(p, q)|] eqn:E; [eauto|]. apply cut_ph_none in E. contradiction. Qed.
Lemma kbef_app1 s p r : In s (phs p) -> kbef s (p ++ r) = kbef s p.
Proof.
  intro H. apply cut_ph_in in H as (p1 & q1 & E). unfold kbef. rewrite E. apply cut_ph_some in E as [-> NI].
  rewrite <- app_assoc. cbn [app]. rewrite cut_ph_app by exact NI. reflexivity.
Qed.
Lemma kbef_app2 s p r : ~ In s (phs p) -> In s (phs r) -> kbef s (p ++ r) = keys p ++ kbef s r.
Proof.
  intros NI H. apply cut_ph_in in H as (p1 & q1 & E). unfold kbef. rewrite E. apply cut_ph_some in E as [-> NI1].
  rewrite app_assoc. rewrite cut_ph_app; [apply keys_app|]. rewrite phs_app. intro H. apply in_app_or in H. tauto.
Qed.
Lemma kbef_none s l : ~ In s (phs l) -> kbef s l = [].
Proof. intro H. apply cut_ph_none in H. unfold kbef. rewrite H. reflexivity. Qed.

Lemma kbef_ext s p x y q : phs x = phs y -> ~ In s (phs x) -> keys x = keys y -> kbef s (p ++ x ++ q) = kbef s (p ++ y ++ q).
Proof.
  intros E NX K. destruct (in_dec Nat.eq_dec s (phs p)) as [I|NI].
  - rewrite !kbef_app1 by exact I. reflexivity.
  - destruct (in_dec Nat.eq_dec s (phs q)) as [I2|NI2].
    + rewrite !(kbef_app2 s p) by (try exact NI; rewrite phs_app; apply in_or_app; right; exact I2).
      rewrite !kbef_app2 by (try exact I2; congruence). rewrite K. reflexivity.
    + rewrite !kbef_none; [reflexivity| |]; rewrite !phs_app, !in_app_iff; [rewrite <- E|]; tauto.
Qed.
Lemma kbef_ph s s' p q : s <> s' -> kbef s (p ++ Ph s' :: q) = kbef s (p ++ q).
Proof.
  intro NE. destruct (in_dec Nat.eq_dec s (phs p)) as [I|NI].
  - rewrite !kbef_app1 by exact I. reflexivity.
  - destruct (in_dec Nat.eq_dec s (phs q)) as [I2|NI2].
    + rewrite !(kbef_app2 s p) by (try exact NI; try exact I2; cbn; right; exact I2). f_equal.
      change (Ph s' :: q) with ([Ph s'] ++ q). rewrite kbef_app2; [reflexivity| |exact I2]. cbn. intros [E|[]]. congruence.
    + rewrite !kbef_none; [reflexivity| |]; rewrite phs_app, in_app_iff; cbn [phs flat_map app In]; fold (phs q); [tauto|].
      intros [H|[H|H]]; [tauto|congruence|tauto].
Qed.
Lemma kbef_item s p k v q k' : k' <> k -> In k' (kbef s (p ++ It k v :: q)) <-> In k' (kbef s (p ++ q)).
Proof.
  intro NE. destruct (in_dec Nat.eq_dec s (phs p)) as [I|NI].
  - rewrite !kbef_app1 by exact I. reflexivity.
  - destruct (in_dec Nat.eq_dec s (phs q)) as [I2|NI2].
    + rewrite !(kbef_app2 s p) by (try exact NI; exact I2). change (It k v :: q) with ([It k v] ++ q).
      rewrite (kbef_app2 s [It k v]) by (try exact I2; intros []). rewrite !in_app_iff. cbn [keys its flat_map app map fst In].
      split; [|tauto]. intros [H|[[H|[]]|H]]; [tauto|congruence|tauto].
    + rewrite !kbef_none; [reflexivity| |]; rewrite phs_app, in_app_iff; cbn [phs flat_map app In]; fold (phs q); tauto.
Qed.

Lemma count_set_nth {A} (p : A -> bool) (l : list A) i x y : nth_error l i = Some x ->
  (length (filter p (set_nth l i y)) + (if p x then 1 else 0) = length (filter p l) + (if p y then 1 else 0))%nat.
Proof.
  revert i; induction l as [|z l IH]; intros [|i] H; cbn in H; try discriminate; cbn [set_nth filter].
  - injection H as ->. destruct (p x), (p y); cbn [length]; lia.
  - specialize (IH i H). destruct (p z); cbn [length]; lia.
Qed.

Section Scan.
Variables (hp : N) (hash : bytes -> N).
Notation hsize := (hsize hp).
Notation bkt k := (bucket_of hp (hash k)).
Notation X k := (N.shiftr (hash k) hp).
Notation cur := (cur hp hash).
Notation base := (base hp hash).
Notation geo := (geo hp).

Lemma base_cur a a' m : base a m -> geo a' -> (forall k, cur a' k = cur a k) -> items a' = items a ->
  (forall t b, its (tab a' t b) = its (tab a t b)) -> base a' m.
Proof.
  intros B G C I T. constructor.
  - exact G.
  - intros t b k v H. rewrite T in H. rewrite C. apply (b_loc hp hash a m B _ _ _ _ H).
  - intros k v. rewrite C, T. apply (b_map hp hash a m B).
  - intros t b. unfold keys. rewrite T. apply (b_nd hp hash a m B).
  - apply (b_ndm hp hash a m B).
  - rewrite I. apply (b_cnt hp hash a m B).
Qed.

(* what an expansion step leaves alone *)
Record quiet (a a' : assoc) (bk : N) : Prop := {
  q_tab : forall t b, b <> bk -> tab a' t b = tab a t b;
  q_cur : forall k, bkt k <> bk -> cur a' k = cur a k;
  q_phs : forall t b, phs (tab a' t b) = phs (tab a t b);
  q_refc : refc a' = refc a;
  q_scans : scans a' = scans a;
  q_rpow : rpow a' = rpow a;
  q_psz : psz a' = psz a
}.
Lemma quiet_trans a1 a2 a3 bk : quiet a1 a2 bk -> quiet a2 a3 bk -> quiet a1 a3 bk.
Proof.
  intros [A1 A2 A3 A4 A5 A6 A7] [B1 B2 B3 B4 B5 B6 B7]. constructor; congruence || (intros; rewrite B1, A1 by assumption; reflexivity) || (intros; rewrite B2, A2 by assumption; reflexivity).
Qed.

Lemma phs_stays rm t l : phs (filter (stays hp hash rm t) l) = phs l.
Proof.
  induction l as [|[k v|s] l IH]; cbn [filter stays]; [reflexivity| |].
  - destruct (N.land (X k) rm =? t); exact IH.
  - cbn [phs flat_map app]. f_equal. exact IH.
Qed.
Lemma phs_goes rm t t1 l : phs (rev (filter (goes hp hash rm t t1) l)) = [].
Proof.
  induction l as [|[k v|s] l IH]; cbn [filter goes]; [reflexivity| |exact IH].
  destruct ((N.land (X k) rm =? t1) && negb (t1 =? t)); [|exact IH]. cbn [rev]. rewrite phs_app, IH. reflexivity.
Qed.

Lemma split1_quiet a m : base a m -> expg a = true -> etab a < psz a -> quiet a (split1 hp hash a) (ebkt a).
Proof.
  intros B E L. destruct (split1_fields hp hash a) as (F1 & F2 & F3 & F4 & F5 & F6 & F7 & F8 & F9 & F10). constructor; try assumption.
  - intros t b NE. rewrite split1_tab. apply N.eqb_neq in NE. rewrite NE. reflexivity.
  - intros k NE. rewrite split1_cur by (try assumption; apply (b_geo hp hash a m B)). apply N.eqb_neq in NE. rewrite NE. reflexivity.
  - intros t b. rewrite split1_tab. destruct (b =? ebkt a); [|reflexivity]. destruct (t =? etab a); [apply phs_stays|].
    rewrite phs_app, phs_goes. reflexivity.
Qed.

Lemma redist_S n a : redist hp hash (S n) a = if psz a <=? etab a + 1 then split1 hp hash a else redist hp hash n (split1 hp hash a).
Proof. cbn [redist]. unfold split1. destruct (spread _ _ _ _ _ _ _ _) as (kept, f). reflexivity. Qed.

Lemma redist_ok n : forall a m, base a m -> expg a = true -> etab a < psz a ->
  let a' := redist hp hash n a in
  base a' m /\ expg a' = true /\ ebkt a' = ebkt a /\ quiet a a' (ebkt a) /\ (etab a + N.of_nat n <= etab a' \/ etab a' = psz a).
Proof.
  induction n as [|n IH]; intros a m B E L.
  - cbn [redist]. split; [exact B|]. split; [exact E|]. split; [reflexivity|]. split; [constructor; reflexivity|]. left. lia.
  - cbv zeta. rewrite redist_S. destruct (split1_fields hp hash a) as (F1 & F2 & F3 & F4 & F5 & F6 & F7 & F8 & F9 & F10).
    pose proof (split1_base hp hash a m B E L) as B1. pose proof (split1_quiet a m B E L) as Q1.
    destruct (psz a <=? etab a + 1) eqn:C.
    + split; [exact B1|]. split; [congruence|]. split; [exact F5|]. split; [exact Q1|]. right. lia.
    + destruct (IH (split1 hp hash a) m B1 ltac:(congruence) ltac:(rewrite F2, F6; lia)) as (B2 & E2 & K2 & Q2 & N2).
      split; [exact B2|]. split; [exact E2|]. split; [congruence|]. rewrite F5 in Q2. split; [exact (quiet_trans _ _ _ _ Q1 Q2)|].
      rewrite F6, F2 in N2. destruct N2 as [N2|N2]; [left; lia|right; exact N2].
Qed.

Definition stable (a : assoc) : Prop := expg a = true -> etab a < psz a.

Lemma redistribute_ok a m : base a m -> expg a = true -> etab a < psz a ->
  let a' := redistribute hp hash a in
  base a' m /\ stable a' /\ quiet a a' (ebkt a) /\
  (expg a' = true /\ (ebkt a' = ebkt a \/ ebkt a' = ebkt a - 1 /\ 0 < ebkt a /\ etab a' = 0) \/ expg a' = false /\ ebkt a = 0).
Proof.
  intros B E L. cbv zeta. unfold redistribute.
  destruct (redist_ok 4 a m B E L) as (B1 & E1 & K1 & Q1 & N1). set (a1 := redist hp hash 4 a) in *.
  pose proof (b_geo hp hash a1 m B1) as G1. destruct (g_exp hp a1 G1 E1) as (P0 & P & PB & PT).
  assert (PP : 0 < psz a1) by (rewrite P; apply pow_pos).
  destruct (psz a1 <=? etab a1) eqn:C.
  2:{ split; [exact B1|]. split; [intro; lia|]. split; [exact Q1|]. left. split; [exact E1|]. left. exact K1. }
  assert (ET : etab a1 = psz a1) by lia.
  assert (SP : forall k, split hp hash a1 k = (ebkt a1 <=? bkt k)).
  { intro k. unfold split. rewrite E1, ET, P. cbn [negb orb].
    pose proof (N.mod_upper_bound (X k) (2 ^ (rpow a1 - 1)) ltac:(pose proof (pow_pos (rpow a1 - 1)); lia)) as U. lia. }
  destruct (0 <? ebkt a1) eqn:Z.
  - set (a2 := set_exp a1 (expg a1) (ebkt a1 - 1) 0).
    assert (G2 : geo a2). { destruct G1 as [X1 X2 X3 X4]. constructor; try assumption. intro H. specialize (X4 H). unfold a2. cbn [set_exp rpow psz ebkt etab expg]. repeat split; try tauto; lia. }
    assert (C2 : forall k, cur a2 k = cur a1 k).
    { intro k. rewrite !cur_eq by assumption. rewrite SP. unfold split. cbn [a2 set_exp expg ebkt etab rpow]. rewrite E1. cbn [negb orb].
      replace ((ebkt a1 - 1 <? bkt k) || (ebkt a1 - 1 =? bkt k) && (X k mod 2 ^ (rpow a1 - 1) <? 0)) with (ebkt a1 <=? bkt k); [reflexivity|].
      replace (X k mod 2 ^ (rpow a1 - 1) <? 0) with false by (symmetry; apply N.ltb_nlt; lia). lia. }
    split; [apply (base_cur a1); try assumption; reflexivity|].
    split; [intro; cbn; exact PP|].
    split. { apply (quiet_trans _ _ _ _ Q1). constructor; try reflexivity. intros k _. apply C2. }
    left. split; [exact E1|]. right. cbn [a2 set_exp ebkt etab]. rewrite K1. split; [reflexivity|]. split; [lia|reflexivity].
  - set (a2 := set_exp a1 false (ebkt a1) 0).
    assert (G2 : geo a2). { destruct G1 as [X1 X2 X3 X4]. constructor; try assumption. intro H. discriminate. }
    assert (C2 : forall k, cur a2 k = cur a1 k).
    { intro k. rewrite !cur_eq by assumption. rewrite SP. unfold split. cbn [a2 set_exp expg negb orb]. replace (ebkt a1 <=? bkt k) with true by lia. reflexivity. }
    split; [apply (base_cur a1); try assumption; reflexivity|].
    split; [intro; discriminate|].
    split. { apply (quiet_trans _ _ _ _ Q1). constructor; try reflexivity. intros k _. apply C2. }
    right. split; [reflexivity|lia].
Qed.

(* ---------- scans ---------- *)
Definition cnt_ok (a : assoc) (sc : scan) : Prop :=
  s_tabcnt sc = rsize a \/ (expg a = true /\ s_tabcnt sc = psz a /\ (s_bucket sc < ebkt a \/ s_bucket sc = ebkt a /\ etab a = 0)).
Definition scan_ok (a : assoc) (sc : scan) : Prop :=
  (s_tabcnt sc = 0 /\ s_linked sc = false /\ s_bucket sc <= hsize) \/
  (0 < s_tabcnt sc /\ s_bucket sc < hsize /\ s_tabidx sc <= s_tabcnt sc /\ (s_linked sc = true -> s_tabidx sc < s_tabcnt sc) /\ cnt_ok a sc).
Definition busy (b : N) (sc : scan) : bool := s_on sc && (0 <? s_tabcnt sc) && (s_bucket sc =? b).

Record sinv (a : assoc) : Prop := {
  si_ph : forall t b s, In s (phs (tab a t b)) <->
     exists sc, nth_error (scans a) s = Some sc /\ s_on sc = true /\ s_linked sc = true /\ s_tabidx sc = t /\ s_bucket sc = b;
  si_nd : forall t b, NoDup (phs (tab a t b));
  si_ref : forall b, refc a b = N.of_nat (length (filter (busy b) (scans a)));
  si_ok : forall s sc, nth_error (scans a) s = Some sc -> s_on sc = true -> scan_ok a sc
}.

(* the key was passed by the scan *)
Definition vis (a : assoc) (s : nat) (sc : scan) (k : bytes) : bool :=
  (bkt k <? s_bucket sc) ||
  ((bkt k =? s_bucket sc) && negb (s_tabcnt sc =? 0) &&
   ((cur a k <? s_tabidx sc) ||
    ((cur a k =? s_tabidx sc) && s_linked sc && existsb (beqb k) (kbef s (tab a (cur a k) (bkt k)))))).

Lemma existsb_in k l : existsb (beqb k) l = true <-> In k l.
Proof.
  rewrite existsb_exists. split.
  - intros (x & H & E). apply beqb_eq in E. congruence.
  - intro H. exists k. split; [exact H|apply beqb_refl].
Qed.
Lemma existsb_ext_in k l1 l2 : (In k l1 <-> In k l2) -> existsb (beqb k) l1 = existsb (beqb k) l2.
Proof. intro H. apply eq_iff_eq_true. rewrite !existsb_in. exact H. Qed.

(* a chain of table t0, bucket b0 gets another list: the placeholders stay *)
Lemma sinv_tab a a' : sinv a -> (forall t b, phs (tab a' t b) = phs (tab a t b)) -> refc a' = refc a -> scans a' = scans a ->
  (forall sc, In sc (scans a) -> s_on sc = true -> scan_ok a sc -> scan_ok a' sc) -> sinv a'.
Proof.
  intros S P R C K. constructor.
  - intros t b s. rewrite P, C. apply (si_ph a S).
  - intros t b. rewrite P. apply (si_nd a S).
  - intro b. rewrite R, C. apply (si_ref a S).
  - intros s sc H1 H2. rewrite C in H1. apply K; [apply (nth_error_In _ _ H1)|exact H2|]. apply (si_ok a S s sc H1 H2).
Qed.
Lemma scan_ok_same a a' sc : rpow a' = rpow a -> psz a' = psz a -> expg a' = expg a -> ebkt a' = ebkt a -> etab a' = etab a ->
  scan_ok a sc -> scan_ok a' sc.
Proof.
  intros E1 E2 E3 E4 E5. unfold scan_ok, cnt_ok, rsize. rewrite E1, E2, E3, E4, E5. exact (fun H => H).
Qed.

(* no scan is on a bucket whose reference count is 0 *)
Lemma refc_idle a b sc : sinv a -> refc a b = 0 -> In sc (scans a) -> s_on sc = true -> 0 < s_tabcnt sc -> s_bucket sc <> b.
Proof.
  intros S R I O T E. rewrite (si_ref a S) in R. assert (H : In sc (filter (busy b) (scans a))).
  { apply filter_In. split; [exact I|]. unfold busy. rewrite O, E, N.eqb_refl. replace (0 <? s_tabcnt sc) with true by lia. reflexivity. }
  destruct (filter (busy b) (scans a)); [contradiction|]. cbn in R. lia.
Qed.

Definition same_vis (a a' : assoc) (k : bytes) : Prop :=
  forall s sc, nth_error (scans a) s = Some sc -> s_on sc = true -> vis a' s sc k = vis a s sc k.

Lemma quiet_vis a a' bk k : quiet a a' bk -> (forall sc, In sc (scans a) -> s_on sc = true -> 0 < s_tabcnt sc -> s_bucket sc <> bk) ->
  same_vis a a' k.
Proof.
  intros Q NB s sc H1 H2. unfold vis. destruct (bkt k <? s_bucket sc); [reflexivity|]. cbn [orb].
  destruct (bkt k =? s_bucket sc) eqn:E; [|reflexivity]. apply N.eqb_eq in E.
  destruct (s_tabcnt sc =? 0) eqn:Z; [reflexivity|].
  assert (NE : bkt k <> bk). { rewrite E. apply NB; [apply (nth_error_In _ _ H1)|exact H2|lia]. }
  rewrite (q_cur a a' bk Q k NE), (q_tab a a' bk Q _ _ NE). reflexivity.
Qed.

(* an expansion step with no scan on the bucket *)
Lemma redistribute_scan a m : base a m -> sinv a -> expg a = true -> etab a < psz a -> refc a (ebkt a) = 0 ->
  let a' := redistribute hp hash a in
  base a' m /\ stable a' /\ sinv a' /\ scans a' = scans a /\ (forall k, same_vis a a' k).
Proof.
  intros B S E L R. destruct (redistribute_ok a m B E L) as (B1 & S1 & Q & PR). cbv zeta.
  set (a' := redistribute hp hash a) in *.
  assert (NB : forall sc, In sc (scans a) -> s_on sc = true -> 0 < s_tabcnt sc -> s_bucket sc <> ebkt a).
  { intros sc H1 H2 H3. apply (refc_idle a); assumption. }
  split; [exact B1|]. split; [exact S1|].
  split; [|split; [apply (q_scans _ _ _ Q)|intro k; apply (quiet_vis a a' (ebkt a) k Q NB)]].
  apply (sinv_tab a); try assumption; [apply (q_phs _ _ _ Q)|apply (q_refc _ _ _ Q)|apply (q_scans _ _ _ Q)|].
  intros sc I O [K|(T & BL & TI & LK & CK)]; [left; exact K|]. right. split; [exact T|]. split; [exact BL|]. split; [exact TI|]. split; [exact LK|].
  specialize (NB sc I O T). unfold cnt_ok, rsize in *. rewrite (q_rpow _ _ _ Q), (q_psz _ _ _ Q).
  destruct CK as [CK|(_ & CK & POS)]; [left; exact CK|]. right. destruct POS as [POS|[POS _]]; [|congruence].
  destruct PR as [[E' [K|(K & Z & T0)]]|[E' K]].
  - split; [exact E'|]. split; [exact CK|]. left. rewrite K. exact POS.
  - split; [exact E'|]. split; [exact CK|]. rewrite K, T0. lia.
  - lia.
Qed.

Lemma rsize_double a : 2 ^ (rpow a + 1) = 2 * rsize a.
Proof. unfold rsize. rewrite N.add_1_r. apply N.pow_succ_r'. Qed.

Lemma phs_small a t b : sinv a -> geo a -> rsize a <= t -> phs (tab a t b) = [].
Proof.
  intros S G L. destruct (phs (tab a t b)) as [|s r] eqn:E; [reflexivity|]. exfalso.
  assert (I : In s (phs (tab a t b))) by (rewrite E; left; reflexivity).
  apply (si_ph a S) in I as (sc & H1 & H2 & H3 & H4 & H5). destruct (si_ok a S s sc H1 H2) as [(K1 & K2 & _)|(T & _ & _ & LK & CK)]; [congruence|].
  specialize (LK H3). destruct CK as [CK|(E' & CK & _)]; [lia|]. destruct (g_exp hp a G E') as (P0 & P & _).
  unfold rsize in *. rewrite (pow_half (rpow a) P0) in L. rewrite P in CK. lia.
Qed.

Lemma expand_scan a m m1 m2 : base a m -> sinv a -> expg a = false -> limit a <> 0 ->
  let a' := expand hp a m1 m2 in
  base a' m /\ stable a' /\ sinv a' /\ scans a' = scans a /\ (forall k, same_vis a a' k).
Proof.
  intros B S E LIM. cbv zeta. pose proof (b_geo hp hash a m B) as G. pose proof (g_pow hp a G) as GP. pose proof (g_tsz hp a G) as GT.
  assert (P15 : rpow a <> 15) by (intro H; apply LIM; apply (g_lim hp a G H)).
  unfold expand. destruct ((rtsz a <? rsize a * 2) && negb m1) eqn:C1.
  { split; [exact B|]. split; [intro H; congruence|]. split; [exact S|]. split; [reflexivity|]. intros k s sc _ _. reflexivity. }
  set (rt := if rtsz a <? rsize a * 2 then rtsz a * 2 else rtsz a).
  assert (RT : rsize a * 2 <= rt) by (unfold rt; destruct (rtsz a <? rsize a * 2) eqn:C; lia).
  destruct m2; cbn [negb].
  - set (f := fun t b => if (rsize a <=? t) && (t <? 2 ^ (rpow a + 1)) then [] else tab a t b).
    set (a' := mkAs _ _ _ _ _ _ _ _ _ _ _).
    assert (HP := hsize_pos hp).
    assert (G' : geo a').
    { constructor.
      - cbn. lia.
      - intro H. cbn in H |- *. rewrite H. reflexivity.
      - unfold rsize. change (rpow a') with (rpow a + 1). change (rtsz a') with rt. rewrite rsize_double. lia.
      - intros _. change (rpow a') with (rpow a + 1). change (psz a') with (rsize a). change (ebkt a') with (hsize - 1). change (etab a') with 0.
        replace (rpow a + 1 - 1) with (rpow a) by lia. unfold rsize. repeat split; lia. }
    assert (C : forall k, cur a' k = cur a k).
    { intro k. rewrite !cur_eq by assumption. unfold split. rewrite E. change (expg a') with true. change (ebkt a') with (hsize - 1). change (etab a') with 0.
      change (rpow a') with (rpow a + 1). cbn [negb orb]. pose proof (bkt_lt hp hash k) as BL.
      replace (hsize - 1 <? bkt k) with false by (symmetry; apply N.ltb_nlt; lia).
      replace (X k mod 2 ^ (rpow a + 1 - 1) <? 0) with false by (symmetry; apply N.ltb_nlt; lia). rewrite andb_false_r. cbn [orb].
      replace (rpow a + 1 - 1) with (rpow a) by lia. reflexivity. }
    assert (T : forall t b, its (tab a' t b) = its (tab a t b)).
    { intros t b. change (tab a' t b) with (f t b). unfold f. destruct ((rsize a <=? t) && (t <? 2 ^ (rpow a + 1))) eqn:D; [|reflexivity].
      destruct (its (tab a t b)) as [|(k, v) r] eqn:EI; [reflexivity|]. exfalso.
      assert (I : In (k, v) (its (tab a t b))) by (rewrite EI; left; reflexivity).
      destruct (b_loc hp hash a m B _ _ _ _ I) as [_ ->]. pose proof (cur_lt hp hash a k G). lia. }
    split; [apply (base_cur a); try assumption; reflexivity|].
    split; [intro; change (etab a') with 0; change (psz a') with (rsize a); apply pow_pos|].
    assert (PH : forall t b, phs (tab a' t b) = phs (tab a t b)).
    { intros t b. change (tab a' t b) with (f t b). unfold f. destruct ((rsize a <=? t) && (t <? 2 ^ (rpow a + 1))) eqn:D; [|reflexivity].
      symmetry. apply phs_small; try assumption. lia. }
    split; [|split; [reflexivity|]].
    + apply (sinv_tab a); try assumption; try reflexivity.
      intros sc I O [K|(T1 & BL & TI & LK & CK)]; [left; exact K|]. right. split; [exact T1|]. split; [exact BL|]. split; [exact TI|]. split; [exact LK|].
      right. change (expg a') with true. change (psz a') with (rsize a). change (ebkt a') with (hsize - 1). change (etab a') with 0.
      destruct CK as [CK|(CK & _)]; [|congruence]. split; [reflexivity|]. split; [exact CK|]. lia.
    + intros k s sc H1 H2. unfold vis. rewrite C.
      change (tab a' (cur a k) (bkt k)) with (f (cur a k) (bkt k)). unfold f. pose proof (cur_lt hp hash a k G).
      replace (rsize a <=? cur a k) with false by (symmetry; apply N.leb_nle; lia). reflexivity.
  - set (a' := mkAs _ _ _ _ _ _ _ _ _ _ _).
    split.
    + apply (base_cur a); try reflexivity; [exact B|]. destruct G as [G1 G2 G3 G4]. constructor; try assumption. cbn. unfold rsize in *. cbn. lia.
    + split; [intro H; cbn in H; congruence|]. split; [|split; [reflexivity|intros k s sc _ _; reflexivity]].
      apply (sinv_tab a); try assumption; try reflexivity. intros sc _ _ H. exact H.
Qed.

End Scan.
