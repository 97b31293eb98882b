(* The SCAN command: positions of the keys in the order of the scan. *)
From Verif Require Import Base UtilModel UtilSpec UtilProofs AssocModel AssocSpec AssocRev AssocProofs AssocScan AssocRun AssocHist.
Local Open Scope N_scope.

(* ---------- cursors ---------- *)
Lemma strtoul_dec_text n : n < 2 ^ 32 -> safe_strtoul (dec_text n) = Some n.
Proof.
  intro H. apply safe_strtoul_char. left. exists false, n, [].
  split; [|split; [left; reflexivity|split; [lia|split; [reflexivity|exact H]]]].
  pose proof (plain_reads (dec_text n) n [] (dec_text_plain n) (or_introl eq_refl)) as R. rewrite app_nil_r in R. exact R.
Qed.
Lemma lor_add x h b : b < 2 ^ h -> N.lor (x * 2 ^ h) b = x * 2 ^ h + b.
Proof.
  intro H. assert (Z : N.land (x * 2 ^ h) b = 0).
  { apply N.bits_inj. intro i. rewrite N.land_spec, N.bits_0. destruct (i <? h) eqn:L.
    - rewrite N.mul_pow2_bits_low by lia. reflexivity.
    - rewrite (testbit_high b h H i) by lia. apply andb_false_r. }
  rewrite <- N.lxor_lor by exact Z. symmetry. apply N.add_nocarry_lxor. exact Z.
Qed.

Lemma revn_scale m d v : v < 2 ^ N.of_nat m -> revn (m + d) v = revn m v * 2 ^ N.of_nat d.
Proof. intro H. pose proof (revn_app m d v 0 H) as E. rewrite N.mul_0_r, N.add_0_r, revn_0, N.add_0_r in E. exact E. Qed.
Lemma revn_scale_mod m d x : exists e, revn (m + d) (x mod 2 ^ N.of_nat (m + d)) = revn m (x mod 2 ^ N.of_nat m) * 2 ^ N.of_nat d + e /\ e < 2 ^ N.of_nat d.
Proof.
  assert (P : 2 ^ N.of_nat m <> 0) by (apply N.pow_nonzero; lia).
  exists (revn d (x / 2 ^ N.of_nat m)). split; [|apply revn_lt]. rewrite revn_mod.
  rewrite (N.div_mod x (2 ^ N.of_nat m)) at 1 by exact P. rewrite N.add_comm. apply revn_app. apply N.mod_upper_bound. exact P.
Qed.

Section Direct.
Variables (hp : N) (hash : bytes -> N).
Notation hsize := (hsize hp).
Notation bkt k := (bucket_of hp (hash k)).
Notation X k := (N.shiftr (hash k) hp).
Notation cur := (cur hp hash).
Notation base := (base hp hash).
Notation geo := (geo hp).

Lemma decode_encode t b : hp <= 17 -> t < 2 ^ 15 -> b < hsize -> decode hp (encode hp t b) = Some (t, b).
Proof.
  intros Hh Ht Hb. unfold encode, decode. unfold hmask, AssocModel.hsize in *.
  assert (P : 0 < 2 ^ hp) by apply pow_pos.
  assert (U : t * 2 ^ hp + b < 2 ^ 32).
  { assert ((t + 1) * 2 ^ hp <= 2 ^ 15 * 2 ^ 17); [|change (2 ^ 15 * 2 ^ 17) with (2 ^ 32) in *; lia].
    apply N.mul_le_mono; [lia|apply N.pow_le_mono_r; [discriminate|exact Hh]]. }
  rewrite N.shiftl_mul_pow2. rewrite N.mod_small by (unfold u32; lia). rewrite lor_add by exact Hb.
  rewrite strtoul_dec_text by exact U. rewrite N.shiftr_div_pow2, land_mask.
  rewrite N.div_add_l by lia. rewrite (N.div_small b) by exact Hb. rewrite N.add_0_r.
  rewrite N.add_comm, N.mod_add by lia. rewrite N.mod_small by exact Hb. reflexivity.
Qed.

(* ---------- positions ---------- *)
Definition pw (a : assoc) : nat := N.to_nat (rpow a).
Definition pos (a : assoc) (t b : N) : N := b * rsize a + revn (pw a) t.
Definition last_pos (a : assoc) : N := hsize * rsize a.
Definition chain_at (a : assoc) (p : N) : list cell := tab a (revn (pw a) (p mod rsize a)) (p / rsize a).
(* where the key belongs and where it is *)
Definition kpos (a : assoc) (k : bytes) : N := pos a (X k mod rsize a) (bkt k).
Definition cpos (a : assoc) (k : bytes) : N := pos a (cur a k) (bkt k).

Lemma rsize_pw a : rsize a = 2 ^ N.of_nat (pw a).
Proof. unfold rsize, pw. rewrite N2Nat.id. reflexivity. Qed.
Lemma pos_mod a t b : pos a t b mod rsize a = revn (pw a) t.
Proof. unfold pos. rewrite N.add_comm, N.mod_add by (pose proof (rsize_pos a); lia). apply N.mod_small. rewrite rsize_pw. apply revn_lt. Qed.
Lemma pos_div a t b : pos a t b / rsize a = b.
Proof.
  unfold pos. rewrite N.div_add_l by (pose proof (rsize_pos a); lia). rewrite N.div_small; [lia|]. rewrite rsize_pw. apply revn_lt.
Qed.
Lemma pos_back a p : pos a (revn (pw a) (p mod rsize a)) (p / rsize a) = p.
Proof.
  unfold pos. rewrite revn_invol.
  - pose proof (rsize_pos a). rewrite (N.div_mod p (rsize a)) at 3 by lia. lia.
  - rewrite <- rsize_pw. apply N.mod_upper_bound. pose proof (rsize_pos a). lia.
Qed.
Lemma pos_t a t b : t < rsize a -> revn (pw a) (pos a t b mod rsize a) = t.
Proof. intro H. rewrite pos_mod. apply revn_invol. rewrite <- rsize_pw. exact H. Qed.
Lemma pos_lt a t b : b < hsize -> pos a t b < last_pos a.
Proof.
  intro H. unfold pos, last_pos. assert (revn (pw a) t < rsize a) by (rewrite rsize_pw; apply revn_lt).
  assert ((b + 1) * rsize a <= hsize * rsize a) by (apply N.mul_le_mono_r; lia). lia.
Qed.

Lemma key_at a m k v p : base a m -> In (k, v) (its (chain_at a p)) <-> In (k, v) m /\ cpos a k = p.
Proof.
  intro B. unfold chain_at, cpos. split.
  - intro H. destruct (b_loc hp hash a m B _ _ _ _ H) as [E1 E2]. rewrite E1, E2 in H. apply (b_map hp hash a m B) in H. split; [exact H|].
    rewrite <- E1, <- E2. apply pos_back.
  - intros [H <-]. rewrite pos_t, pos_div by (apply cur_lt; apply (b_geo hp hash a m B)). apply (b_map hp hash a m B). exact H.
Qed.

Lemma rsize_even a : 0 < rpow a -> exists h, rsize a = 2 * h.
Proof. intro H. exists (2 ^ (rpow a - 1)). apply pow_half. exact H. Qed.
Lemma pos_even a t b : 0 < rpow a -> N.even (pos a t b) = N.even (revn (pw a) t).
Proof. intro H. destruct (rsize_even a H) as (h & E). unfold pos. rewrite E, N.even_add, !N.even_mul. cbn. rewrite orb_true_r. destruct (N.even (revn (pw a) t)); reflexivity. Qed.

(* the upper half of the tables is at the odd positions *)
Lemma upper_odd a t : 0 < rpow a -> t < rsize a -> (2 ^ (rpow a - 1) <=? t) = negb (N.even (revn (pw a) t)).
Proof.
  intros H L. assert (E : pw a = S (N.to_nat (rpow a - 1))) by (unfold pw; lia). rewrite E, revn_snoc. rewrite N2Nat.id.
  set (h := 2 ^ (rpow a - 1)). assert (P : 0 < h) by apply pow_pos. assert (L2 : t < 2 * h) by (unfold rsize in L; rewrite pow_half in L by exact H; exact L).
  rewrite N.even_add, N.even_mul. cbn [N.even orb]. rewrite orb_true_r. cbn [negb].
  destruct (h <=? t) eqn:C.
  - replace (t / h) with 1; [reflexivity|]. apply N.div_unique with (r := t - h); lia.
  - rewrite N.div_small by lia. reflexivity.
Qed.
Lemma over_odd a p : geo a -> expg a = true -> (pmask a <? revn (pw a) (p mod rsize a)) = negb (N.even p).
Proof.
  intros G E. destruct (g_exp hp a G E) as (P0 & P & _). set (t := revn (pw a) (p mod rsize a)).
  assert (T : t < rsize a) by (rewrite rsize_pw; apply revn_lt).
  rewrite <- (pos_back a p) at 1. fold t. rewrite pos_even by exact P0. rewrite <- (upper_odd a t P0 T). unfold pmask. rewrite P. pose proof (pow_pos (rpow a - 1)). lia.
Qed.

Lemma cpos_kpos a k : geo a -> (cpos a k = kpos a k) \/ (expg a = true /\ N.even (cpos a k) = true /\ kpos a k = cpos a k + 1).
Proof.
  intro G. unfold cpos, kpos. rewrite (cur_eq hp hash a k G). destruct (split hp hash a k) eqn:SP; [left; reflexivity|].
  assert (E : expg a = true) by (unfold split in SP; destruct (expg a); [reflexivity|discriminate]).
  destruct (g_exp hp a G E) as (P0 & _). unfold pos.
  assert (Em : pw a = (N.to_nat (rpow a - 1) + 1)%nat) by (unfold pw; lia). set (m := N.to_nat (rpow a - 1)) in *.
  assert (R1 : rpow a - 1 = N.of_nat m) by (unfold m; lia). assert (R2 : rsize a = 2 ^ N.of_nat (m + 1)) by (rewrite rsize_pw, Em; reflexivity).
  rewrite Em, R1, R2. destruct (revn_scale_mod m 1 (X k)) as (e & E1 & L1). rewrite E1.
  rewrite revn_scale by (apply N.mod_upper_bound, N.pow_nonzero; lia). change (2 ^ N.of_nat 1) with 2 in *.
  assert (C : e = 0 \/ e = 1) by lia. destruct C as [->| ->]; [left; lia|]. right. split; [exact E|]. split; [|lia].
  rewrite Nat2N.inj_add. change (N.of_nat 1) with 1. rewrite N.pow_add_r. rewrite N.even_add, !N.even_mul. cbn. rewrite !orb_true_r. reflexivity.
Qed.

(* ---------- the loop ---------- *)
Fixpoint seg (a : assoc) (n : nat) (p : N) : list (bytes * N) :=
  match n with O => [] | S n' => its (chain_at a p) ++ seg a n' (p + 1) end.
Lemma seg_in a m n : base a m -> forall p k v, In (k, v) (seg a n p) <-> In (k, v) m /\ p <= cpos a k < p + N.of_nat n.
Proof.
  intro B. induction n as [|n IH]; intros p k v; cbn [seg].
  - split; [intros []|]. intros [_ H]. cbn in H. lia.
  - rewrite in_app_iff, IH, (key_at a m k v p B). rewrite Nat2N.inj_succ. split; [intros [[H1 H2]|[H1 H2]]; (split; [exact H1|lia])|].
    intros [H1 H2]. destruct (N.eq_dec (cpos a k) p); [left; auto|right; split; [exact H1|lia]].
Qed.
Lemma seg_nodup a m n : base a m -> forall p, NoDup (map fst (seg a n p)).
Proof.
  intro B. induction n as [|n IH]; intro p; cbn [seg]; [constructor|]. rewrite map_app. apply nodup_app3.
  split; [apply (b_nd hp hash a m B)|]. split; [apply IH|]. intros k H1 H2.
  apply in_map_iff in H1 as ((k1, v1) & E1 & H1). apply in_map_iff in H2 as ((k2, v2) & E2 & H2). cbn in E1, E2. subst k1 k2.
  apply (key_at a m _ _ _ B) in H1. apply (seg_in a m n B) in H2. lia.
Qed.

Lemma collect_ok asz : forall l out, N.of_nat (length out) + N.of_nat (length (its l)) <= asz -> collect asz l out = Some (out ++ its l).
Proof.
  induction l as [|[k v|s] l IH]; intros out H; [cbn; rewrite app_nil_r; reflexivity| |]; cbn [collect its flat_map app length]; fold (its l).
  - cbn [its flat_map app length] in H. fold (its l) in H. replace (asz <=? N.of_nat (length out)) with false by lia.
    destruct (asz <=? N.of_nat (length out) + 1) eqn:C.
    + destruct (its l) eqn:Z; [reflexivity|cbn [length] in H; lia].
    + rewrite IH; [rewrite <- app_assoc; reflexivity|]. rewrite app_length. cbn [length]. lia.
  - apply IH. cbn [its flat_map app] in H. exact H.
Qed.

(* keys whose hash values agree in the bits in use before the running expansion *)
Definition low_bits (a : assoc) : N := hp + (if expg a then rpow a - 1 else rpow a).
Definition crowd (a : assoc) (m : list (bytes * N)) (h : N) : N :=
  N.of_nat (length (filter (fun p => hash (fst p) mod 2 ^ low_bits a =? h) m)).
Definition fits (a : assoc) (m : list (bytes * N)) (req asz : N) : Prop := forall h, req - 1 + crowd a m h <= asz.

Lemma low_split x l : x mod 2 ^ (hp + l) = bucket_of hp x + 2 ^ hp * (N.shiftr x hp mod 2 ^ l).
Proof. unfold bucket_of, hmask, AssocModel.hsize. rewrite land_mask, N.shiftr_div_pow2, N.pow_add_r. apply N.mod_mul_r; apply N.pow_nonzero; discriminate. Qed.
Lemma same_low a k1 k2 : geo a -> N.even (cpos a k1) = true \/ expg a = false ->
  cpos a k2 = cpos a k1 \/ expg a = true /\ cpos a k2 = cpos a k1 + 1 -> hash k2 mod 2 ^ low_bits a = hash k1 mod 2 ^ low_bits a.
Proof.
  intros G EV H. unfold low_bits. rewrite !low_split.
  assert (D : bkt k2 = bkt k1 /\ revn (pw a) (cur a k2) = revn (pw a) (cur a k1) + (cpos a k2 - cpos a k1)).
  { assert (D1 : bkt k2 = bkt k1).
    { rewrite <- (pos_div a (cur a k1) (bkt k1)), <- (pos_div a (cur a k2) (bkt k2)). fold (cpos a k1) (cpos a k2).
      destruct H as [->|[E ->]]; [reflexivity|]. destruct EV as [EV|EV]; [|congruence]. destruct (g_exp hp a G E) as (P0 & _). destruct (rsize_even a P0) as (h & EH).
      apply N.even_spec in EV as (c & ->). assert (h <> 0) by (pose proof (rsize_pos a); lia). rewrite EH.
      rewrite <- !N.div_div by lia. f_equal. rewrite (N.mul_comm 2 c), N.div_mul by lia. rewrite N.div_add_l by lia. change (1 / 2) with 0. lia. }
    split; [exact D1|]. unfold cpos, pos in H |- *. rewrite D1 in H |- *. destruct H as [H|[_ H]]; lia. }
  destruct D as [D1 D2]. rewrite D1. f_equal. f_equal.
  assert (L1 : cur a k1 < rsize a) by (apply cur_lt; exact G). assert (L2 : cur a k2 < rsize a) by (apply cur_lt; exact G).
  assert (XC : forall k, X k mod 2 ^ (if expg a then rpow a - 1 else rpow a) = cur a k mod 2 ^ (if expg a then rpow a - 1 else rpow a)).
  { intro k. rewrite (cur_eq hp hash a k G). destruct (expg a) eqn:E.
    - destruct (split hp hash a k); symmetry; apply mod_mod_pow; lia.
    - unfold split. rewrite E. cbn [negb orb]. symmetry. apply mod_mod_pow. lia. }
  rewrite !XC. destruct (expg a) eqn:E.
  - destruct (g_exp hp a G E) as (P0 & _). assert (Em : pw a = S (N.to_nat (rpow a - 1))) by (unfold pw; lia). set (m := N.to_nat (rpow a - 1)) in *.
    replace (rpow a - 1) with (N.of_nat m) by (unfold m; lia). rewrite Em, !revn_snoc in D2.
    assert (E1 : N.even (revn (pw a) (cur a k1)) = true).
    { destruct EV as [EV|EV]; [|discriminate]. unfold cpos in EV. rewrite pos_even in EV by exact P0. exact EV. }
    rewrite Em, revn_snoc, N.even_add, N.even_mul in E1. cbn [N.even orb] in E1. rewrite orb_true_r in E1.
    pose proof (N.mod_upper_bound (cur a k1 / 2 ^ N.of_nat m) 2 ltac:(discriminate)) as U1. pose proof (N.mod_upper_bound (cur a k2 / 2 ^ N.of_nat m) 2 ltac:(discriminate)) as U2.
    set (y1 := (cur a k1 / 2 ^ N.of_nat m) mod 2) in *. set (y2 := (cur a k2 / 2 ^ N.of_nat m) mod 2) in *. clearbody y1 y2.
    assert (B1 : y1 = 0).
    { assert (C : y1 = 0 \/ y1 = 1) by lia. destruct C as [C|C]; [exact C|]. rewrite C in E1. discriminate. }
    assert (RR : revn m (cur a k2) = revn m (cur a k1)) by (destruct H as [H|[_ H]]; rewrite H in D2; lia).
    rewrite <- (revn_mod m (cur a k1)), <- (revn_mod m (cur a k2)) in RR.
    apply (revn_inj m) in RR; [exact RR| |]; apply N.mod_upper_bound, N.pow_nonzero; lia.
  - destruct H as [H|[H _]]; [|discriminate]. assert (RR : revn (pw a) (cur a k2) = revn (pw a) (cur a k1)) by lia.
    apply (revn_inj (pw a)) in RR; [rewrite RR; reflexivity| |]; rewrite <- rsize_pw; assumption.
Qed.

Lemma group_le a m (l : list (bytes * N)) h : (forall p, In p l -> In p m /\ hash (fst p) mod 2 ^ low_bits a = h) -> NoDup (map fst l) -> N.of_nat (length l) <= crowd a m h.
Proof.
  intros H ND. unfold crowd. set (f := filter _ m). assert (LE : Nat.le (length l) (length f)); [|unfold Nat.le in LE; lia].
  apply NoDup_incl_length; [apply (NoDup_map_inv fst); exact ND|]. intros p I. apply filter_In. destruct (H p I) as [H1 H2]. split; [exact H1|]. apply N.eqb_eq. exact H2.
Qed.
(* one chain, and a pair of chains while the table grows *)
Lemma chain_le a m p : base a m -> exists h, N.of_nat (length (its (chain_at a p))) <= crowd a m h.
Proof.
  intro B. destruct (its (chain_at a p)) as [|(k1, v1) r] eqn:E; [exists 0; cbn; lia|]. exists (hash k1 mod 2 ^ low_bits a). rewrite <- E.
  assert (I1 : In (k1, v1) (its (chain_at a p))) by (rewrite E; left; reflexivity). apply (key_at a m _ _ _ B) in I1 as [_ C1].
  apply group_le; [|apply (b_nd hp hash a m B)]. intros (k, v) H. apply (key_at a m _ _ _ B) in H as [H C]. split; [exact H|]. cbn [fst].
  (* equal positions: equal table index and bucket *)
  unfold low_bits. rewrite !low_split.
  assert (D1 : bkt k = bkt k1) by (rewrite <- (pos_div a (cur a k1) (bkt k1)), <- (pos_div a (cur a k) (bkt k)); fold (cpos a k1) (cpos a k); congruence).
  assert (G : geo a) by apply (b_geo hp hash a m B).
  assert (D2 : cur a k = cur a k1) by (rewrite <- (pos_t a (cur a k1) (bkt k1)), <- (pos_t a (cur a k) (bkt k)) by (apply cur_lt; exact G); fold (cpos a k1) (cpos a k); congruence).
  rewrite D1. f_equal. f_equal. rewrite !(cur_eq hp hash a _ G) in D2.
  assert (Z : forall k, (X k mod 2 ^ (if split hp hash a k then rpow a else rpow a - 1)) mod 2 ^ (if expg a then rpow a - 1 else rpow a) = X k mod 2 ^ (if expg a then rpow a - 1 else rpow a)).
  { intro k'. destruct (expg a) eqn:E'; [destruct (split hp hash a k'); apply mod_mod_pow; lia|]. unfold split. rewrite E'. cbn [negb orb]. apply mod_mod_pow. lia. }
  rewrite <- Z, D2, Z. reflexivity.
Qed.
Lemma pair_le a m p : base a m -> expg a = true -> N.even p = true -> exists h, N.of_nat (length (seg a 2 p)) <= crowd a m h.
Proof.
  intros B E EV. assert (G : geo a) by apply (b_geo hp hash a m B).
  destruct (its (chain_at a p)) as [|(k1, v1) r] eqn:F.
  - cbn [seg]. rewrite F, app_nil_r. apply chain_le. exact B.
  - exists (hash k1 mod 2 ^ low_bits a). assert (I1 : In (k1, v1) (its (chain_at a p))) by (rewrite F; left; reflexivity). apply (key_at a m _ _ _ B) in I1 as [_ C1].
    apply group_le; [|apply (seg_nodup a m 2 B)]. intros (k, v) H. apply (seg_in a m 2 B) in H as [H C]. split; [exact H|]. cbn [fst].
    apply (same_low a k1 k G); [left; rewrite C1; exact EV|]. rewrite C1. change (N.of_nat 2) with 2 in C. destruct (N.eq_dec (cpos a k) p); [left; assumption|right; split; [exact E|lia]].
Qed.

Lemma next_pos a p : geo a -> let t := revn (pw a) (p mod rsize a) in
  next_tabidx a t = revn (pw a) ((p + 1) mod rsize a) /\
  (if next_tabidx a t =? 0 then (p + 1) / rsize a = p / rsize a + 1 else (p + 1) / rsize a = p / rsize a).
Proof.
  intros G t. pose proof (rsize_pos a) as RP. assert (T : t < rsize a) by (rewrite rsize_pw; apply revn_lt).
  rewrite (next_tabidx_rinc a t (g_pow hp a G) T). fold (pw a). unfold rinc. rewrite <- rsize_pw.
  assert (R : revn (pw a) t = p mod rsize a) by (unfold t; apply revn_invol; rewrite <- rsize_pw; apply N.mod_upper_bound; lia). rewrite R.
  pose proof (N.mod_upper_bound p (rsize a) ltac:(lia)) as U. pose proof (N.div_mod p (rsize a) ltac:(lia)) as DM. set (q := p / rsize a) in *. set (r := p mod rsize a) in *.
  destruct (r + 1 <? rsize a) eqn:C.
  - assert (E : (p + 1) mod rsize a = r + 1) by (symmetry; apply N.mod_unique with (q := q); lia). rewrite E. split; [reflexivity|].
    assert (NZ : revn (pw a) (r + 1) <> 0). { intro Z. assert (r + 1 = 0); [|lia]. apply (revn_inj (pw a)); [rewrite <- rsize_pw; lia|rewrite <- rsize_pw; lia|rewrite revn_0; exact Z]. }
    apply N.eqb_neq in NZ. rewrite NZ. symmetry. apply N.div_unique with (r := r + 1); lia.
  - assert (E : (p + 1) mod rsize a = 0) by (symmetry; apply N.mod_unique with (q := q + 1); lia). rewrite E, revn_0. split; [reflexivity|]. cbn [N.eqb].
    symmetry. apply N.div_unique with (r := 0); lia.
Qed.

Lemma loop_ok a m req asz : base a m -> fits a m req asz -> forall fuel p hc out,
  p < last_pos a ->
  (hc < req * 4 + 1 \/ hc = req * 4 + 1 /\ (expg a = true -> N.even p = true)) -> (req * 4 + 2 <= hc + N.of_nat fuel) ->
  (expg a = true -> N.even p = false -> N.of_nat (length out) + N.of_nat (length (its (chain_at a p))) <= asz) ->
  exists n, direct_loop hp fuel a req asz (revn (pw a) (p mod rsize a)) (p / rsize a) hc out =
      Some (out ++ seg a n p, revn (pw a) ((p + N.of_nat n) mod rsize a), (p + N.of_nat n) / rsize a) /\
    p + N.of_nat n <= last_pos a /\ (p + N.of_nat n = last_pos a \/ (expg a = true -> N.even (p + N.of_nat n) = true)) /\
    (0 < req -> hc = 0 -> out = [] -> (0 < n)%nat).
Proof.
  intros B FT. assert (G : geo a) by apply (b_geo hp hash a m B). pose proof (rsize_pos a) as RP.
  induction fuel as [|fuel IH]; intros p hc out PL HC FU OD; [exfalso; cbn in FU; lia|]. cbn [direct_loop].
  set (t := revn (pw a) (p mod rsize a)). set (b := p / rsize a).
  destruct (((N.of_nat (length out) <? req) && (hc <? req * 4)) || (expg a && (pmask a <? t))) eqn:COND.
  2:{ exists O. cbn [seg N.of_nat]. rewrite app_nil_r, N.add_0_r. split; [reflexivity|]. split; [lia|]. apply orb_false_iff in COND as [C1 C2]. split.
      - right. intro E. rewrite E in C2. cbn [andb] in C2. unfold t in C2. rewrite (over_odd a p G E) in C2. apply negb_false_iff in C2. exact C2.
      - intros R -> ->. cbn [length N.of_nat] in C1. exfalso. lia. }
  assert (ROOM : N.of_nat (length out) + N.of_nat (length (its (chain_at a p))) <= asz).
  { destruct (expg a && (pmask a <? t)) eqn:C2.
    - apply andb_true_iff in C2 as [E C2]. unfold t in C2. rewrite (over_odd a p G E) in C2. apply negb_true_iff in C2. apply OD; assumption.
    - rewrite orb_false_r in COND. apply andb_true_iff in COND as [C1 _]. destruct (chain_le a m p B) as (h & LE). specialize (FT h). lia. }
  change (tab a t b) with (chain_at a p). rewrite (collect_ok asz _ _ ROOM).
  destruct (next_pos a p G) as [NT NB]. fold t in NT, NB. fold b in NB.
  set (out' := out ++ its (chain_at a p)).
  assert (END : (p + 1) / rsize a = hsize <-> p + 1 = last_pos a).
  { unfold last_pos. split; intro H.
    - pose proof (N.div_mod (p + 1) (rsize a) ltac:(lia)) as DM. rewrite H in DM. unfold last_pos in PL. lia.
    - rewrite H. apply N.div_mul. lia. }
  assert (BLT : b < hsize) by (apply N.div_lt_upper_bound; [lia|]; unfold last_pos in PL; lia).
  assert (HC' : hc + 1 < req * 4 + 1 \/ hc + 1 = req * 4 + 1 /\ (expg a = true -> N.even (p + 1) = true)).
  { destruct (N.lt_ge_cases (hc + 1) (req * 4 + 1)) as [L|L]; [left; exact L|]. right.
    apply orb_true_iff in COND as [C|C]; [exfalso; lia|]. apply andb_true_iff in C as [E C].
    unfold t in C. rewrite (over_odd a p G E) in C. apply negb_true_iff in C. destruct HC as [HC|[HC HE]].
    - split; [lia|]. intros _. rewrite N.add_1_r, N.even_succ. rewrite <- N.negb_even, C. reflexivity.
    - rewrite (HE E) in C. discriminate. }
  assert (OD' : expg a = true -> N.even (p + 1) = false -> N.of_nat (length out') + N.of_nat (length (its (chain_at a (p + 1)))) <= asz).
  { intros E EV. assert (EP : N.even p = true) by (rewrite N.add_1_r, N.even_succ, <- N.negb_even in EV; apply negb_false_iff; exact EV).
    assert (C2 : expg a && (pmask a <? t) = false) by (unfold t; rewrite E, (over_odd a p G E), EP; reflexivity).
    rewrite C2, orb_false_r in COND. apply andb_true_iff in COND as [C1 _]. destruct (pair_le a m p B E EP) as (h & LE). cbn [seg] in LE. rewrite app_nil_r, app_length in LE.
    unfold out'. rewrite app_length. specialize (FT h). lia. }
  destruct (next_tabidx a t =? 0) eqn:Z.
  - destruct (hsize <=? b + 1) eqn:LAST.
    + exists 1%nat. cbn [seg]. rewrite app_nil_r. change (N.of_nat 1) with 1. rewrite NB, <- NT. split; [reflexivity|].
      assert (p + 1 = last_pos a) by (apply END; lia). split; [lia|]. split; [left; assumption|lia].
    + assert (P1 : p + 1 < last_pos a). { assert (p + 1 <> last_pos a) by (intro Q; apply END in Q; lia). lia. }
      rewrite NT, <- NB. destruct (IH (p + 1) (hc + 1) out' P1 HC' ltac:(lia) OD') as (n & R & L1 & L2 & _).
      exists (S n). rewrite R. unfold out'. cbn [seg]. rewrite <- app_assoc. rewrite Nat2N.inj_succ.
      replace (p + N.succ (N.of_nat n)) with (p + 1 + N.of_nat n) by lia. repeat split; try assumption; lia.
  - assert (P1 : p + 1 < last_pos a). { assert (p + 1 <> last_pos a) by (intro Q; apply END in Q; lia). lia. }
    rewrite NT, <- NB. destruct (IH (p + 1) (hc + 1) out' P1 HC' ltac:(lia) OD') as (n & R & L1 & L2 & _).
    exists (S n). rewrite R. unfold out'. cbn [seg]. rewrite <- app_assoc. rewrite Nat2N.inj_succ.
    replace (p + N.succ (N.of_nat n)) with (p + 1 + N.of_nat n) by lia. repeat split; try assumption; lia.
Qed.
End Direct.
