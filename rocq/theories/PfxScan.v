(* Iterations of SCAN PREFIX: calls with other operations in between. *)
From Verif Require Import Base UtilModel UtilProofs KvModel KvSpec KvRefine PfxModel PfxSpec PfxProofs PfxRun PfxHist PfxAll PfxView.
From Verif Require AssocDirect.
Local Open Scope N_scope.

Section P.
Variable hash : bytes -> N.
Notation inv := (inv hash).

(* a client's scan from cursor [cur]: before each call other operations run.  names: what the calls
   return; contents: what is stored at each call; the boolean: cursor 0 was returned, the scan is over *)
Inductive session : pstate -> store -> list N -> bytes -> list (option bytes) -> list store -> bool -> Prop :=
| ses_none s l hd cur : session s l hd cur [] [] false
| ses_last s l hd cur ops s1 outs req asz s2 ids :
    prun hash s ops = Some (s1, outs) -> legal l hd ops outs -> 0 < req ->
    pstep hash s1 (PScan cur req asz) = Some (s2, PNames (PScanned [48] ids)) ->
    session s l hd cur (map (name_of s2) ids) [stored l ops outs] true
| ses_more s l hd cur ops s1 outs req asz s2 ids cur' ns cs e :
    prun hash s ops = Some (s1, outs) -> legal l hd ops outs -> 0 < req ->
    pstep hash s1 (PScan cur req asz) = Some (s2, PNames (PScanned cur' ids)) -> cur' <> [48] ->
    session s2 (stored l ops outs) (ids ++ held hd ops outs) cur' ns cs e ->
    session s l hd cur (map (name_of s2) ids ++ ns) (stored l ops outs :: cs) e.

Definition nbucket (q : option bytes) : N := match q with None => 0 | Some n => pbucket hash n end.

Lemma name_eqr s s' p : eqr s s' -> name_of s' p = name_of s p.
Proof.
  intros (_ & _ & _ & _ & _ & E). unfold name_of. specialize (E p). destruct (heap s p), (heap s' p); try tauto.
  destruct E as (n & ->). reflexivity.
Qed.

Lemma nodup_app {A} (l r : list A) : NoDup l -> NoDup r -> (forall x, In x l -> In x r -> False) -> NoDup (l ++ r).
Proof.
  intros L R D. induction L as [|x l N L IH]; [exact R|]. cbn. constructor.
  - intro Q. apply in_app_iff in Q as [Q|Q]; [contradiction|]. apply (D x); [left; reflexivity|exact Q].
  - apply IH. intros y Y. apply D. right. exact Y.
Qed.

Section View.
Variables (s : pstate) (hd : list N).
Hypothesis IV : inv 0 s hd.
Hypothesis F : fits (abs (its s)).
Hypothesis K : keys_ok (abs (its s)).

Lemma bucket_sound c p : In p (bucket_names s c) ->
  nbucket (name_of s p) = c /\ under (name_of s p) (abs (its s)) <> [] /\ name_of s p <> Some hidden.
Proof.
  unfold bucket_names. rewrite in_app_iff. destruct (I_null _ _ _ _ IV) as (z & Z & ZL). intros [H|H].
  - destruct (N.eqb_spec c 0) as [->|]; [|destruct H]. unfold null_shown in H. rewrite Z in H. destruct (pempty z) eqn:E; [destruct H|].
    destruct H as [<-|[]]. split; [reflexivity|]. split; [|discriminate]. apply (count_under hash s hd IV F K 0 z Z); [auto|].
    unfold pempty in E. apply N.eqb_neq in E. apply N.ltb_lt. lia.
  - apply filter_In in H as [H S]. destruct (I_cell _ _ _ _ IV _ _ H) as (x & X & L & B). destruct (named hash s hd IV p x X L) as [NM P0].
    rewrite NM. split; [exact B|]. split; [apply (linked_used hash s hd IV K p); assumption|].
    unfold shown in S. rewrite X in S. apply negb_true_iff, orb_false_iff in S as [S _]. rewrite (I_intl _ _ _ _ IV p x X P0) in S.
    intro Q. injection Q as Q. rewrite Q in S. discriminate.
Qed.
Lemma bucket_complete q : under q (abs (its s)) <> [] -> q <> Some hidden -> In q (map (name_of s) (bucket_names s (nbucket q))).
Proof.
  intros U NH. apply in_map_iff. destruct (I_null _ _ _ _ IV) as (z & Z & ZL). unfold bucket_names. destruct q as [n|].
  - pose proof U as U2. apply under_in in U as (i & h & IN & E). pose proof (I_items _ _ _ _ IV _ _ IN) as A. rewrite (key_pfx s K _ _ IN), E in A.
    destruct A as (x & X & L & NM). exists (ptr h). destruct (named hash s hd IV _ x X L) as [N1 P0]. split; [congruence|]. apply in_app_iff. right. apply filter_In. split.
    + cbn [nbucket]. rewrite <- NM. apply (I_conv _ _ _ _ IV _ _ X L).
    + unfold shown. rewrite X, (I_intl _ _ _ _ IV _ x X P0). apply negb_true_iff, orb_false_iff. split.
      * unfold reserved. destruct (beqb (pname x) [97; 114; 99; 117; 115]) eqn:B; [|reflexivity]. apply beqb_eq in B. exfalso. apply NH. unfold hidden. congruence.
      * unfold pempty. apply N.eqb_neq.
        assert (C : (0 <? tcnt x) = true) by (apply (count_under hash s hd IV F K _ x X); [auto|rewrite N1, NM; exact U2]). apply N.ltb_lt in C. lia.
  - exists 0. split; [reflexivity|]. apply in_app_iff. left. cbn [nbucket N.eqb]. unfold null_shown. rewrite Z.
    assert (C : (0 <? tcnt z) = true) by (apply (count_under hash s hd IV F K 0 z Z); [auto|exact U]). apply N.ltb_lt in C.
    unfold pempty. replace (tcnt z =? 0) with false by (symmetry; apply N.eqb_neq; lia). left. reflexivity.
Qed.
Lemma bucket_nodup c : NoDup (map (name_of s) (bucket_names s c)).
Proof.
  unfold bucket_names. rewrite map_app. destruct (I_null _ _ _ _ IV) as (z & Z & ZL). apply nodup_app.
  - destruct (c =? 0); [|constructor]. unfold null_shown. rewrite Z. destruct (pempty z); cbn; repeat constructor. intros [].
  - assert (H : forall p, In p (buck s c) -> exists x, heap s p = Some x /\ plinked x = true /\ name_of s p = Some (pname x)).
    { intros p P. destruct (I_cell _ _ _ _ IV _ _ P) as (x & X & L & _). exists x. destruct (named hash s hd IV p x X L). auto. }
    generalize (I_nodup _ _ _ _ IV c) H. generalize (buck s c). clear H. induction l as [|p l IH]; intros N H; [constructor|]. inversion N; subst. cbn [filter].
    assert (IHl : NoDup (map (name_of s) (filter (shown (heap s)) l))) by (apply IH; [assumption|intros q Q; apply H; right; exact Q]).
    destruct (shown (heap s) p); [|exact IHl]. cbn [map]. constructor; [|exact IHl]. intro Q. apply in_map_iff in Q as (r & R1 & R2). apply filter_In in R2 as [R2 _].
    destruct (H p) as (x & X & XL & XN); [left; reflexivity|]. destruct (H r) as (y & Y & YL & YN); [right; exact R2|].
    assert (p = r) by (apply (I_names _ _ _ _ IV p r x y X Y XL YL); congruence). subst r. contradiction.
  - intros q Q1 Q2. apply in_map_iff in Q2 as (p & P1 & P2). apply filter_In in P2 as [P2 _]. destruct (I_cell _ _ _ _ IV _ _ P2) as (x & X & L & _).
    destruct (named hash s hd IV p x X L) as [NM _]. apply in_map_iff in Q1 as (p' & P1' & P2'). destruct (c =? 0); [|destruct P2']. unfold null_shown in P2'.
    rewrite Z in P2'. destruct (pempty z); [destruct P2'|]. destruct P2' as [<-|[]]. change (name_of s 0) with (@None bytes) in P1'. congruence.
Qed.

Lemma range_in n : forall b c, In c (range b n) <-> b <= c < b + N.of_nat n.
Proof.
  induction n as [|n IH]; intros b c; cbn [range In]; [lia|]. rewrite IH. lia.
Qed.
Lemma range_names n : forall b, let ns := map (name_of s) (flat_map (bucket_names s) (range b n)) in
  NoDup ns /\ (forall q, In q ns -> b <= nbucket q < b + N.of_nat n /\ under q (abs (its s)) <> [] /\ q <> Some hidden) /\
  (forall q, b <= nbucket q < b + N.of_nat n -> under q (abs (its s)) <> [] -> q <> Some hidden -> In q ns).
Proof.
  induction n as [|n IH]; intro b; cbn [range flat_map]; cbv zeta.
  - cbn [map]. split; [constructor|]. split; [intros q []|]. lia.
  - rewrite map_app. destruct (IH (b + 1)) as (A & B & C). split; [|split].
    + apply nodup_app; [apply bucket_nodup|exact A|]. intros q Q1 Q2. apply B in Q2 as [Q2 _]. apply in_map_iff in Q1 as (p & <- & P).
      apply bucket_sound in P as [P _]. lia.
    + intros q Q. apply in_app_iff in Q as [Q|Q].
      * apply in_map_iff in Q as (p & <- & P). apply bucket_sound in P as (P1 & P2). split; [lia|exact P2].
      * apply B in Q as (Q1 & Q2). split; [lia|exact Q2].
    + intros q Q U H. apply in_app_iff. destruct (N.eq_dec (nbucket q) b) as [E|E].
      * left. rewrite <- E. apply bucket_complete; assumption.
      * right. apply C; [lia|assumption|assumption].
Qed.
End View.

Lemma nbucket_lt q : nbucket q < 1024.
Proof. destruct q as [n|]; cbn; [apply pbucket_lt|lia]. Qed.

Lemma dec_zero n : n < 2 ^ 32 -> dec_text n = [48] -> n = 0.
Proof. intros N E. pose proof (AssocDirect.strtoul_dec_text n N) as H. rewrite E in H. vm_compute in H. congruence. Qed.


(* one call *)
Lemma call_ok s hd cur b req asz s2 cur' ids : inv 0 s hd -> fits (abs (its s)) -> keys_ok (abs (its s)) ->
  safe_strtoul cur = Some b -> b < 1024 -> 0 < req ->
  pstep hash s (PScan cur req asz) = Some (s2, PNames (PScanned cur' ids)) ->
  exists b', b < b' <= 1024 /\ (cur' = [48] -> b' = 1024) /\ (cur' <> [48] -> safe_strtoul cur' = Some b' /\ b' < 1024) /\
    inv 0 s2 (ids ++ hd) /\ its s2 = its s /\
    let ns := map (name_of s2) ids in
    NoDup ns /\ (forall q, In q ns -> b <= nbucket q < b' /\ under q (abs (its s)) <> [] /\ q <> Some hidden) /\
    (forall q, b <= nbucket q < b' -> under q (abs (its s)) <> [] -> q <> Some hidden -> In q ns).
Proof.
  intros I F K C B R P. cbn [pstep] in P. destruct (prefix_scan s cur req asz) as [[s' r]|] eqn:E; [|discriminate]. injection P as <- ->.
  unfold prefix_scan in E. destruct ((asz =? 0) || (asz <? req)); [discriminate|]. rewrite C in E.
  replace (1024 <=? b) with false in E by (symmetry; apply N.leb_gt; exact B).
  destruct (scan_loop 1025 s b req asz 0 []) as [[[s1 out] b']|] eqn:SL; [|discriminate].
  injection E as <- <- <-. apply (scan_loop_ok hash 0) with (hd := hd) in SL as (I1 & E1 & BB & EO & ADV); [|exact I|exact B].
  cbn [app] in EO. exists b'.
  assert (BLT : b < b').
  { apply ADV. cbn [length N.of_nat]. apply andb_true_iff. split; apply N.ltb_lt; lia. }
  split; [lia|].
  assert (D : (if 1024 <=? b' then 0 else b') < 2 ^ 32) by (destruct (N.leb_spec 1024 b'); [reflexivity|change (2^32) with 4294967296; lia]).
  split; [|split; [|split; [|split]]].
  - intro Q. apply dec_zero in Q; [|exact D]. destruct (N.leb_spec 1024 b'); [|exfalso; lia]. lia.
  - intro Q. destruct (N.leb_spec 1024 b'); [exfalso; apply Q; reflexivity|]. split; [apply AssocDirect.strtoul_dec_text; exact D|lia].
  - exact I1.
  - destruct E1 as (_ & _ & _ & E4 & _). exact E4.
  - assert (EN : map (name_of s1) out = map (name_of s) out) by (apply map_ext; intro; apply name_eqr; exact E1). rewrite EN, EO. clear EN.
    pose proof (range_names s hd I F K (N.to_nat (b' - b)) b) as RN. cbv zeta in RN. rewrite N2Nat.id in RN. replace (b + (b' - b)) with b' in RN by lia. exact RN.
Qed.

Lemma session_ok s l hd cur ns cs e : session s l hd cur ns cs e -> forall b, inv 0 s hd -> fits (abs (its s)) -> keys_ok (abs (its s)) -> l = abs (its s) ->
  safe_strtoul cur = Some b -> b < 1024 ->
  NoDup ns /\ (N.of_nat (length cs) <= 1024 - b) /\
  (forall q, In q ns -> b <= nbucket q /\ q <> Some hidden /\ Exists (fun c => under q c <> []) cs) /\
  (e = true -> forall q, b <= nbucket q -> q <> Some hidden -> Forall (fun c => under q c <> []) cs -> In q ns).
Proof.
  induction 1 as [s l hd cur|s l hd cur ops s1 outs req asz s2 ids R L RQ P|s l hd cur ops s1 outs req asz s2 ids cur' ns cs e R L RQ P NZ S IH]; intros b I F K -> C B.
  - split; [constructor|]. split; [cbn; lia|]. split; [intros q []|discriminate].
  - destruct (run_ok hash ops s hd s1 outs I F L R) as (I1 & A1 & F1 & _). pose proof (stored_keys ops _ _ _ L K) as K1. rewrite <- A1 in K1.
    destruct (call_ok s1 _ cur b req asz s2 [48] ids I1 F1 K1 C B RQ P) as (b' & BB & Z1 & _ & I2 & E2 & ND & SO & CO). rewrite <- A1.
    specialize (Z1 eq_refl). subst b'. split; [exact ND|]. split; [cbn [length]; lia|]. split.
    + intros q Q. apply SO in Q as (Q1 & Q2 & Q3). split; [lia|]. split; [exact Q3|]. left. exact Q2.
    + intros _ q Q1 Q2 Q3. inversion Q3; subst. apply CO; [|assumption|assumption]. pose proof (nbucket_lt q). lia.
  - destruct (run_ok hash ops s hd s1 outs I F L R) as (I1 & A1 & F1 & _). pose proof (stored_keys ops _ _ _ L K) as K1. rewrite <- A1 in K1.
    destruct (call_ok s1 _ cur b req asz s2 cur' ids I1 F1 K1 C B RQ P) as (b' & BB & _ & Z2 & I2 & E2 & ND & SO & CO). destruct (Z2 NZ) as [Z3 Z4].
    specialize (IH b'). rewrite <- A1 in IH. rewrite <- E2 in F1, K1. rewrite <- E2 in IH at 1. specialize (IH I2 F1 K1 eq_refl Z3 Z4).
    destruct IH as (J1 & J2 & J3 & J4). rewrite <- A1. split; [|split; [|split]].
    + apply nodup_app; [exact ND|exact J1|]. intros q Q1 Q2. apply SO in Q1 as [Q1 _]. apply J3 in Q2 as [Q2 _]. lia.
    + cbn [length]. lia.
    + intros q Q. apply in_app_iff in Q as [Q|Q].
      * apply SO in Q as (Q1 & Q2 & Q3). split; [lia|]. split; [exact Q3|]. left. exact Q2.
      * apply J3 in Q as (Q1 & Q2 & Q3). split; [lia|]. split; [exact Q2|]. right. exact Q3.
    + intros T q Q1 Q2 Q3. inversion Q3; subst. apply in_app_iff. destruct (N.lt_ge_cases (nbucket q) b') as [LT|GE].
      * left. apply CO; [lia|assumption|assumption].
      * right. apply J4; [reflexivity|exact GE|exact Q2|assumption].
Qed.

(* ---------- when a call works ---------- *)
Lemma scan_chain_full l asz : forall s out, (forall p, In p l -> heap s p <> None) -> (length (filter (shown (heap s)) l) + length out > N.to_nat asz)%nat -> (length out <= N.to_nat asz)%nat ->
  scan_chain s l asz out = None.
Proof.
  induction l as [|p l IH]; intros s out A G O; cbn [scan_chain filter] in *; [cbn [length] in G; lia|].
  destruct (heap s p) as [x|] eqn:X; [|reflexivity]. unfold shown in G at 1. rewrite X in G. destruct (pint x || pempty x); cbn [negb] in G.
  - apply IH; [intros; apply A; right; assumption|exact G|exact O].
  - destruct (asz <=? N.of_nat (length out)) eqn:Q; [reflexivity|]. apply N.leb_gt in Q. destruct (ref_incr s p) as [s'|] eqn:R; [|reflexivity].
    assert (E : forall q, shown (heap s') q = shown (heap s) q).
    { intro q. unfold ref_incr in R. destruct (p =? 0); [injection R as <-; reflexivity|]. rewrite X in R. destruct (pref x <? 65535); [|discriminate]. injection R as <-.
      unfold shown. cbn [w_heap heap]. unfold hset. destruct (N.eqb_spec q p) as [->|]; [|reflexivity]. rewrite X. reflexivity. }
    apply IH.
    + intros q Q2. unfold ref_incr in R. destruct (p =? 0); [injection R as <-; apply A; right; exact Q2|]. rewrite X in R. destruct (pref x <? 65535); [|discriminate]. injection R as <-.
      cbn [w_heap heap]. unfold hset. destruct (q =? p); [discriminate|]. apply A. right. exact Q2.
    + rewrite app_length. cbn [length] in *. rewrite (filter_ext _ _ E). lia.
    + rewrite app_length. cbn [length]. lia.
Qed.
Lemma scan_chain_works e l asz : forall s hd out, inv e s (out ++ hd) -> (forall p, In p l -> heap s p <> None) ->
  (length l + length out <= N.to_nat asz)%nat -> (forall p, In p l -> N.of_nat (count_occ N.eq_dec (out ++ hd) p) < 65535) -> NoDup l -> (forall p, In p l -> p <> 0) ->
  scan_chain s l asz out <> None.
Proof.
  induction l as [|p l IH]; intros s hd out I A LE CT ND NZ; cbn [scan_chain]; [discriminate|].
  destruct (heap s p) as [x|] eqn:X; [|exfalso; apply (A p); [left; reflexivity|exact X]].
  assert (GO : forall s0, inv e s0 (out ++ hd) -> (forall q, In q l -> heap s0 q <> None) -> scan_chain s0 l asz out <> None).
  { intros s0 I0 A0. apply (IH s0 hd); auto.
    - cbn [length] in LE. lia.
    - intros q Q. apply CT. right. exact Q.
    - inversion ND; assumption.
    - intros q Q. apply NZ. right. exact Q. }
  destruct (pint x || pempty x).
  - apply GO; [exact I|]. intros q Q. apply A. right. exact Q.
  - replace (asz <=? N.of_nat (length out)) with false by (symmetry; apply N.leb_gt; cbn [length] in LE; lia).
    destruct (ref_incr s p) as [s'|] eqn:R.
    + destruct (ref_incr_ok hash e s (out ++ hd) p s' I R) as [I' E]. apply perm_hd in I'. inversion ND; subst. apply (IH s' hd).
      * exact I'.
      * intros q Q. destruct E as (_ & _ & _ & _ & _ & E). specialize (E q). specialize (A q (or_intror Q)). destruct (heap s q), (heap s' q); try tauto. discriminate.
      * rewrite app_length. cbn [length] in *. lia.
      * intros q Q. specialize (CT q (or_intror Q)). rewrite <- app_assoc, count_occ_app. cbn [app count_occ]. destruct (N.eq_dec p q); [congruence|]. rewrite count_occ_app in CT. exact CT.
      * assumption.
      * intros q Q. apply NZ. right. exact Q.
    + exfalso. unfold ref_incr in R. destruct (N.eqb_spec p 0) as [->|P0]; [discriminate|]. rewrite X in R.
      rewrite (I_held _ _ _ _ I p x X P0) in R. specialize (CT p (or_introl eq_refl)). apply N.ltb_lt in CT. rewrite CT in R. discriminate.
Qed.

(* at most [m] prefixes in a chain *)
Definition chains (s : pstate) (m : nat) : Prop := forall b, (length (buck s b) <= m)%nat.

Lemma scan_loop_works e req asz m f : forall s hd b hc out, inv e s (out ++ hd) -> b < 1024 -> chains s m -> (m + N.to_nat req <= N.to_nat asz)%nat ->
  (length out <= N.to_nat asz)%nat ->
  (forall p, N.of_nat (count_occ N.eq_dec hd p) < 65535) -> (forall p, In p out -> p = 0 \/ exists c, c < b /\ In p (buck s c)) ->
  (N.to_nat (1024 - b) < f)%nat -> scan_loop f s b req asz hc out <> None.
Proof.
  induction f as [|f IH]; intros s hd b hc out I B CH M LO CT OUT FU; [lia|]. cbn [scan_loop].
  destruct (N.of_nat (length out) <? req) eqn:Q; cbn [andb]; [|discriminate]. destruct (hc <? req * 4); [|discriminate].
  destruct (I_null _ _ _ _ I) as (z & Z & ZL). rewrite Z. apply N.ltb_lt in Q.
  set (out1 := if (b =? 0) && negb (pempty z) then out ++ [0] else out).
  assert (I1 : inv e s (out1 ++ hd)).
  { unfold out1. destruct ((b =? 0) && negb (pempty z)); [|exact I]. apply perm_hd. destruct (ref_incr_ok hash e s (out ++ hd) 0 s I) as [I' _]; [reflexivity|exact I']. }
  assert (L1 : (length out1 <= N.to_nat req)%nat). { unfold out1. destruct ((b =? 0) && negb (pempty z)); rewrite ?app_length; cbn [length]; lia. }
  assert (O1 : forall p, In p out1 -> p = 0 \/ exists c, c < b /\ In p (buck s c)).
  { unfold out1. destruct ((b =? 0) && negb (pempty z)); [|exact OUT]. intros p P. apply in_app_iff in P as [P|[<-|[]]]; auto. }
  assert (NZ : forall p, In p (buck s b) -> p <> 0).
  { intros p P ->. destruct (I_cell _ _ _ _ I _ _ P) as (x & X & XL & _). congruence. }
  assert (NO : forall p, In p (buck s b) -> ~ In p out1).
  { intros p P O. apply O1 in O as [->|(c & C1 & C2)]; [apply (NZ 0 P eq_refl)|]. destruct (I_cell _ _ _ _ I _ _ P) as (x & X & XL & XB).
    destruct (I_cell _ _ _ _ I _ _ C2) as (y & Y & YL & YB). assert (x = y) by congruence. subst y. lia. }
  destruct (scan_chain s (buck s b) asz out1) as [[s' out2]|] eqn:SC.
  - destruct (scan_chain_ok hash e (buck s b) asz s hd out1 s' out2 I1 SC) as (I2 & E2 & EO). destruct (1024 <=? b + 1) eqn:BB; [discriminate|]. apply N.leb_gt in BB.
    pose proof E2 as (_ & EB & _). apply (IH s' hd).
    + exact I2.
    + exact BB.
    + intro c. rewrite EB. apply CH.
    + exact M.
    + rewrite EO, app_length. pose proof (filter_le (shown (heap s)) (buck s b)) as FL. specialize (CH b). lia.
    + exact CT.
    + intros p P. rewrite EO in P. apply in_app_iff in P as [P|P].
      * destruct (O1 p P) as [->|(c & C1 & C2)]; [auto|]. right. exists c. rewrite EB. split; [lia|exact C2].
      * apply filter_In in P as [P _]. right. exists b. rewrite EB. split; [lia|exact P].
    + lia.
  - exfalso. revert SC. apply (scan_chain_works e (buck s b) asz s hd out1).
    + exact I1.
    + intros p P. destruct (I_cell _ _ _ _ I _ _ P) as (x & X & _). congruence.
    + specialize (CH b). lia.
    + intros p P. rewrite count_occ_app. replace (count_occ N.eq_dec out1 p) with 0%nat; [apply CT|]. symmetry. apply count_occ_not_In. apply NO, P.
    + apply (I_nodup _ _ _ _ I).
    + exact NZ.
Qed.

Lemma call_works e s hd m cur b req asz : inv e s hd -> chains s m -> (m + N.to_nat req <= N.to_nat asz)%nat -> 0 < req ->
  (forall p, N.of_nat (count_occ N.eq_dec hd p) < 65535) -> safe_strtoul cur = Some b -> exists s2 cur' ids, pstep hash s (PScan cur req asz) = Some (s2, PNames (PScanned cur' ids)).
Proof.
  intros I CH M R CT C. cbn [pstep]. unfold prefix_scan. replace (asz =? 0) with false by (symmetry; apply N.eqb_neq; lia).
  replace (asz <? req) with false by (symmetry; apply N.ltb_ge; lia). cbn [orb]. rewrite C. destruct (1024 <=? b) eqn:B; [eauto|]. apply N.leb_gt in B.
  destruct (scan_loop 1025 s b req asz 0 []) as [[[s1 out] b']|] eqn:SL; [eauto|]. exfalso. revert SL.
  apply (scan_loop_works e req asz m 1025 s hd b 0 []); auto; try (cbn [length]; lia). intros p [].
Qed.
End P.
