(* Which server is responsible for a key. *)
From Coq Require Import String Ascii.
From Verif Require Import Base UtilModel KtModel KtSpec KtProofs KtRing KtInv KtReach.
From Coq Require Import List Permutation Sorted.
Local Open Scope nat_scope.
Local Open Scope list_scope.

(* ---------- the specification is sound ---------- *)
Section Owner.
Variable md5 : bytes -> bytes.
Hypothesis D : digest_ok md5.

(* a list has a least element *)
Lemma least (g : N -> N) (l : list (N * bytes)) : l <> [] ->
  exists x, In x l /\ forall y, In y l -> (g (fst x) < g (fst y))%N \/ g (fst x) = g (fst y) /\ before (snd x) (snd y).
Proof.
  induction l as [|a [|b r] IH]; intros NE; [congruence| |].
  - exists a. split; [now left|]. intros y [<-|[]]. right. split; auto. destruct (before_total (snd a) (snd a)); auto.
  - destruct IH as (x & X & H); [discriminate|].
    destruct (N.lt_trichotomy (g (fst a)) (g (fst x))) as [Q|[Q|Q]].
    2: destruct (before_total (snd a) (snd x)) as [B|B].
    1, 2: exists a; split; [now left|]; intros y [<-|Y]; [right; split; auto; destruct (before_total (snd a) (snd a)); auto|].
    + destruct (H y Y) as [H1|[H1 H2]]; left; [eapply N.lt_trans; eauto|now rewrite <- H1].
    + rewrite Q. destruct (H y Y) as [H1|[H1 H2]]; [now left|right]. split; auto. eapply before_trans; eauto.
    + exists x. split; [now right|]. intros y [<-|Y]; [|now apply H]. right. auto.
    + exists x. split; [now right|]. intros y [<-|Y]; [|now apply H]. now left.
Qed.
(* every key has exactly one owner *)
Theorem C54_one_owner names key : names <> [] -> exists n, owner md5 names key n /\ forall m, owner md5 names key m -> m = n.
Proof.
  intros NE.
  set (all := flat_map (fun n => map (fun p => (p, n)) (gen_node md5 n)) names).
  assert (AI : forall p n, In (p, n) all <-> In n names /\ point_of md5 n p).
  { intros p n. unfold all. rewrite in_flat_map. split.
    - intros (m & M & H). apply in_map_iff in H. destruct H as (q & E & H). injection E as -> ->. split; [exact M|exact (proj1 (gen_node_in md5 D n p) H)].
    - intros [H1 H2]. exists n. split; auto. apply in_map_iff. exists p. split; [reflexivity|exact (proj2 (gen_node_in md5 D n p) H2)]. }
  assert (NA : all <> []).
  { destruct names as [|n r]; [congruence|]. intros E.
    assert (Q : In (quarter (md5 (n ++ [45%N] ++ dec_text (N.of_nat 0))) 0, n) all).
    { apply AI. split; [now left|]. exists 0, 0. split; [|split; [|reflexivity]]; apply Nat.ltb_lt; reflexivity. }
    now rewrite E in Q. }
  destruct (least (ahead (position md5 key)) all NA) as ([p n] & I & H). apply AI in I. destruct I as [I1 I2]. cbn [fst snd] in H.
  assert (O : owner md5 names key n).
  { split; auto. exists p. split; auto. intros m q M Q. apply (H (q, m)). apply AI. auto. }
  exists n. split; auto. intros m M. eapply owner_unique; eauto.
Qed.
Lemma owner_perm L M key n : Permutation L M -> owner md5 L key n -> owner md5 M key n.
Proof.
  intros P (I & p & H1 & H2). split; [eapply Permutation_in; eauto|]. exists p. split; auto. intros m q X. apply H2. eapply Permutation_in; [symmetry; exact P|exact X].
Qed.
(* C55: a key moves only away from a server that leaves or to a server that joins *)
Theorem C55_moves L M key n m : owner md5 L key n -> owner md5 M key m -> n = m \/ ~ In n M \/ ~ In m L.
Proof.
  intros (I1 & p & P & H1) (I2 & q & Q & H2). destruct (in_dec (list_eq_dec N.eq_dec) n M) as [X|X]; [|auto].
  destruct (in_dec (list_eq_dec N.eq_dec) m L) as [Y|Y]; [|auto]. left. specialize (H1 m q Y Q). specialize (H2 n p X P).
  revert H1 H2. generalize (ahead (position md5 key) p) (ahead (position md5 key) q). intros u v [H1|[H1 B1]] [H2|[H2 B2]]; try lia. now apply before_antisym.
Qed.

Notation reach := (reach md5).
Notation begin := (begin md5).
Notation key_is_mine := (key_is_mine md5).
Notation stale := (stale md5).

(* ---------- C54 ---------- *)
Theorem C54_owner_partial self c L key : length self <= 127 -> reach self c L None -> L <> [] ->
  key_is_mine c key = Unknown /\ k_valid c = false \/
  exists b kid sid, key_is_mine c key = Mine b kid sid /\ k_valid c = true /\ (b = true <-> owner md5 L key self).
Proof.
  intros Ls R NE. destruct (reach_inv md5 self c L None Ls R) as (_ & _ & _ & _ & P & F). unfold KtModel.key_is_mine.
  destruct (k_pend c); [destruct F|]. destruct (k_ring c) as [r|] eqn:Kr.
  2: { unfold arr in P. rewrite Kr in P. apply Permutation_nil in P. congruence. }
  destruct (k_valid c); [right|left; auto]. unfold arr in P. rewrite Kr in P.
  assert (Ne : r_arr r <> []) by (intros Q; rewrite Q in P; apply Permutation_nil in P; congruence).
  destruct (ring_owner md5 D (k_node c) r self key F Ne) as (i & p & k & E1 & E2 & K & E3 & E4 & O). rewrite E1, E2.
  do 3 eexists. split; [reflexivity|]. split; [reflexivity|]. rewrite E4, Z.eqb_eq. destruct F as (_ & _ & _ & _ & Z). specialize (Z k K).
  rewrite nat_N_Z, Z, <- E3. apply (owner_perm _ L key _ P) in O. split.
  - intros Q. now rewrite Q in O.
  - intros Q. eapply owner_unique; eauto.
Qed.

(* scrub stale removes exactly what belongs to others *)
Theorem C54_scrub_partial self c L key : length self <= 127 -> reach self c L None -> L <> [] ->
  (stale c key = true <-> k_valid c = true /\ ~ owner md5 L key self).
Proof.
  intros Ls R NE. unfold KtModel.stale. destruct (C54_owner_partial self c L key Ls R NE) as [[E V]|(b & k & s & E & V & O)]; rewrite E, V.
  - split; [discriminate|intros [? _]; congruence].
  - rewrite <- O. destruct b; cbn; split; try tauto; try discriminate. intros _. split; [auto|discriminate].
Qed.
(* servers with the same list, whatever lists they had before and in whatever order they were given it: exactly one claims the key *)
Theorem C54_agree_partial s1 c1 L1 s2 c2 L2 key k1 d1 k2 d2 : length s1 <= 127 -> length s2 <= 127 ->
  reach s1 c1 L1 None -> reach s2 c2 L2 None -> L1 <> [] -> Permutation L1 L2 ->
  key_is_mine c1 key = Mine true k1 d1 -> key_is_mine c2 key = Mine true k2 d2 -> s1 = s2.
Proof.
  intros H1 H2 R1 R2 NE P E1 E2.
  assert (NE2 : L2 <> []) by (intros ->; apply Permutation_sym, Permutation_nil in P; congruence).
  destruct (C54_owner_partial s1 c1 L1 key H1 R1 NE) as [[Q _]|(b & k & s & Q & _ & O1)]; [congruence|].
  destruct (C54_owner_partial s2 c2 L2 key H2 R2 NE2) as [[Q' _]|(b' & k' & s' & Q' & _ & O2)]; [congruence|].
  rewrite E1 in Q. injection Q as <- <- <-. rewrite E2 in Q'. injection Q' as <- <- <-.
  eapply owner_unique; [|apply O2; reflexivity]. eapply owner_perm; [exact P|now apply O1].
Qed.
Theorem C54_someone_partial (L : list bytes) key : L <> [] -> exists n, In n L /\
  forall c M, length n <= 127 -> reach n c M None -> Permutation L M -> k_valid c = true -> exists k d, key_is_mine c key = Mine true k d.
Proof.
  intros NE. destruct (C54_one_owner L key NE) as (n & O & _). exists n. split; [apply O|]. intros c M Ln R P V.
  assert (NE2 : M <> []) by (intros ->; apply Permutation_sym, Permutation_nil in P; congruence).
  destruct (C54_owner_partial n c M key Ln R NE2) as [[_ Q]|(b & k & s & Q & _ & O1)]; [congruence|].
  exists k, s. rewrite Q. f_equal. apply O1. eapply owner_perm; eauto.
Qed.
(* an accepted list is in use afterwards *)
Theorem C54_in_use self c L M : length self <= 127 -> reach self c L (Some M) -> reach self (finish c) M None /\ k_valid (finish c) = true.
Proof. intros Ls R. split; [now apply (r_end md5 self c L)|]. apply (reach_inv md5 self c L (Some M) Ls) in R. now apply finish_ok in R. Qed.

(* C55 for the answers of the servers *)
Theorem C55_answers_partial s1 c1 L s2 c2 M key k1 d1 k2 d2 : length s1 <= 127 -> length s2 <= 127 ->
  reach s1 c1 L None -> reach s2 c2 M None -> L <> [] -> M <> [] ->
  key_is_mine c1 key = Mine true k1 d1 -> key_is_mine c2 key = Mine true k2 d2 -> s1 = s2 \/ ~ In s1 M \/ ~ In s2 L.
Proof.
  intros H1 H2 R1 R2 NE NE2 E1 E2.
  destruct (C54_owner_partial s1 c1 L key H1 R1 NE) as [[Q _]|(b & k & s & Q & _ & O1)]; [congruence|].
  destruct (C54_owner_partial s2 c2 M key H2 R2 NE2) as [[Q' _]|(b' & k' & s' & Q' & _ & O2)]; [congruence|].
  rewrite E1 in Q. injection Q as <- <- <-. rewrite E2 in Q'. injection Q' as <- <- <-.
  eapply C55_moves; [apply O1; reflexivity|apply O2; reflexivity].
Qed.
(* a server keeps what it has when nobody joins *)
Theorem C55_kept_partial self c L c2 M key k d : length self <= 127 ->
  reach self c L None -> reach self c2 M None -> L <> [] -> In self M -> (forall x, In x M -> In x L) -> k_valid c2 = true ->
  key_is_mine c key = Mine true k d -> exists k2 d2, key_is_mine c2 key = Mine true k2 d2.
Proof.
  intros Ls R R2 NE IM Sub V E. assert (NE2 : M <> []) by (intros ->; destruct IM).
  destruct (C54_owner_partial self c L key Ls R NE) as [[Q _]|(b & k1 & s & Q & _ & O1)]; [congruence|].
  rewrite E in Q. injection Q as <- <- <-. destruct (C54_one_owner M key NE2) as (n & O & _).
  destruct (C55_moves L M key self n (proj1 O1 eq_refl) O) as [<-|[Q|Q]].
  - destruct (C54_owner_partial self c2 M key Ls R2 NE2) as [[_ Q']|(b' & k' & s' & Q' & _ & O2)]; [congruence|].
    exists k', s'. rewrite Q'. f_equal. now apply O2.
  - tauto.
  - elim Q. apply Sub. apply O.
Qed.

(* ---------- C56 ---------- *)
(* what a change of the list does *)
Theorem C56_change self c L M raw m ok c' res : length self <= 127 -> reach self c L None -> proper M -> Forall2 entry M raw ->
  begin c raw m ok = Some (c', res) ->
  match res with
  | RInvalid => False
  | RFail => k_valid c' = false
  | RSame a r => Permutation M L /\ change L M a r /\ k_valid c' = k_valid c
  | RNew a r => (M = [] \/ ~ Permutation M L) /\ change L M a r
  end.
Proof.
  intros Ls R Pr E B. pose proof (reach_inv md5 self c L None Ls R) as I. pose proof (begin_ok md5 self c L M raw m ok I Pr E) as Q.
  rewrite B in Q. destruct res; try apply Q.
  - destruct Q as (_ & P & -> & -> & V). split; auto. split; auto. exists M, [], []. rewrite app_nil_r. repeat split; auto; try tauto. now symmetry.
  - destruct Q as (_ & Ch & N & _). split; auto. destruct M; [now left|right]. apply N. discriminate.
Qed.

(* enough nodes on the free list: the server does not stop *)
Lemma next_grows self c L M : reach self c L M -> length self <= 127 -> 11 <= k_next c.
Proof.
  intros R Ls. induction R as [|c L raw M m ok c' res R IH Pr E B|c L raw m ok c' R IH B|c L M R IH].
  - apply le_n.
  - assert (I : inv md5 self c L None) by now apply reach_inv.
    enough (k_next c <= k_next c') by lia. clear IH. destruct I as (_ & Ih & Ia & Ic & _ & If). destruct (k_pend c) as [pr|] eqn:Pe; [destruct If|].
    unfold parr in Ia. rewrite Pe in Ia. cbn [app] in Ia. revert B. unfold KtModel.begin.
    destruct raw as [|r0 rs]; [intros [= <- <-]; cbn; lia|]. destruct Pr as (_ & FM & _). rewrite (strips_entries M _ FM E).
    destruct (prepare c (length M) m) as [c1 pk] eqn:Pp.
    assert (G : k_next c <= k_next c1) by (unfold prepare in Pp; injection Pp as <- _; cbn; lia).
    destruct pk; [|intros [= <- <-]; cbn; lia]. destruct ok; cbn [negb]; [|intros [= <- <-]; cbn; lia].
    pose proof (prepare_free _ _ _ _ Pp) as (_ & _ & Fn & Fr & _). assert (Fa : arr c1 = arr c) by (unfold arr; now rewrite Fr).
    assert (Ia1 : acc c1 (arr c)) by (pose proof (prepare_ok c (length M) m _ Ia) as Q; now rewrite Pp in Q).
    pose proof (build_ok md5 M c1 (arr c) Ia1) as B. rewrite Fa, Fn in B. specialize (B (fun i H => H) Ic Ih).
    specialize (B ltac:(intros s S; rewrite Forall_forall in FM; now apply FM in S)).
    destruct (build md5 c1 M) as [[[c2 l] nf]|]; [|discriminate]. destruct B as (Ba & _ & Bn & _).
    destruct (_ && _); intros [= <- <-]; cbn; [|lia]. destruct (release_ok l c2 (arr c) Ba) as (_ & _ & Rn & _). lia.
  - enough (c' = c) by now subst. revert B. unfold KtModel.begin. destruct raw as [|r0 rs]; [discriminate|].
    destruct (strips (r0 :: rs)) as [strs|]; [|intros [= <-]; reflexivity]. destruct (prepare c (length strs) m) as [c1 []]; [|discriminate].
    destruct ok; cbn [negb]; [|discriminate]. destruct (build md5 c1 strs) as [[[c2 l] nf]|]; [|discriminate]. destruct (_ && _); discriminate.
  - assert (I : inv md5 self c L (Some M)) by now apply reach_inv. destruct I as (_ & _ & Ia & _ & _ & If). unfold finish. unfold parr in Ia.
    destruct (k_pend c) as [r|]; [|destruct If].
    assert (Ac : acc (mkK (k_node c) (k_next c) (k_free c) (Some r) true None) (arr c ++ r_arr r)).
    { apply (acc_ref c); auto. eapply acc_perm; [|exact Ia]. apply Permutation_app_comm. }
    destruct (release_ok (arr c) _ (r_arr r) Ac) as (_ & _ & Rn & _). rewrite Rn. exact IH.
Qed.
Lemma free_small self c L : reach self c L None -> length self <= 127 -> 10 <= length (k_free c) + length L.
Proof.
  intros R Ls. pose proof (next_grows self c L None R Ls) as G. destruct (reach_inv md5 self c L None Ls R) as (_ & _ & Ia & _ & P & If).
  unfold parr in Ia. destruct (k_pend c); [destruct If|]. cbn [app] in Ia. destruct Ia as (_ & _ & _ & A4 & _).
  assert (Q : length (seq 1 (k_next c - 1)) <= length (k_free c ++ arr c)).
  { apply NoDup_incl_length; [apply seq_NoDup|]. intros i I. apply in_seq in I. apply in_app_iff. apply A4. lia. }
  rewrite seq_length, app_length in Q. rewrite <- (Permutation_length P), map_length. lia.
Qed.
Lemma unknown_le (L M : list bytes) self : length (filter (fun s => negb (isin L s) && negb (beqb s self)) M) <= length (filter (fun s => negb (isin L s)) M).
Proof. induction M as [|a M IH]; cbn; [lia|]. destruct (isin L a); cbn; auto. destruct (beqb a self); cbn; lia. Qed.
(* joining only, leaving only, or few servers *)
Theorem C56_survives_partial self c L M raw m ok added removed : length self <= 127 -> reach self c L None -> proper M -> Forall2 entry M raw ->
  change L M added removed -> added = 0 \/ removed = 0 \/ length L + added <= 10 -> begin c raw m ok <> None.
Proof.
  intros Ls R Pr E (K & A & X & P1 & P2 & N1 & N2 & Ea & Er) S B. pose proof (reach_inv md5 self c L None Ls R) as I.
  pose proof (begin_ok md5 self c L M raw m ok I Pr E) as Q. rewrite B in Q. destruct Q as (k & Ek & Q1 & Q2).
  pose proof (free_small self c L R Ls) as Fs. pose proof (unknown_le L M self) as U. rewrite <- Ek in U.
  assert (UA : length (filter (fun s => negb (isin L s)) M) <= length A).
  { assert (Q : Permutation (filter (fun s => negb (isin L s)) M) (filter (fun s => negb (isin L s)) (K ++ A))).
    { clear -P1. induction P1; cbn; auto.
      - destruct (negb _); auto.
      - destruct (negb (isin L x)), (negb (isin L y)); auto. constructor.
      - eapply perm_trans; eauto. }
    rewrite (Permutation_length Q). clear -P2.
    assert (Z : filter (fun s => negb (isin L s)) K = []).
    { assert (H : forall x, In x K -> isin L x = true) by (intros x Hx; apply isin_in; eapply Permutation_in; [symmetry; exact P2|apply in_app_iff; auto]).
      clear P2. induction K as [|y r IH]; [reflexivity|]. cbn. rewrite (H y (or_introl eq_refl)). cbn. apply IH. intros x Hx. apply H. now right. }
    rewrite filter_app, Z. cbn [app]. clear. induction A as [|a A IH]; cbn; [lia|]. destruct (negb _); cbn; lia. }
  pose proof (Permutation_length P1) as L1. pose proof (Permutation_length P2) as L2. rewrite app_length in L1, L2. lia.
Qed.
(* otherwise it does stop: whenever the free list is too short *)
Theorem C56_stops self c L M raw m added removed : length self <= 127 -> reach self c L None -> proper M -> Forall2 entry M raw ->
  (In self M -> In self L) -> change L M added removed -> length (k_free c) < added -> 0 < removed -> added <= removed -> begin c raw m true = None.
Proof.
  intros Ls R Pr E NS (K & A & X & P1 & P2 & N1 & N2 & Ea & Er) S Z G.
  pose proof (reach_inv md5 self c L None Ls R) as I. destruct I as (I0 & Ih & Ia & Ic & Ip & If). destruct (k_pend c) as [pr|] eqn:Pe; [destruct If|].
  unfold parr in Ia. rewrite Pe in Ia. cbn [app] in Ia. unfold KtModel.begin. destruct raw as [|r0 rs].
  { inversion E; subst. apply Permutation_nil in P1. destruct K; [|discriminate]. cbn in P1. subst. cbn in S. lia. }
  destruct Pr as (ND & FM & _). rewrite (strips_entries M _ FM E).
  assert (Ll : length L = length (arr c)) by (rewrite <- (Permutation_length Ip); apply map_length).
  pose proof (Permutation_length P1) as L1. pose proof (Permutation_length P2) as L2. rewrite app_length in L1, L2.
  assert (Pp : prepare c (length M) m = (c, true)).
  { unfold prepare. replace (length M - (length (k_free c) + length (arr c))) with 0 by lia. cbn. rewrite Nat.add_0_r. destruct c; reflexivity. }
  rewrite Pp. cbn [negb].
  pose proof (build_ok md5 M c (arr c) Ia (fun i H => H) Ic Ih ltac:(intros s Hs; rewrite Forall_forall in FM; now apply FM in Hs)) as B.
  destruct (build md5 c M) as [[[c2 l] nf]|]; [exfalso|reflexivity]. destruct B as (_ & _ & _ & _ & _ & _ & _ & _ & _ & _ & Bc).
  enough (length A <= length (filter (fun s => negb (known c s) && negb (beqb s (name c 0))) M)) by lia.
  apply NoDup_incl_length.
  - apply (Permutation_NoDup P1) in ND. clear -ND. induction K as [|k K IH]; auto. apply IH. cbn in ND. now inversion ND.
  - intros x Hx. apply filter_In. assert (Hm : In x M) by (eapply Permutation_in; [symmetry; exact P1|apply in_app_iff; auto]). split; auto.
    rewrite (known_isin c L x Ip), I0. apply andb_true_iff. split; apply negb_true_iff; apply not_true_iff_false.
    + rewrite isin_in. auto.
    + intros Q. apply beqb_eq in Q. subst x. apply (N1 self Hx). auto.
Qed.
End Owner.

(* ---------- cases ---------- *)
(* a digest to compute with *)
Definition toy (s : bytes) : bytes :=
  let fix gen n x := match n with O => [] | S k => ((x / 65536) mod 256)%N :: gen k ((x * 1103515245 + 12345) mod 2147483648)%N end in
  gen 16 (fold_left (fun h b => ((h * 31 + b) mod 2147483648)%N) s 7%N).
Lemma toy_ok : digest_ok toy.
Proof.
  intros s. unfold toy. generalize (fold_left (fun h b => ((h * 31 + b) mod 2147483648)%N) s 7%N). intros x. split; [reflexivity|].
  repeat (constructor; [now apply N.mod_lt|]). constructor.
Qed.
Definition stepc (md5 : bytes -> bytes) (c : cfg) (M : list bytes) : option cfg :=
  match begin md5 c M 100 true with Some (c', RNew _ _) => Some c' | _ => None end.
Lemma stepc_reach md5 self c L M c' : reach md5 self c L None -> proper M -> stepc md5 c M = Some c' -> reach md5 self c' L (Some M).
Proof.
  intros R P S. unfold stepc in S. destruct (begin md5 c M 100 true) as [[c1 [| | |a r]]|] eqn:B; try discriminate. injection S as <-.
  apply (r_begin md5 self c L M M 100 true c1 (RNew a r)); auto. clear. induction M; constructor; auto. constructor.
Qed.
(* the lists one after the other *)
Fixpoint runs (md5 : bytes -> bytes) (c : cfg) (Ms : list (list bytes)) : option cfg :=
  match Ms with [] => Some c | M :: r => match stepc md5 c M with Some c' => runs md5 (finish c') r | None => None end end.
Lemma runs_reach md5 self Ms : forall c L c', reach md5 self c L None -> Forall proper Ms -> runs md5 c Ms = Some c' -> reach md5 self c' (last Ms L) None.
Proof.
  induction Ms as [|M r IH]; intros c L c' R P E; cbn [runs] in E; [now injection E as <-|].
  destruct (stepc md5 c M) as [c1|] eqn:S; [|discriminate]. inversion P as [|? ? P1 P2]; subst.
  pose proof (stepc_reach md5 self c L M c1 R P1 S) as R1. apply r_end in R1. specialize (IH _ M _ R1 P2 E).
  destruct r as [|M2 r]; [exact IH|]. replace (last (M :: M2 :: r) L) with (last (M2 :: r) M); [exact IH|]. cbn [last]. clear. revert M2 M L.
  induction r as [|x r IHr]; intros; [reflexivity|]. cbn. destruct r; [reflexivity|]. apply (IHr x M L).
Qed.
Fixpoint nodupb (l : list bytes) : bool := match l with [] => true | a :: r => negb (isin r a) && nodupb r end.
Lemma nodupb_ok l : nodupb l = true -> NoDup l.
Proof.
  induction l as [|a r IH]; cbn; intros H; constructor; apply andb_true_iff in H; destruct H as [H1 H2]; auto. intros Q. apply isin_in in Q. now rewrite Q in H1.
Qed.
Definition properb (l : list bytes) : bool :=
  nodupb l &&
  forallb (fun n => match n with [] => false | _ => Nat.leb (length n) 127 && negb (existsb (N.eqb 45) n) end) l && (N.of_nat (length l) <=? 65536)%N.
Lemma properb_ok l : properb l = true -> proper l.
Proof.
  unfold properb. rewrite !andb_true_iff, N.leb_le, forallb_forall. intros [[H1 H2] H3].
  split; [|split; auto].
  - now apply nodupb_ok.
  - apply Forall_forall. intros n I. specialize (H2 n I). destruct n as [|b n]; [discriminate|]. apply andb_true_iff in H2. destruct H2 as [H2 H4].
    split; [discriminate|]. split; [now apply Nat.leb_le|]. apply negb_true_iff in H4. intros Q. apply not_true_iff_false in H4. apply H4.
    apply existsb_exists. exists 45%N. auto.
Qed.
Lemma propers_ok l : forallb properb l = true -> Forall proper l.
Proof. rewrite forallb_forall, Forall_forall. intros H x X. apply properb_ok. auto. Qed.

Definition sA : bytes := [97]%N. Definition sB : bytes := [98]%N. Definition sC : bytes := [99]%N.
(* three servers after several changes, seen by the second: it owns some keys and not others *)
Definition ex_lists : list (list bytes) := [[sB]; [sC; sB]; [sB; sA; sC]].
Lemma ex_run : exists c, runs toy (init toy sB) ex_lists = Some c /\
  k_valid c = true /\ key_is_mine toy c [107; 48]%N = Mine true 1 1 /\ key_is_mine toy c [107; 51]%N = Mine false 2 1 /\ key_is_mine toy c [107; 55]%N = Mine false 0 1.
Proof.
  assert (H : match runs toy (init toy sB) ex_lists with
              | Some c => (k_valid c, key_is_mine toy c [107; 48]%N, key_is_mine toy c [107; 51]%N, key_is_mine toy c [107; 55]%N) = (true, Mine true 1 1, Mine false 2 1, Mine false 0 1)
              | None => False end) by (vm_compute; reflexivity).
  destruct (runs toy (init toy sB) ex_lists) as [c|]; [|destruct H]. exists c. split; [reflexivity|]. injection H as H1 H2 H3 H4. auto.
Qed.
Example C54_ex : exists c, reach toy sB c [sB; sA; sC] None /\ owner toy [sB; sA; sC] [107; 48]%N sB /\ ~ owner toy [sB; sA; sC] [107; 51]%N sB /\ stale toy c [107; 51]%N = true.
Proof.
  destruct ex_run as (c & R & V & K1 & K2 & _). exists c.
  assert (Rc : reach toy sB c [sB; sA; sC] None).
  { apply (runs_reach toy sB ex_lists (init toy sB) [] c); [constructor| |exact R]. apply propers_ok; reflexivity. }
  assert (Ls : length sB <= 127) by (cbn; lia). split; [exact Rc|].
  split; [|split].
  - destruct (C54_owner_partial toy toy_ok sB c _ [107; 48]%N Ls Rc ltac:(discriminate)) as [[Q _]|(b & k & d & Q & _ & O)]; [congruence|].
    rewrite K1 in Q. injection Q as <- _ _. now apply O.
  - destruct (C54_owner_partial toy toy_ok sB c _ [107; 51]%N Ls Rc ltac:(discriminate)) as [[Q _]|(b & k & d & Q & _ & O)]; [congruence|].
    rewrite K2 in Q. injection Q as <- _ _. intros X. apply O in X. discriminate.
  - unfold stale. now rewrite K2.
Qed.
(* the third server joins: some keys go to it; entries may carry a host name *)
Example C56_ex : exists c c', reach toy sB c [sC; sB] None /\
  begin toy c [sB ++ [45; 120]%N; sA; sC] 5 true = Some (c', RNew 1 0) /\ change [sC; sB] [sB; sA; sC] 1 0.
Proof.
  assert (H : match runs toy (init toy sB) [[sB]; [sC; sB]] with
              | Some c => match begin toy c [sB ++ [45; 120]%N; sA; sC] 5 true with Some (_, r) => r = RNew 1 0 | None => False end
              | None => False end) by (vm_compute; reflexivity).
  destruct (runs toy (init toy sB) [[sB]; [sC; sB]]) as [c|] eqn:R; [|destruct H].
  destruct (begin toy c [sB ++ [45; 120]%N; sA; sC] 5 true) as [[c' r]|] eqn:B; [|destruct H]. subst r. exists c, c'.
  assert (Rc : reach toy sB c [sC; sB] None).
  { apply (runs_reach toy sB [[sB]; [sC; sB]] (init toy sB) [] c); [constructor| |exact R]. apply propers_ok; reflexivity. }
  split; [exact Rc|]. split; [exact B|].
  apply (C56_change toy sB c [sC; sB] [sB; sA; sC] _ 5 true c' (RNew 1 0) ltac:(cbn; lia) Rc (properb_ok [sB; sA; sC] eq_refl)) in B; [apply B|].
  constructor; [apply (en_host sB [120]%N)|]. repeat constructor.
Qed.

(* While a list is being taken over, the server may disown a key that it had before and has afterwards: do_continuum_build
   renumbers the nodes that both rings share before do_hashring_replace takes the lock *)
Theorem C54_rebuild_refuted :
  ~ (forall md5 self c L M key, digest_ok md5 -> length self <= 127 -> reach md5 self c L (Some M) ->
       owner md5 L key self -> owner md5 M key self -> stale md5 c key = false).
Proof.
  intros H.
  assert (E : match runs toy (init toy sB) [[sB]] with
              | Some c => match stepc toy c [sA; sB] with
                          | Some c1 => (key_is_mine toy c [107; 48]%N, key_is_mine toy c1 [107; 48]%N, key_is_mine toy (finish c1) [107; 48]%N) = (Mine true 0 0, Mine false 1 0, Mine true 1 1)
                          | None => False end
              | None => False end) by (vm_compute; reflexivity).
  destruct (runs toy (init toy sB) [[sB]]) as [c|] eqn:R; [|destruct E]. destruct (stepc toy c [sA; sB]) as [c1|] eqn:S; [|destruct E].
  injection E as E1 E2 E3. assert (Ls : length sB <= 127) by (cbn; lia).
  assert (Rc : reach toy sB c [sB] None).
  { apply (runs_reach toy sB [[sB]] (init toy sB) [] c); [constructor| |exact R]. apply propers_ok; reflexivity. }
  assert (R1 : reach toy sB c1 [sB] (Some [sA; sB])) by (apply (stepc_reach toy sB c); auto; apply properb_ok; reflexivity).
  assert (R2 : reach toy sB (finish c1) [sA; sB] None) by (eapply r_end; eauto).
  specialize (H toy sB c1 [sB] [sA; sB] [107; 48]%N toy_ok Ls R1). unfold stale in H. rewrite E2 in H. cbn in H.
  assert (X : true = false); [|discriminate]. apply H.
  - destruct (C54_owner_partial toy toy_ok sB c _ [107; 48]%N Ls Rc ltac:(discriminate)) as [[Q _]|(b & k & d & Q & _ & O)]; [congruence|].
    rewrite E1 in Q. injection Q as <- _ _. now apply O.
  - destruct (C54_owner_partial toy toy_ok sB _ _ [107; 48]%N Ls R2 ltac:(discriminate)) as [[Q _]|(b & k & d & Q & _ & O)]; [congruence|].
    rewrite E3 in Q. injection Q as <- _ _. now apply O.
Qed.
(* An empty cluster: the first element of an empty ring is read *)
Theorem C54_empty_refuted md5 self key : exists c, reach md5 self c [] None /\ k_valid c = true /\ key_is_mine md5 c key = Bad.
Proof.
  set (c0 := init md5 self).
  set (c1 := mkK (k_node c0) (k_next c0) (k_free c0) (k_ring c0) (k_valid c0) (Some (mkR [] [] (-1)))).
  exists (finish c1). split; [|split; reflexivity]. eapply r_end.
  apply (r_begin md5 self c0 [] [] [] 0 true c1 (RNew 0 0)); [constructor|apply properb_ok; reflexivity|constructor|reflexivity].
Qed.
(* After memory ran out once, the list that is already in use is accepted, but the server keeps answering "unknown" *)
Definition many (n : nat) : list bytes := map (fun i => [110%N; N.of_nat (97 + i)]) (seq 0 n).
Theorem C54_stuck_refuted :
  ~ (forall md5 self c L M raw m c' a r, digest_ok md5 -> length self <= 127 -> reach md5 self c L None -> proper M -> M <> [] -> Forall2 entry M raw ->
       begin md5 c raw m true = Some (c', RSame a r) -> k_valid c' = true).
Proof.
  intros H.
  assert (E : match runs toy (init toy sB) [[sB]] with
              | Some c => match begin toy c (many 12) 0 true with
                          | Some (c1, RFail) => match begin toy c1 [sB] 100 true with Some (c2, RSame 0 0) => k_valid c2 = false | _ => False end
                          | _ => False end
              | None => False end) by (vm_compute; reflexivity).
  destruct (runs toy (init toy sB) [[sB]]) as [c|] eqn:R; [|destruct E].
  destruct (begin toy c (many 12) 0 true) as [[c1 [| | |]]|] eqn:B1; try (exfalso; exact E).
  destruct (begin toy c1 [sB] 100 true) as [[c2 [| |[|a] [|r]|]]|] eqn:B2; try (exfalso; exact E). assert (Ls : length sB <= 127) by (cbn; lia).
  assert (Rc : reach toy sB c [sB] None).
  { apply (runs_reach toy sB [[sB]] (init toy sB) [] c); [constructor| |exact R]. apply propers_ok; reflexivity. }
  assert (R1 : reach toy sB c1 [sB] None).
  { apply (r_begin toy sB c [sB] (many 12) (many 12) 0 true c1 RFail); auto; [apply properb_ok; reflexivity|]. cbn. repeat constructor. }
  specialize (H toy sB c1 [sB] [sB] [sB] 100 c2 0 0 toy_ok Ls R1 (properb_ok [sB] eq_refl) ltac:(discriminate) ltac:(repeat constructor) B2). congruence.
Qed.
(* Two of eleven servers are replaced in one step: do_node_free_list_prepare counts the nodes in use as if they could be
   reused, and assert(item != NULL) fails *)
Definition zero (s : bytes) : bytes := repeat 0%N 16.
Theorem C56_replace_refuted :
  ~ (forall md5 self c L M, digest_ok md5 -> length self <= 127 -> reach md5 self c L None -> proper M -> In self L -> In self M -> begin md5 c M 100 true <> None).
Proof.
  intros H.
  assert (E : match runs zero (init zero sB) [sB :: many 10] with
              | Some c => match begin zero c (sB :: sA :: sC :: many 8) 100 true with None => True | Some _ => False end
              | None => False end) by (vm_compute; reflexivity).
  destruct (runs zero (init zero sB) [sB :: many 10]) as [c|] eqn:R; [|destruct E].
  destruct (begin zero c (sB :: sA :: sC :: many 8) 100 true) as [x|] eqn:B; [destruct E|].
  refine (H zero sB c (sB :: many 10) (sB :: sA :: sC :: many 8) _ _ _ _ _ _ B).
  - intros s. split; [reflexivity|]. repeat constructor.
  - cbn; lia.
  - apply (runs_reach zero sB [sB :: many 10] (init zero sB) [] c); [constructor| |exact R]. apply propers_ok; reflexivity.
  - apply properb_ok; reflexivity.
  - now left.
  - now left.
Qed.

(* the same with one of eleven servers that joined one by one *)
Example C56_replace_one : exists c, reach zero sB c (sB :: many 10) None /\ begin zero c (sB :: sA :: many 9) 100 true = None.
Proof.
  set (l := map (fun n => sB :: many n) (seq 0 11)).
  assert (E : match runs zero (init zero sB) l with
              | Some c => match begin zero c (sB :: sA :: many 9) 100 true with None => True | Some _ => False end
              | None => False end) by (vm_compute; reflexivity).
  destruct (runs zero (init zero sB) l) as [c|] eqn:R; [|destruct E].
  destruct (begin zero c (sB :: sA :: many 9) 100 true) as [x|] eqn:B; [destruct E|]. exists c. split; [|exact B].
  apply (runs_reach zero sB l (init zero sB) [] c); [constructor| |exact R]. apply propers_ok; reflexivity.
Qed.

Print Assumptions C54_one_owner.
Print Assumptions C54_owner_partial.
Print Assumptions C54_scrub_partial.
Print Assumptions C54_agree_partial.
Print Assumptions C54_someone_partial.
Print Assumptions C54_in_use.
Print Assumptions C55_moves.
Print Assumptions C55_answers_partial.
Print Assumptions C55_kept_partial.
Print Assumptions C56_change.
Print Assumptions C56_survives_partial.
Print Assumptions C56_stops.
Print Assumptions C54_rebuild_refuted.
Print Assumptions C54_empty_refuted.
Print Assumptions C54_stuck_refuted.
Print Assumptions C56_replace_refuted.
