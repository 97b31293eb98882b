(* Properties C23, C43 and C44: prefix statistics, SCAN PREFIX and the item statistics of the engine. *)
From Coq Require Import FinFun.
From Verif Require Import Base UtilModel KvModel KvSpec KvRefine PfxModel PfxSpec PfxProofs PfxRun PfxHist PfxAll PfxView PfxScan.
Local Open Scope N_scope.

(* a history inside the domain (PfxSpec.legal), what it leaves stored, and the prefixes scans still hold *)
Definition reached (hash : bytes -> N) (ops : list pop) (s : pstate) (l : store) (hd : list N) : Prop :=
  exists outs, prun hash pinit ops = Some (s, outs) /\ legal [] [] ops outs /\ l = stored [] ops outs /\ hd = held [] ops outs.

Lemma fits_nil : fits [].
Proof. repeat split; constructor. Qed.
Lemma reached_inv hash ops s l hd : reached hash ops s l hd ->
  inv hash 0 s hd /\ abs (its s) = l /\ fits (abs (its s)) /\ keys_ok (abs (its s)) /\ ginv s.
Proof.
  intros (outs & R & L & -> & ->). destruct (run_ok hash ops pinit [] s outs (init_inv hash) fits_nil L R) as (I & A & F & G & _).
  split; [exact I|]. split; [exact A|]. split; [exact F|]. split; [|apply G; split; reflexivity].
  rewrite A. change (abs (its pinit)) with (@nil (N * sitem)). apply (stored_keys ops [] [] outs L). intros e [].
Qed.

(* ---------- C23 ---------- *)
(* the list of all prefixes has one line for each prefix under which something is stored, and no other;
   the line has the number and the sizes of the items, in total and of each type *)
Theorem C23_stats : forall hash ops s l hd, reached hash ops s l hd ->
  exists ls, dump_all s = Some ls /\ NoDup (map l_name ls) /\
    forall ln, In ln ls <-> exists q, under q l <> [] /\ ln = summary q l.
Proof.
  intros hash ops s l hd R. apply reached_inv in R as (I & <- & F & K & _). eexists. split; [apply (dump_all_ok hash s hd I F K)|].
  destruct (shown_names hash s hd I F K) as [ND IN]. split.
  - rewrite map_map. exact ND.
  - intro ln. rewrite in_map_iff. split.
    + intros (p & <- & P). exists (name_of s p). split; [|reflexivity]. apply IN. apply in_map, P.
    + intros (q & U & ->). apply IN, in_map_iff in U as (p & <- & P). exists p. auto.
Qed.

(* asked for certain prefixes, it lists those under which something is stored *)
Theorem C23_named : forall hash ops s l hd ns, reached hash ops s l hd ->
  dump_names hash s ns = Some (flat_map (fun q => match under q l with [] => [] | _ :: _ => [summary q l] end) ns).
Proof. intros hash ops s l hd ns R. apply reached_inv in R as (I & <- & F & K & _). apply (dump_names_ok hash s hd I F K). Qed.

(* the number of prefixes *)
Theorem C23_count : forall hash ops s l hd, reached hash ops s l hd ->
  exists qs, NoDup qs /\ (forall q, In q qs <-> under q l <> []) /\ prefix_count s = Some (N.of_nat (length qs)).
Proof.
  intros hash ops s l hd R. apply reached_inv in R as (I & <- & F & K & _). exists (map (name_of s) (null_line s ++ linked_ids s)).
  destruct (shown_names hash s hd I F K) as [ND IN]. split; [exact ND|]. split; [exact IN|]. rewrite map_length. apply (count_ok hash s hd I F).
Qed.

(* no assertion fails and no freed memory is used, except by operations no caller issues (misuse); an item is
   refused only for its prefix name or for want of memory *)
Theorem C23_safe : forall hash ops s l hd o, reached hash ops s l hd -> legal1 hd o -> ~ misuse s o ->
  match o with PScan _ _ _ => False | _ => True end -> pstep hash s o <> None.
Proof.
  intros hash ops s l hd o R L M NS E. apply reached_inv in R as (I & _ & F & _). pose proof (step_ok hash s hd o I F L) as S. rewrite E in S.
  destruct S as [S|S]; [contradiction|]. destruct o; contradiction.
Qed.
Theorem C23_refused : forall hash ops s l hd i k t z st mem s' x, reached hash ops s l hd -> ~ long_prefix k ->
  pstep hash s (PLink i k t z st mem) = Some (s', x) ->
  x = PDone \/ (x = PNoName /\ s' = s /\ under (prefix_of k) l = [] /\ exists q, prefix_of k = Some q /\ mc_isvalidname q = false) \/
  (x = PNoMem /\ s' = s /\ mem = false /\ under (prefix_of k) l = []).
Proof.
  intros hash ops s l hd i k t z st mem s' x R L P. apply reached_inv in R as (I & <- & F & K & _). cbn [pstep] in P.
  destruct ((match iget (its s) i with Some _ => true | None => false end) || existsb _ (its s)); [discriminate|].
  unfold prefix_link in P. rewrite (pfx_prefix k L) in P.
  assert (NEW : forall n, pfind hash s n = Some None -> under (Some n) (abs (its s)) = []).
  { intros n E. destruct (under (Some n) (abs (its s))) eqn:U; [reflexivity|]. exfalso. assert (U2 : under (Some n) (abs (its s)) <> []) by congruence.
    apply under_in in U2 as (j & h & IN & Q). pose proof (I_items _ _ _ _ I _ _ IN) as A. rewrite (key_pfx s K _ _ IN), Q in A.
    destruct A as (y & X & LK & NM). destruct (pfind_ok hash 0 s hd n I) as (r & R & S). rewrite E in R. injection R as <-. apply (S _ _ X LK NM). }
  destruct (prefix_of k) as [n|] eqn:PK.
  - destruct (pfind hash s n) as [[p|]|] eqn:PF; [| |discriminate].
    + destruct (heap s p); [|discriminate]. injection P as <- <-. auto.
    + destruct (name_ok k n) eqn:NOK; cbn [negb] in P.
      * destruct mem; cbn [negb] in P.
        -- destruct (heap (new_prefix hash s n) (fresh s)); [|discriminate]. injection P as <- <-. auto.
        -- injection P as <- <-. right. right. auto.
      * injection P as <- <-. right. left. split; [reflexivity|]. split; [reflexivity|]. split; [auto|]. exists n. split; [reflexivity|].
        unfold name_ok in NOK. destruct n as [|c n]; [|exact NOK].
        unfold prefix_of in PK. destruct k as [|c r]; [discriminate|]. destruct (upto r); discriminate.
  - destruct (heap s 0); [|discriminate]. injection P as <- <-. auto.
Qed.

(* ---------- C43 ---------- *)
(* a complete SCAN PREFIX returns no prefix twice and, except the reserved one, every prefix under which
   something is stored at each call; it returns no others and needs at most 1024 calls *)
Theorem C43_exactly_once_partial : forall hash ops s l hd ns cs, reached hash ops s l hd -> session hash s l hd [48] ns cs true ->
  NoDup ns /\
  (forall q, q <> Some hidden -> Forall (fun c => under q c <> []) cs -> In q ns) /\
  (forall q, In q ns -> q <> Some hidden /\ Exists (fun c => under q c <> []) cs).
Proof.
  intros hash ops s l hd ns cs R S. apply reached_inv in R as (I & A & F & K & _).
  destruct (session_ok hash s l hd [48] ns cs true S 0 I F K (eq_sym A) eq_refl ltac:(lia)) as (S1 & _ & S3 & S4).
  split; [exact S1|]. split; [intros q H1 H2; apply S4; auto; lia|]. intros q Q. apply S3 in Q. tauto.
Qed.
Theorem C43_ends_partial : forall hash ops s l hd ns cs e, reached hash ops s l hd -> session hash s l hd [48] ns cs e ->
  NoDup ns /\ (length cs <= 1024)%nat.
Proof.
  intros hash ops s l hd ns cs e R S. apply reached_inv in R as (I & A & F & K & _).
  destruct (session_ok hash s l hd [48] ns cs e S 0 I F K (eq_sym A) eq_refl ltac:(lia)) as (S1 & S2 & _). split; [exact S1|lia].
Qed.
(* a call works if the array has room for the requested number and one whole hash chain *)
Theorem C43_call_partial : forall hash ops s l hd m cur b req asz, reached hash ops s l hd -> chains s m ->
  (m + N.to_nat req <= N.to_nat asz)%nat -> 0 < req -> (forall p, N.of_nat (count_occ N.eq_dec hd p) < 65535) -> safe_strtoul cur = Some b ->
  exists s2 cur' ids, pstep hash s (PScan cur req asz) = Some (s2, PNames (PScanned cur' ids)).
Proof. intros hash ops s l hd m cur b req asz R. apply reached_inv in R as (I & _). apply (call_works hash 0 s hd m cur b req asz I). Qed.

(* a call writes past its array if one hash chain has more prefixes than the array has entries; the server's array
   for the default count has 200 entries.  The prefix table always has 1024 chains: with 204801 prefixes one
   chain is too long whatever the hash function is (many_crowd) *)
Definition crowded (s : pstate) (asz : N) : Prop := exists b, b < 1024 /\ (N.to_nat asz < length (filter (shown (heap s)) (buck s b)))%nat.
Theorem C43_crowded_refuted : forall hash ops s l hd req asz, reached hash ops s l hd -> 0 < req <= asz ->
  crowded s asz -> exists cur, safe_strtoul cur <> None /\ pstep hash s (PScan cur req asz) = None.
Proof.
  intros hash ops s l hd req asz R RQ (b & B & B2). apply reached_inv in R as (I & _).
  assert (B32 : b < 2 ^ 32) by (change (2 ^ 32) with 4294967296; lia).
  exists (dec_text b). rewrite (AssocDirect.strtoul_dec_text b B32). split; [discriminate|]. cbn [pstep]. unfold prefix_scan.
  destruct ((asz =? 0) || (asz <? req)); [reflexivity|]. rewrite (AssocDirect.strtoul_dec_text b B32).
  replace (1024 <=? b) with false by (symmetry; apply N.leb_gt; exact B).
  assert (SL : scan_loop (S 1024) s b req asz 0 [] = None); [|rewrite SL; reflexivity].
  generalize 1024%nat at 1. intro f. cbn [scan_loop length N.of_nat]. replace (0 <? req) with true by (symmetry; apply N.ltb_lt; lia).
  replace (0 <? req * 4) with true by (symmetry; apply N.ltb_lt; lia). cbn [andb]. destruct (I_null _ _ _ _ I) as (z & Z & _). rewrite Z.
  rewrite (scan_chain_full hash (buck s b) asz s); [reflexivity| | |].
  - intros p P. destruct (I_cell _ _ _ _ I _ _ P) as (x & X & _). congruence.
  - destruct ((b =? 0) && negb (pempty z)); cbn [app length]; lia.
  - destruct ((b =? 0) && negb (pempty z)); cbn [app length]; lia.
Qed.
Lemma pigeon (f : N -> list N) g m l : (m * length l < length (filter g (flat_map f l)))%nat -> exists b, In b l /\ (m < length (filter g (f b)))%nat.
Proof.
  induction l as [|b l IH]; cbn [flat_map length]; [cbn; lia|]. rewrite filter_app, app_length. intro H.
  destruct (Nat.lt_ge_cases m (length (filter g (f b)))) as [Q|Q]; [exists b; split; [left; reflexivity|exact Q]|].
  destruct IH as (c & C1 & C2); [lia|]. exists c. split; [right; exact C1|exact C2].
Qed.
Lemma many_crowd s asz : (N.to_nat asz * 1024 < length (filter (shown (heap s)) (linked_ids s)))%nat -> crowded s asz.
Proof.
  intro H. unfold linked_ids in H. assert (LB : length buckets = 1024%nat) by (unfold buckets; rewrite map_length, seq_length; reflexivity).
  rewrite <- LB in H. destruct (pigeon (buck s) (shown (heap s)) (N.to_nat asz) buckets H) as (b & B1 & B2). exists b. split; [|exact B2].
  unfold buckets in B1. apply in_map_iff in B1 as (n & <- & Q). apply in_seq in Q. lia.
Qed.

(* ---------- C44 ---------- *)
(* curr_items and bytes are exact *)
Theorem C44_items : forall hash ops s l hd, reached hash ops s l hd ->
  curr_items (gs s) = number l /\ curr_bytes (gs s) = sum s_size l.
Proof.
  intros hash ops s l hd R. apply reached_inv in R as (_ & <- & F & _ & [G1 G2]). destruct F as (_ & F2 & F3). rewrite G1, G2.
  rewrite number_sum, !sum_abs in *. cbn [s_size]. split.
  - apply N.mod_small. change u64 with (2 ^ 64). lia.
  - rewrite N.mod_small; [reflexivity|]. exact F2.
Qed.
(* so are sticky_items and sticky_bytes as long as no replacement changes whether an item is sticky *)
Theorem C44_sticky_partial : forall hash ops s outs, prun hash pinit ops = Some (s, outs) -> legal [] [] ops outs -> never_turns [] ops outs ->
  let l := filter (fun e => s_sticky (snd e)) (stored [] ops outs) in
  sticky_items (gs s) = number l /\ sticky_bytes (gs s) = sum s_size l.
Proof.
  intros hash ops s outs R L NT. destruct (run_ok hash ops pinit [] s outs (init_inv hash) fits_nil L R) as (_ & A & F & _ & G).
  change (abs (its pinit)) with (@nil (N * sitem)) in *. rewrite <- A. destruct G as [G1 G2]; [split; reflexivity|exact NT|]. cbv zeta.
  assert (E : forall f, sum f (filter (fun e => s_sticky (snd e)) (abs (its s))) = tot (fun h => w1 (sticky h) (f (mkSi (hkey h) (htype h) (stotal h) (sticky h)))) (its s)).
  { intro f. clear. induction (its s) as [|[i h] l IH]; [reflexivity|]. rewrite tot_cons, <- IH. unfold abs. cbn [map filter abs1 fst snd s_sticky].
    destruct (sticky h) eqn:ST; cbn [w1]; [|lia]. cbn [sum fold_right snd abs1]. rewrite ST. reflexivity. }
  rewrite number_sum, !E, G1, G2. cbn [s_size]. destruct F as (_ & F2 & F3). rewrite number_sum in F3. rewrite sum_abs in F2, F3. cbn [s_size] in F2. split.
  - apply N.mod_small. eapply N.le_lt_trans; [apply (tot_le _ (fun _ => 1))|change u64 with (2 ^ 64); lia]. intro h. destruct (sticky h); cbn; lia.
  - rewrite N.mod_small; [reflexivity|]. eapply N.le_lt_trans; [apply (tot_le _ stotal)|exact F2]. intro h. destruct (sticky h); cbn; lia.
Qed.
(* the domain, decidable *)
Definition fitsb (l : store) : bool := forallb (fun e => s_size (snd e) <? 4294967296) l && (sum s_size l <? 18446744073709551616) && (number l <? 4294967296).
Fixpoint legalb (l : store) (hd : list N) (ops : list pop) (outs : list pout) : bool :=
  match ops, outs with
  | o :: r, x :: xs =>
      match o with
      | PLink _ k _ _ _ _ => match prefix_of k with Some q => Nat.ltb (length q) 256 | None => true end
      | PRelease p => existsb (N.eqb p) hd
      | _ => true
      end && fitsb (effect l o x) && legalb (effect l o x) (holds hd o x) r xs
  | _, _ => true
  end.
Lemma legalb_ok ops : forall l hd outs, legalb l hd ops outs = true -> legal l hd ops outs.
Proof.
  induction ops as [|o ops IH]; intros l hd outs H; [exact Logic.I|]. destruct outs as [|x outs]; [exact Logic.I|]. cbn [legalb legal] in *.
  apply andb_true_iff in H as [H H3]. apply andb_true_iff in H as [H1 H2]. split; [|split; [|apply IH; exact H3]].
  - destruct o; try exact Logic.I.
    + unfold long_prefix. destruct (prefix_of k); [|tauto]. apply Nat.ltb_lt in H1. lia.
    + apply existsb_exists in H1 as (q & Q1 & Q2). apply N.eqb_eq in Q2. congruence.
  - apply andb_true_iff in H2 as [H2 H5]. apply andb_true_iff in H2 as [H2 H4]. apply N.ltb_lt in H4, H5. split; [|split; assumption].
    apply Forall_forall. intros e E. rewrite forallb_forall in H2. apply N.ltb_lt. apply H2, E.
Qed.
(* otherwise they are not: an item stored with expiration time -1, stored again with another one and deleted
   is counted for ever *)
Theorem C44_sticky_refuted : exists hash ops s outs, prun hash pinit ops = Some (s, outs) /\ legal [] [] ops outs /\
  stored [] ops outs = [] /\ sticky_items (gs s) = 1 /\ sticky_bytes (gs s) = 100.
Proof.
  exists (fun _ => 0), [PLink 1 [97] TKv 100 true true; PReplace 1 2 100 false; PUnlink 2]. eexists. eexists. split; [vm_compute; reflexivity|].
  split; [apply legalb_ok; vm_compute; reflexivity|]. split; [vm_compute; reflexivity|]. split; vm_compute; reflexivity.
Qed.

(* ---------- outside the domain of C23 ---------- *)
(* a prefix of 256 bytes or more is cut to its length modulo 256: the statistics name a prefix no key has *)
Theorem C23_long_prefix_refuted : exists hash ops s outs, prun hash pinit ops = Some (s, outs) /\
  Forall (fun x => x = PDone) outs /\ exists ls ln, dump_all s = Some ls /\ In ln ls /\ under (l_name ln) (stored [] ops outs) = [].
Proof.
  set (k := repeat 97 258 ++ [58; 98]). exists (fun _ => 0), [PLink 1 k TKv 400 false true]. eexists. eexists. split; [vm_compute; reflexivity|].
  split; [repeat constructor|]. eexists. eexists. split; [vm_compute; reflexivity|]. split; [left; reflexivity|]. vm_compute. reflexivity.
Qed.
(* a collection of 4 GiB or more: its size is counted modulo 2^32 when it is deleted, and the assertion that an empty
   prefix has no bytes fails *)
Definition big_ops (n : nat) : list pop := PLink 1 [97; 58; 98] TList 100 false true :: repeat (PGrow 1 32768) n.
Definition big_at (v : N) (s : pstate) : Prop :=
  its s = [(1, mkHi [97; 58; 98] TList 100 (v mod u32) false 1)] /\ exists x, heap s 1 = Some x /\ tbyt x = (100 + v) mod u64 /\ tcnt x = 1.
Lemma big_grow n : forall v s, big_at v s -> exists s' outs, prun (fun _ => 0) s (repeat (PGrow 1 32768) n) = Some (s', outs) /\ big_at (v + 32768 * N.of_nat n) s'.
Proof.
  induction n as [|n IH]; intros v s B.
  - exists s, []. split; [reflexivity|]. replace (v + 32768 * N.of_nat 0) with v by lia. exact B.
  - cbn [repeat prun]. destruct B as (B1 & x & X & T & C).
    assert (G : exists s1, pstep (fun _ => 0) s (PGrow 1 32768) = Some (s1, PDone) /\ big_at (v + 32768) s1).
    { cbn [pstep]. rewrite B1. cbn [iget N.eqb Pos.eqb ptr]. rewrite X. eexists. split; [reflexivity|]. split.
      - cbn [w_gs w_its w_heap its]. rewrite B1. cbn [iset map fst N.eqb Pos.eqb hkey htype base extra sticky]. rewrite N.add_mod_idemp_l by discriminate. reflexivity.
      - eexists. split; [cbn [w_gs w_its w_heap heap]; unfold hset; cbn [N.eqb Pos.eqb]; reflexivity|]. unfold bytes_incr. cbv zeta. cbn [tbyt tcnt]. split; [|exact C].
        rewrite T. change (32768 mod u32) with 32768. rewrite N.add_mod_idemp_l by discriminate. f_equal. lia. }
    destruct G as (s1 & G1 & G2). rewrite G1. destruct (IH _ _ G2) as (s2 & outs & R & B). rewrite R. exists s2, (PDone :: outs). split; [reflexivity|].
    replace (v + 32768 * N.of_nat (S n)) with (v + 32768 + 32768 * N.of_nat n) by lia. exact B.
Qed.
(* 131072 elements of 32 KiB: the limits are 1000000 elements and 32 KiB *)
Theorem C23_large_collection_refuted : exists hash ops s outs i, prun hash pinit ops = Some (s, outs) /\
  Forall (fun o => match o with PGrow _ n => n <= 2 ^ 15 | _ => True end) ops /\ N.of_nat (length ops) <= 131073 /\ pstep hash s (PUnlink i) = None.
Proof.
  assert (NN : exists n, N.of_nat n = 131072) by (exists (N.to_nat 131072); apply N2Nat.id). destruct NN as (n & NN).
  exists (fun _ => 0), (big_ops n). unfold big_ops. cbn [prun].
  destruct (pstep (fun _ => 0) pinit (PLink 1 [97; 58; 98] TList 100 false true)) as [[s0 x0]|] eqn:S0; [|vm_compute in S0; discriminate].
  assert (B : big_at 0 s0).
  { vm_compute in S0. injection S0 as <- _. split; [reflexivity|]. eexists. split; [vm_compute; reflexivity|]. split; reflexivity. }
  destruct (big_grow n 0 s0 B) as (s & outs & R & G). rewrite R. exists s, (x0 :: outs), 1. split; [reflexivity|]. split; [|split].
  - constructor; [exact Logic.I|]. apply Forall_forall. intros o O. apply repeat_spec in O. subst o. discriminate.
  - cbn [length]. rewrite repeat_length. lia.
  - rewrite NN in G. destruct G as (G1 & x & X & T & C). cbn [pstep]. rewrite G1. cbn [iget N.eqb Pos.eqb ptr]. unfold prefix_unlink. rewrite X.
    unfold count_decr. cbv zeta. cbn [tcnt tbyt]. rewrite T, C. vm_compute. reflexivity.
Qed.

(* ---------- examples ---------- *)
Definition hsum (n : bytes) : N := fold_right N.add 0 n.
(* a, b, b:c and arcus; items of three types, one replaced, one grown and shrunk, one prefix emptied *)
Definition ex_ops : list pop :=
  [PLink 1 [97; 58; 49] TKv 80 false true; PLink 2 [97; 58; 50] TList 100 false true; PGrow 2 64; PLink 3 [98; 58; 99; 58; 49] TSet 120 true true;
   PLink 4 [120] TKv 70 false true; PLink 5 [100; 58; 49] TKv 60 false true; PLink 6 [97; 114; 99; 117; 115; 58; 49] TKv 60 false true;
   PReplace 1 7 96 false; PShrink 2 32; PScan [48] 2 100; PUnlink 5; PLink 8 [45; 58; 49] TKv 9 false true].
Definition ex_state : pstate := match prun hsum pinit ex_ops with Some (s, _) => s | None => pinit end.
Definition ex_outs : list pout := match prun hsum pinit ex_ops with Some (_, o) => o | None => [] end.
Example ex_reached : reached hsum ex_ops ex_state (stored [] ex_ops ex_outs) (held [] ex_ops ex_outs).
Proof.
  exists ex_outs. split; [unfold ex_state, ex_outs; destruct (prun hsum pinit ex_ops) as [[s o]|] eqn:E; [reflexivity|vm_compute in E; discriminate]|].
  split; [apply legalb_ok; vm_compute; reflexivity|]. split; reflexivity.
Qed.
Example ex_dump : dump_all ex_state = Some
  [mkLine None 1 [1; 0; 0; 0; 0] 70 [70; 0; 0; 0; 0];
   mkLine (Some [97]) 2 [1; 1; 0; 0; 0] 228 [96; 132; 0; 0; 0]; mkLine (Some [98]) 1 [0; 0; 1; 0; 0] 120 [0; 0; 120; 0; 0];
   mkLine (Some [97; 114; 99; 117; 115]) 1 [1; 0; 0; 0; 0] 60 [60; 0; 0; 0; 0]] /\
  nth 11 ex_outs PDone = PNoName /\ prefix_count ex_state = Some 4 /\ gs ex_state = mkGs 5 478 1 120 7 /\ never_turns [] ex_ops ex_outs.
Proof.
  split; [vm_compute; reflexivity|]. split; [vm_compute; reflexivity|]. split; [vm_compute; reflexivity|]. split; [vm_compute; reflexivity|].
  vm_compute. repeat split; auto. intros e E Q. repeat (destruct E as [E|E]; [subst e; try discriminate Q; reflexivity|]). destruct E.
Qed.
(* a scan in three calls; before the second one prefix has disappeared and another one has appeared *)
Definition ex_mid : list pop := [PUnlink 3; PLink 9 [122; 122; 122; 122; 58; 49] TMap 50 false true].
Definition after (s : pstate) (l : list pop) : pstate := match prun hsum s l with Some (s', _) => s' | None => s end.
Example ex_session : exists ns cs, session hsum ex_state (stored [] ex_ops ex_outs) (held [] ex_ops ex_outs) [48] ns cs true /\
  ns = [None; Some [97]; Some [98]; Some [122; 122; 122; 122]] /\ length cs = 3%nat /\ Forall (fun c => under (Some [97]) c <> []) cs.
Proof.
  set (s1 := after ex_state [PScan [48] 100 400]). set (s2 := after s1 (ex_mid ++ [PScan (dec_text 400) 100 400])).
  eexists. eexists. split.
  - eapply ses_more with (ops := []) (s1 := ex_state) (req := 100) (asz := 400) (s2 := s1) (cur' := dec_text 400); [reflexivity|exact Logic.I|lia|vm_compute; reflexivity|discriminate|].
    eapply ses_more with (ops := ex_mid) (s1 := after s1 ex_mid) (req := 100) (asz := 400) (s2 := s2) (cur' := dec_text 800);
      [vm_compute; reflexivity|apply legalb_ok; vm_compute; reflexivity|lia|vm_compute; reflexivity|discriminate|].
    eapply ses_last with (ops := []) (req := 100) (asz := 400); [reflexivity|exact Logic.I|lia|vm_compute; reflexivity].
  - split; [vm_compute; reflexivity|]. split; [reflexivity|]. repeat constructor; vm_compute; discriminate.
Qed.
(* three prefixes in one chain and an array of two entries *)
Definition ex_three : list pop := map (fun n => PLink n [96 + n; 58; 49] TKv 50 false true) [1; 2; 3].
Definition ex_three_st : pstate := match prun (fun _ => 7) pinit ex_three with Some (s, _) => s | None => pinit end.
Example ex_three_crowded : exists l hd, reached (fun _ => 7) ex_three ex_three_st l hd /\ crowded ex_three_st 2.
Proof.
  eexists. eexists. split.
  - eexists. split; [vm_compute; reflexivity|]. split; [apply legalb_ok; vm_compute; reflexivity|]. split; reflexivity.
  - exists 7. split; [reflexivity|]. apply Nat.ltb_lt. vm_compute. reflexivity.
Qed.

Print Assumptions C23_stats.
Print Assumptions C23_named.
Print Assumptions C23_count.
Print Assumptions C23_safe.
Print Assumptions C23_refused.
Print Assumptions C43_exactly_once_partial.
Print Assumptions C43_ends_partial.
Print Assumptions C43_call_partial.
Print Assumptions C43_crowded_refuted.
Print Assumptions C44_items.
Print Assumptions C44_sticky_partial.
Print Assumptions C44_sticky_refuted.
Print Assumptions C23_long_prefix_refuted.
Print Assumptions C23_large_collection_refuted.
