(* Properties C21, C22, C41 and C42: the hash table of the keys, SCAN and the background scans. *)
From Verif Require Import Base UtilModel AssocModel AssocSpec AssocRev AssocProofs AssocScan AssocRun AssocHist AssocDirect AssocCmd.
Local Open Scope N_scope.

(* ---------- C21 ---------- *)
(* Whatever the hash function is and whenever memory for growing the table is missing: every history of
   operations runs without a failed assertion, every lookup finds exactly what the finite map holds, the
   count is the number of stored keys and the root array has room for all tables. *)
Theorem C21_map : forall hp hash n ops, legal_run (empty n) ops ->
  exists a xs, run hp hash (init hp n) ops = Some (a, xs) /\ answers (empty n) ops xs /\
    (forall k, find hp hash a k = lookup (kv (final (empty n) ops)) k) /\
    items a = N.of_nat (length (kv (final (empty n) ops))) /\ rsize a <= rtsz a.
Proof.
  intros hp hash n ops L. destruct (run_ok hp hash ops (init hp n) (empty n) (init_inv hp hash n) L) as (a & xs & R & I & A).
  exists a, xs. split; [exact R|]. split; [exact A|]. pose proof (i_base hp hash _ _ I) as B.
  split; [intro k; apply find_ok; exact B|]. split; [apply (b_cnt hp hash _ _ B)|]. apply (g_tsz hp a (b_geo hp hash _ _ B)).
Qed.

(* ---------- C42: background scans (checkpoint, scrub, dump) ---------- *)
Lemma scan_start hp hash n pre s g l a0 xs0 a xs : legal_run (empty n) (pre ++ ScanInit s g :: l) ->
  run hp hash (init hp n) pre = Some (a0, xs0) -> run hp hash a0 (ScanInit s g :: l) = Some (a, xs) ->
  exists ys, xs = ODone :: ys /\ run hp hash (scan_init a0 s g) l = Some (a, ys) /\
    inv hp hash (scan_init a0 s g) (final (empty n) (pre ++ [ScanInit s g])) /\ legal_run (final (empty n) (pre ++ [ScanInit s g])) l /\
    kv (final (empty n) (pre ++ [ScanInit s g])) = kv (final (empty n) pre) /\
    nth_error (scans (scan_init a0 s g)) s = Some (mkScan 0 0 g false true) /\ (forall k, vis hp hash (scan_init a0 s g) s (mkScan 0 0 g false true) k = false).
Proof.
  intros L R0 R. apply legal_split in L as [L1 L2]. destruct L2 as [L2 L3].
  destruct (run_ok hp hash pre (init hp n) (empty n) (init_inv hp hash n) L1) as (a1 & xs1 & R1 & I1 & _). rewrite R0 in R1. injection R1 as <- <-.
  cbn [run step] in R. destruct (run hp hash (scan_init a0 s g) l) as [(a2, ys)|] eqn:R2; [|discriminate]. injection R as <- <-.
  exists ys. split; [reflexivity|]. split; [reflexivity|]. destruct (step_ok hp hash a0 _ _ I1 L2) as (a3 & x & E & I3 & _ & _). cbn [step] in E. injection E as <- _.
  assert (F : final (empty n) (pre ++ [ScanInit s g]) = effect (final (empty n) pre) (ScanInit s g)) by (unfold final; rewrite fold_left_app; reflexivity).
  rewrite F. split; [exact I3|]. split; [exact L3|]. split; [reflexivity|].
  cbn [legal] in L2. destruct (in_use (final (empty n) pre) s) as [[|]|] eqn:U; try discriminate. unfold in_use in U. rewrite (i_open hp hash _ _ I1) in U.
  apply nth_map_on in U as (sc & N & OFF).
  destruct (scan_init_step hp hash a0 _ s g sc (i_base hp hash _ _ I1) (i_stable hp hash _ _ I1) (i_sinv hp hash _ _ I1) N OFF) as (_ & _ & _ & SC & _ & V).
  split; [rewrite SC, nth_set_nth, N, Nat.eqb_refl; reflexivity|exact V].
Qed.

Lemma last_two {A} (l : list A) x d : last (l ++ [x]) d = x.
Proof. apply last_last. Qed.

(* A key stored while the scan runs is returned exactly once, whatever else happens to the table: other
   inserts and deletes, replacing its item, growth, other scans. *)
Theorem C42_exactly_once : forall hp hash n pre s g mid asz el cc a0 xs0 a xs k,
  legal_run (empty n) (pre ++ ScanInit s g :: mid ++ [ScanNext s asz el cc]) ->
  run hp hash (init hp n) pre = Some (a0, xs0) ->
  run hp hash a0 (ScanInit s g :: mid ++ [ScanNext s asz el cc]) = Some (a, xs) ->
  last xs ODone = OItems None ->
  forallb (keeps_scan s) mid = true -> forallb (keeps_key k) mid = true -> stored (kv (final (empty n) pre)) k = true ->
  times k (returned s (ScanInit s g :: mid ++ [ScanNext s asz el cc]) xs) = 1%nat.
Proof.
  intros hp hash n pre s g mid asz el cc a0 xs0 a xs k L R0 R LAST KS KK ST.
  destruct (scan_start hp hash n pre s g _ a0 xs0 a xs L R0 R) as (ys & -> & R1 & I1 & L1 & KV & N1 & V1).
  set (w1 := final (empty n) (pre ++ [ScanInit s g])) in *. rewrite <- KV in ST.
  apply run_split in R1 as (a2 & ys1 & ys2 & R2 & R3 & -> & LEN). apply legal_split in L1 as [L2 L3].
  destruct (track_run hp hash s mid _ w1 a2 ys1 _ I1 L2 R2 N1 eq_refl KS) as (sc2 & N2 & ON2 & _ & T2 & _).
  destruct (T2 k ST KK) as [ST2 C2].
  destruct (run_ok hp hash mid _ w1 I1 L2) as (a2' & ys1' & R2' & I2 & _). rewrite R2 in R2'. injection R2' as <- <-.
  destruct L3 as [L3 _]. destruct (step_ok hp hash a2 _ _ I2 L3) as (a3 & x & E & _ & _ & T3). cbn [run] in R3. rewrite E in R3. injection R3 as <- <-.
  destruct (T3 s sc2 N2 ON2 eq_refl) as (sc3 & _ & _ & _ & END & T4). specialize (T4 k ST2 eq_refl).
  change (ODone :: ys1 ++ [x]) with ((ODone :: ys1) ++ [x]) in LAST. rewrite last_last in LAST. subst x.
  cbn [returned]. rewrite returned_app by exact LEN. rewrite times_app. rewrite V1 in C2.
  assert (F : vis hp hash a3 s sc3 k = true).
  { unfold vis. rewrite (END ltac:(cbn; apply Nat.eqb_refl) eq_refl). pose proof (bkt_lt hp hash k). replace (bucket_of hp (hash k) <? hsize hp) with true by lia. reflexivity. }
  rewrite F in T4. lia.
Qed.

(* Before the end of the scan: a key that is not deleted is returned at most once (also if it is inserted
   while the scan runs). *)
Theorem C42_at_most_once : forall hp hash n pre s g mid a0 xs0 a xs k,
  legal_run (empty n) (pre ++ ScanInit s g :: mid) ->
  run hp hash (init hp n) pre = Some (a0, xs0) -> run hp hash a0 (ScanInit s g :: mid) = Some (a, xs) ->
  forallb (keeps_scan s) mid = true -> forallb (keeps_key k) mid = true ->
  (times k (returned s (ScanInit s g :: mid) xs) <= 1)%nat.
Proof.
  intros hp hash n pre s g mid a0 xs0 a xs k L R0 R KS KK.
  destruct (scan_start hp hash n pre s g mid a0 xs0 a xs L R0 R) as (ys & -> & R1 & I1 & L1 & KV & N1 & V1).
  destruct (track_run hp hash s mid _ _ a ys _ I1 L1 R1 N1 eq_refl KS) as (sc2 & N2 & ON2 & _ & _ & T2). apply (T2 k KK).
Qed.

(* A scan asked whether it has passed a key says so exactly if it has returned the key, once it has been
   asked for items. *)
Theorem C42_visited_partial : forall hp hash n pre s g mid a0 xs0 a xs k b,
  legal_run (empty n) (pre ++ ScanInit s g :: mid ++ [Visited s k]) ->
  run hp hash (init hp n) pre = Some (a0, xs0) -> run hp hash a0 (ScanInit s g :: mid ++ [Visited s k]) = Some (a, xs) ->
  last xs ODone = OVisited b -> existsb (is_next s) mid = true ->
  forallb (keeps_scan s) mid = true -> forallb (keeps_key k) mid = true -> stored (kv (final (empty n) pre)) k = true ->
  b = true <-> times k (returned s (ScanInit s g :: mid ++ [Visited s k]) xs) = 1%nat.
Proof.
  intros hp hash n pre s g mid a0 xs0 a xs k b L R0 R LAST NX KS KK ST.
  destruct (scan_start hp hash n pre s g _ a0 xs0 a xs L R0 R) as (ys & -> & R1 & I1 & L1 & KV & N1 & V1).
  set (w1 := final (empty n) (pre ++ [ScanInit s g])) in *. rewrite <- KV in ST.
  apply run_split in R1 as (a2 & ys1 & ys2 & R2 & R3 & -> & LEN). apply legal_split in L1 as [L2 L3].
  destruct (track_run hp hash s mid _ w1 a2 ys1 _ I1 L2 R2 N1 eq_refl KS) as (sc2 & N2 & ON2 & STD & T2 & _).
  destruct (T2 k ST KK) as [ST2 C2]. specialize (STD (or_intror NX)).
  cbn [run step] in R3. injection R3 as <- <-.
  change (ODone :: ys1 ++ [OVisited (visited hp hash a2 s k)]) with ((ODone :: ys1) ++ [OVisited (visited hp hash a2 s k)]) in LAST. rewrite last_last in LAST. injection LAST as <-.
  cbn [returned]. rewrite returned_app by exact LEN. rewrite times_app. cbn [returned times filter length]. rewrite V1 in C2.
  rewrite (visited_vis hp hash a2 s sc2 k N2 STD). change (times k []) with 0%nat. destruct (vis hp hash a2 s sc2 k); split; intro; try reflexivity; try discriminate; lia.
Qed.

(* ---------- C22: SCAN ---------- *)
Definition reached (hp : N) (hash : bytes -> N) (n : nat) (pre : list op) (a : assoc) (w : world) : Prop :=
  legal_run (empty n) pre /\ (exists xs, run hp hash (init hp n) pre = Some (a, xs)) /\ w = final (empty n) pre.
Lemma reached_inv hp hash n pre a w : reached hp hash n pre a w -> inv hp hash a w.
Proof.
  intros (L & (xs & R) & ->). destruct (run_ok hp hash pre (init hp n) (empty n) (init_inv hp hash n) L) as (a' & xs' & R' & I & _).
  rewrite R in R'. injection R' as <- <-. exact I.
Qed.

(* A key stored during a whole iteration is returned exactly once by it, with any operations and any growth of
   the table between the calls.  Missing: calls whose array is too small for the keys of one chain
   (roomy); C22_crowded_refuted shows that those lose keys. *)
Theorem C22_exactly_once_partial : forall hp hash n pre a w l ds k, hp <= 17 -> reached hp hash n pre a w ->
  legal_run w (all_ops l) -> roomy hp hash a w l -> session hp hash a [48] l = Some (ds, true) ->
  stored (kv w) k = true -> forallb (keeps_key k) (all_ops l) = true -> times k ds = 1%nat.
Proof.
  intros hp hash n pre a w l ds k Hh RC LG RM S ST KK. apply reached_inv in RC.
  destruct (session_ok hp hash Hh l a w [48] 0 0 RC LG RM (decode_zero hp) (rsize_pos a)) with (ds := ds) (e := true) (k := k) as [_ C]; try assumption.
  { intros _. unfold pos. rewrite revn_0. reflexivity. }
  rewrite (C eq_refl). unfold pos. rewrite revn_0. cbn. destruct (kpos hp hash a k); reflexivity.
Qed.

(* One call, with any text as cursor: no write outside the array, no key twice, only keys stored now with
   their current items, and a cursor that the next call accepts. *)
Theorem C22_call_partial : forall hp hash n pre a w cur req asz, hp <= 17 -> reached hp hash n pre a w ->
  0 < asz -> req <= asz -> fits hp hash a (kv w) req asz ->
  match scan_direct hp a cur req asz with
  | None => False
  | Some BadCursor => match decode hp cur with Some (t, b) => rsize a <= t | None => True end
  | Some (Scanned cur' l) => (forall k v, In (k, v) l -> lookup (kv w) k = Some v) /\ NoDup (map fst l) /\
      exists t b, decode hp cur' = Some (t, b) /\ t < rsize a
  end.
Proof.
  intros hp hash n pre a w cur req asz Hh RC A1 A2 FT. apply reached_inv in RC. pose proof (i_base hp hash _ _ RC) as B. pose proof (b_geo hp hash _ _ B) as G.
  destruct (decode hp cur) as [(t, b)|] eqn:D.
  - destruct (N.lt_ge_cases t (rsize a)) as [T|T].
    + destruct (call_ok hp hash a (kv w) cur req asz t b Hh B FT A1 A2 D T) as (n0 & cur' & R & _ & _ & C). rewrite R.
      split; [intros k v H; apply lookup_in; [apply (b_ndm hp hash _ _ B)|]; apply (seg_in hp hash a _ n0 B) in H; tauto|].
      split; [apply (seg_nodup hp hash a _ n0 B)|]. destruct C as [[-> _]|(t' & b' & -> & T' & B' & _)].
      * exists 0, 0. rewrite encode_zero. split; [apply decode_zero|apply rsize_pos].
      * exists t', b'. split; [|exact T']. apply decode_encode; [exact Hh| |exact B']. unfold rsize in T'. eapply N.lt_le_trans; [exact T'|]. apply N.pow_le_mono_r; [discriminate|]. apply (g_pow hp a G).
    + unfold scan_direct. replace ((asz =? 0) || (asz <? req)) with false by lia. rewrite D. replace (rsize a <=? t) with true by lia. exact T.
  - unfold scan_direct. replace ((asz =? 0) || (asz <? req)) with false by lia. rewrite D. exact I.
Qed.

(* An iteration over a table at rest ends, after at most as many calls as there are chains. *)
Theorem C22_ends_partial : forall hp hash n pre a w req asz, hp <= 17 -> reached hp hash n pre a w ->
  0 < req -> req <= asz -> fits hp hash a (kv w) req asz ->
  exists calls ds, N.of_nat calls <= hsize hp * rsize a /\ session hp hash a [48] (repeat ([], (req, asz)) calls) = Some (ds, true).
Proof.
  intros hp hash n pre a w req asz Hh RC R1 R2 FT. apply reached_inv in RC. pose proof (i_base hp hash _ _ RC) as B. pose proof (b_geo hp hash _ _ B) as G.
  assert (ALL : forall left cur t b, decode hp cur = Some (t, b) -> t < rsize a -> b < hsize hp -> hsize hp * rsize a - pos a t b <= N.of_nat left ->
     exists calls ds, N.of_nat calls <= N.of_nat left /\ session hp hash a cur (repeat ([], (req, asz)) calls) = Some (ds, true)).
  { induction left as [|left IH]; intros cur t b D T BL LE.
    - pose proof (pos_lt hp a t b BL) as PL. unfold last_pos in PL. cbn in LE. lia.
    - destruct (call_ok hp hash a (kv w) cur req asz t b Hh B FT ltac:(lia) R2 D T) as (n0 & cur' & R & L1 & L2 & C). specialize (L2 R1).
      destruct C as [[-> E]|(t' & b' & -> & T' & B' & P' & _ & LT)].
      + exists 1%nat. cbn [repeat session run]. rewrite R, encode_zero. change (beqb [48] [48]) with true. eexists. split; [|reflexivity]. lia.
      + assert (D' : decode hp (encode hp t' b') = Some (t', b')).
        { apply decode_encode; [exact Hh| |exact B']. unfold rsize in T'. eapply N.lt_le_trans; [exact T'|]. apply N.pow_le_mono_r; [discriminate|]. apply (g_pow hp a G). }
        destruct (beqb (encode hp t' b') [48]) eqn:Z.
        { exists 1%nat. cbn [repeat session run]. rewrite R, Z. eexists. split; [|reflexivity]. lia. }
        destruct (IH (encode hp t' b') t' b' D' T' B') as (calls & ds & LC & S). { unfold last_pos in *. lia. }
        exists (Datatypes.S calls). cbn [repeat session run]. rewrite R, Z, S. eexists. split; [|reflexivity]. lia. }
  destruct (ALL (N.to_nat (hsize hp * rsize a)) [48] 0 0 (decode_zero hp) (rsize_pos a) (hsize_pos hp) ltac:(lia)) as (calls & ds & LC & S).
  exists calls, ds. split; [lia|exact S].
Qed.

(* enough: the array has room for all keys *)
Lemma fits_few hp hash a m req asz : req - 1 + N.of_nat (length m) <= asz -> fits hp hash a m req asz.
Proof.
  intros H h. unfold crowd. assert (LE : Nat.le (length (filter (fun p => hash (fst p) mod 2 ^ low_bits hp a =? h) m)) (length m)); [|unfold Nat.le in LE; lia].
  clear H. induction m as [|x m IH]; [apply Nat.le_refl|]. cbn [filter length]. destruct (_ =? h); cbn [length]; unfold Nat.le in *; lia.
Qed.

(* ---------- C41: the counts of SCAN ---------- *)
(* counts up to 200 are one call *)
Theorem C41_small_count_partial : forall hp hash n pre a w slow mtch cur count asz, hp <= 17 -> reached hp hash n pre a w ->
  0 < count <= 200 -> count + 100 <= asz -> (forall h, crowd hp hash a (kv w) h <= 101) ->
  keyscan hp [(a, slow)] mtch cur count asz =
    match scan_direct hp a cur count asz with Some (Scanned c l) => Some (Scanned c (filter mtch l)) | r => r end /\
  keyscan hp [(a, slow)] mtch cur count asz <> None.
Proof.
  intros hp hash n pre a w slow mtch cur count asz Hh RC C A FT.
  assert (FT' : fits hp hash a (kv w) count asz) by (intro h; specialize (FT h); lia).
  pose proof (C22_call_partial hp hash n pre a w cur count asz Hh RC ltac:(lia) ltac:(lia) FT') as K.
  unfold keyscan. replace (asz <? count + 100) with false by lia. cbn [keyscan_loop]. replace (0 <? count) with true by lia.
  change (N.of_nat (length (@nil (bytes * N)))) with 0.
  assert (E : (count + u32 - 0) mod u32 = count).
  { rewrite N.sub_0_r. replace (count + u32) with (count + 1 * u32) by lia. rewrite N.mod_add by discriminate. apply N.mod_small. unfold u32. lia. }
  rewrite E. assert (IC : (if count <? 200 then count else 200) = count) by (destruct (count <? 200) eqn:Q; lia). rewrite IC, N.sub_0_r.
  destruct (scan_direct hp a cur count asz) as [[|cur' l]|]; [split; [reflexivity|discriminate]| |destruct K].
  cbn [app]. replace (0 + count <? count) with false by lia. destruct (_ || slow); split; try reflexivity; discriminate.
Qed.

(* ---------- examples ---------- *)
(* two buckets, the hash value of a key is its first byte *)
Definition h1 (k : bytes) : N := hd 0 k.
Definition ins (l : list N) : list op := map (fun x => Insert [x] (100 + x) true true) l.
Definition pre1 : list op := ins [0; 1; 2; 3; 4; 5; 6; 7; 8; 9; 10; 11; 12; 13].
Definition st (hp : N) (hash : bytes -> N) (n : nat) (l : list op) : assoc := match run hp hash (init hp n) l with Some (a, _) => a | None => init hp n end.
Definition a1 : assoc := st 1 h1 2 pre1.
Ltac legal := repeat (split; [vm_compute; reflexivity|]); exact I.

Example pre1_legal : legal_run (empty 2) pre1.
Proof. unfold pre1, ins. cbn [map]. legal. Qed.
(* the table is growing from 4 tables to 8 *)
Example pre1_grown : rsize a1 = 8 /\ expg a1 = true /\ find 1 h1 a1 [7] = Some 107 /\ find 1 h1 a1 [20] = None.
Proof. vm_compute. repeat split; reflexivity. Qed.
Example pre1_reached : reached 1 h1 2 pre1 a1 (final (empty 2) pre1).
Proof. split; [exact pre1_legal|]. split; [|reflexivity]. eexists. unfold a1, st. vm_compute. reflexivity. Qed.

(* a scan with deletes, inserts and growth while it runs *)
Definition nocc : N -> option N := fun _ => None.
Definition mid1 : list op :=
  [ScanNext 0 2 0 nocc; Delete [1]; ScanNext 0 2 0 nocc] ++ ins [16; 17; 32; 33; 48; 49; 64; 65] ++
  [Replace [5] 1; ScanNext 0 3 0 nocc; ScanNext 0 30 0 nocc].
Example mid1_once : exists a xs, run 1 h1 a1 (ScanInit 0 9 :: mid1 ++ [ScanNext 0 2 0 nocc]) = Some (a, xs) /\ last xs ODone = OItems None /\
  legal_run (empty 2) (pre1 ++ ScanInit 0 9 :: mid1 ++ [ScanNext 0 2 0 nocc]) /\
  map (fun x => times [x] (returned 0 (ScanInit 0 9 :: mid1 ++ [ScanNext 0 2 0 nocc]) xs)) [0; 5; 9; 16] = [1; 1; 1; 0]%nat.
Proof.
  eexists. eexists. split; [vm_compute; reflexivity|]. split; [reflexivity|]. split; [|vm_compute; reflexivity].
  unfold pre1, mid1, ins. cbn [map app]. legal.
Qed.

(* before it is asked for items the first time, a scan can say that it has passed a key it has not returned:
   assoc_scan_init leaves the table index uninitialised *)
Theorem C42_visited_refuted : exists hp hash n pre s g a0 xs0 a xs k,
  legal_run (empty n) (pre ++ [ScanInit s g; Visited s k]) /\ run hp hash (init hp n) pre = Some (a0, xs0) /\
  run hp hash a0 [ScanInit s g; Visited s k] = Some (a, xs) /\ last xs ODone = OVisited true /\
  stored (kv (final (empty n) pre)) k = true /\ times k (returned s [ScanInit s g; Visited s k] xs) = 0%nat.
Proof.
  exists 1, h1, 2%nat, pre1, 0%nat, 9, a1. eexists. eexists. eexists. exists [4].
  split; [unfold pre1, ins; cbn [map app]; legal|]. split; [vm_compute; reflexivity|]. split; [vm_compute; reflexivity|]. repeat split; reflexivity.
Qed.

(* a SCAN iteration with growth between the calls *)
Definition ses1 : list (list op * (N * N)) :=
  [([], (2, 30)); (ins [16; 17; 32; 33; 48; 49; 64; 65], (2, 30)); ([Delete [0]], (2, 30)); ([], (9, 40)); ([], (9, 40))].
Example ses1_room : roomy 1 h1 a1 (final (empty 2) pre1) ses1.
Proof.
  unfold ses1. repeat first [ split; [lia|]; intros ?a ?xs _; split; [apply fits_few; vm_compute; discriminate|] | exact I ].
Qed.
Example ses1_runs : exists ds, session 1 h1 a1 [48] ses1 = Some (ds, true) /\ legal_run (final (empty 2) pre1) (all_ops ses1) /\
  map (fun x => times [x] ds) [1; 5; 9; 8] = [1; 1; 1; 1]%nat.
Proof.
  eexists. split; [vm_compute; reflexivity|]. split; [|vm_compute; reflexivity]. unfold ses1, all_ops, ins. cbn [map flat_map fst app]. legal.
Qed.

(* 201 keys with one hash value, calls with count 1 and the smallest array the server uses (200 entries) *)
Definition deep : list op := map (fun x => Insert [N.of_nat x] 7 true true) (seq 0 201).
Definition a2 : assoc := st 1 (fun _ => 0) 1 deep.
Fixpoint legalb (w : world) (l : list op) : bool := match l with [] => true | o :: r => legal w o && legalb (effect w o) r end.
Lemma legalb_ok : forall l w, legalb w l = true -> legal_run w l.
Proof. induction l as [|o l IH]; intros w H; [exact I|]. cbn [legalb] in H. apply andb_true_iff in H as [H1 H2]. split; [exact H1|apply IH; exact H2]. Qed.

Theorem C22_crowded_refuted : exists hp hash n pre a w calls ds k, hp <= 17 /\ reached hp hash n pre a w /\
  session hp hash a [48] (repeat ([], (1, 200)) calls) = Some (ds, true) /\ stored (kv w) k = true /\ times k ds = 0%nat.
Proof.
  exists 1, (fun _ => 0), 1%nat, deep, a2, (final (empty 1) deep), 65%nat. eexists. exists [0].
  split; [lia|]. split; [split; [apply legalb_ok; vm_compute; reflexivity|split; [eexists; unfold a2, st; vm_compute; reflexivity|reflexivity]]|].
  split; [vm_compute; reflexivity|]. split; vm_compute; reflexivity.
Qed.

(* count 201: 199 chains of one key, then a chain of four: 203 keys, more than the count *)
Definition h2 (k : bytes) : N := N.min 199 (hd 0 k).
Definition wide : list op := map (fun x => Insert [N.of_nat x] 7 true true) (seq 0 203).
Definition a3 : assoc := st 8 h2 1 wide.
Theorem C41_any_count_refuted : exists hp hash n pre a w tables mtch count asz, hp <= 17 /\ reached hp hash n pre a w /\
  (forall h, crowd hp hash a (kv w) h <= 101) /\ 0 < count <= 2000 /\ count + 100 <= asz /\ Forall (fun x => x = (a, false)) tables /\ (10 <= length tables)%nat /\
  keyscan hp tables mtch [48] count asz = None.
Proof.
  exists 8, h2, 1%nat, wide, a3, (final (empty 1) wide), (repeat (a3, false) 10), (fun _ => true), 201, 400.
  split; [lia|]. split; [split; [apply legalb_ok; vm_compute; reflexivity|split; [eexists; unfold a3, st; vm_compute; reflexivity|reflexivity]]|].
  split.
  { intro h. unfold crowd. assert (E : low_bits 8 a3 = 8) by (vm_compute; reflexivity). rewrite E.
    set (m := kv (final (empty 1) wide)). assert (EM : m = rev (map (fun x => ([N.of_nat x], 7)) (seq 0 203))) by (vm_compute; reflexivity).
    destruct (h =? 199) eqn:C.
    - apply N.eqb_eq in C. subst h. vm_compute. discriminate.
    - set (f := filter (fun p => h2 (fst p) mod 2 ^ 8 =? h) m). assert (LE : Nat.le (length f) 1); [|unfold Nat.le in LE; lia].
      assert (INC : incl f [([h], 7)]).
      { intros p I. apply filter_In in I as [I1 I2]. rewrite EM in I1. apply in_rev in I1. apply in_map_iff in I1 as (x & <- & I1). apply in_seq in I1.
        apply N.eqb_eq in I2. cbn [fst h2 hd] in I2. apply N.eqb_neq in C. change (2 ^ 8) with 256 in I2. unfold h2 in I2. cbn [hd] in I2.
        rewrite N.mod_small in I2 by lia. assert (N.of_nat x = h) by lia. left. congruence. }
      apply NoDup_incl_length in INC; [exact INC|]. apply (NoDup_map_inv fst). apply map_filter_nodup. rewrite EM, map_rev. apply NoDup_rev. rewrite map_map. cbn [fst].
      apply FinFun.Injective_map_NoDup; [intros x y Q; injection Q as Q; lia|apply seq_NoDup]. }
  split; [lia|]. split; [lia|]. split; [apply Forall_forall; intros x I; apply repeat_spec in I; exact I|]. split; [cbn; lia|]. vm_compute. reflexivity.
Qed.

Print Assumptions C21_map.
Print Assumptions C22_exactly_once_partial.
Print Assumptions C22_call_partial.
Print Assumptions C22_ends_partial.
Print Assumptions C22_crowded_refuted.
Print Assumptions C41_small_count_partial.
Print Assumptions C41_any_count_refuted.
Print Assumptions C42_exactly_once.
Print Assumptions C42_at_most_once.
Print Assumptions C42_visited_partial.
Print Assumptions C42_visited_refuted.
