(* Property theorems about bop smget (C20).
   st gives what the hash table holds for a key; every B+tree in it is the result of a history of
   commands (reach).  The keys of the request are distinct and have no NUL byte; what happens
   otherwise is at the end. *)
From Coq Require Import Sorting.Sorted Sorting.Permutation.
From Verif Require Import Base UtilModel BtModel BtSpec BtOrder BtLevel BtFind BtSplit BtMerge BtMerge2 BtWalk BtGet BtGet2
  BtOps BtKeys BtIns BtRefine BtRun SmgetModel SmgetSpec SmgetScan SmgetList SmgetMerge SmgetKeys SmgetSort SmgetProofs.
Local Open Scope nat_scope.

(* a request the server lets through, on a store it can have *)
Definition request (st : bytes -> entry) (ks : list bytes) (fl : option efilter) (cnt : nat) : Prop :=
  NoDup ks /\ Forall nul_free ks /\ (forall k r f t, In k ks -> st k = Tree r f t -> reach t) /\ ofilter_ok fl /\ 0 < cnt.
(* what the users know of the store *)
Definition seen (st : bytes -> entry) (k : bytes) : content := content_of (st k).

Lemma request_spec st ks g fl ofs cnt unique : request st ks fl cnt ->
  let w := wanted (seen st) ks g fl ofs cnt unique in
  match first_error (seen st) g ks with
  | Some e => smget st ks g fl ofs cnt unique = Some (Failed e)
  | None => exists r, smget st ks g fl ofs cnt unique = Some (Found r) /\
      r_el r = map trip w /\ r_miss r = misses (seen st) g 0 ks /\ r_dup r = doubled w /\
      ordered_keys (desc g) (pairs (r_trim r)) /\ Permutation (pairs (r_trim r)) (trims (seen st) g (tail_of cnt w) 0 ks)
  end.
Proof.
  intros (ND & NF & HR & OF & CN). apply (smget_spec g fl unique ofs cnt st OF CN ks); [|exact ND].
  apply Forall_forall. intros k HK. rewrite Forall_forall in NF. split; [auto|]. destruct (st k) eqn:E; auto. eapply HR; eassumption.
Qed.

(* the answer: the elements at positions ofs .. ofs + cnt - 1 of the merged, sorted ranges *)
Theorem C20_elements : forall st ks g fl ofs cnt unique r, request st ks fl cnt ->
  smget st ks g fl ofs cnt unique = Some (Found r) ->
  r_el r = map (fun h => (h_e h, h_ix h, h_fl h)) (wanted (seen st) ks g fl ofs cnt unique).
Proof.
  intros st ks g fl ofs cnt unique r HQ HS. pose proof (request_spec st ks g fl ofs cnt unique HQ) as SP. cbv zeta in SP.
  destruct (first_error (seen st) g ks); [congruence|]. destruct SP as (r' & E & P & _). assert (r' = r) by congruence. subst. exact P.
Qed.
Print Assumptions C20_elements.

(* the sorting inside [wanted] is one: nothing lost, nothing added, strictly increasing by bkey and
   key; one element per bkey in unique mode, the first one *)
Theorem C20_sorted : forall st ks g fl cnt, request st ks fl cnt ->
  let all := all_hits (seen st) g fl 0 ks in
  let m := sort (desc g) all in
  Permutation m all /\
  (forall i j x y, i < j -> nth_error m i = Some x -> nth_error m j = Some y -> before (desc g) x y = true) /\
  NoDup (map (fun x => bk (h_e x)) (firsts m)) /\
  (forall x, In x (firsts m) <-> In x m /\ forall y, In y m -> bk (h_e y) = bk (h_e x) -> y <> x -> before (desc g) x y = true).
Proof.
  intros st ks g fl cnt (ND & NF & HR & OF & CN) all m.
  assert (AP : apart all).
  { apply (all_apart g fl st); [|exact ND]. apply Forall_forall. intros k HK. rewrite Forall_forall in NF. split; [auto|]. destruct (st k) eqn:E; auto. eapply HR; eassumption. }
  pose proof (sort_sorted (desc g) all AP) as SS. fold m in SS. split; [apply sort_perm|]. split; [|split].
  - clear - SS. revert SS. generalize m. induction m0 as [|z l IH]; intros SS i j x y IJ HX HY; [destruct i; discriminate|]. inversion SS as [|? ? S1 S2]; subst.
    destruct j as [|j]; [lia|]. cbn in HY. destruct i as [|i]; cbn in HX; [|eapply (IH S1 i j); eauto; lia].
    injection HX as <-. rewrite Forall_forall in S2. apply S2. eapply nth_error_In. exact HY.
  - rewrite (dd_firsts (desc g)) by exact SS. apply (dd_keys_nodup (desc g)). exact SS.
  - clear - SS. revert SS. generalize m. induction m0 as [|z l IH]; intros SS x; [cbn; tauto|]. inversion SS as [|? ? S1 S2]; subst. rewrite Forall_forall in S2. specialize (IH S1).
    cbn [firsts In]. rewrite filter_In, negb_true_iff, IH. split.
    + intros [<-|((H1 & H2) & H3)].
      * split; [left; reflexivity|]. intros y [<-|HY] _ NE; [congruence|auto].
      * split; [right; exact H1|]. intros y [<-|HY] E NE; [rewrite E, keq_refl in H3; discriminate|auto].
    + intros ([<-|H1] & H2); [left; reflexivity|]. right. split; [split; [exact H1|intros y HY; apply H2; right; exact HY]|].
      destruct (keq (bk (h_e z)) (bk (h_e x))) eqn:K; [|reflexivity]. apply keq_eq in K. specialize (S2 x H1).
      assert (NE : z <> x) by (intros ->; rewrite before_irrefl in S2; discriminate). specialize (H2 z (or_introl eq_refl) K NE). apply before_asym in S2. congruence.
Qed.
Print Assumptions C20_sorted.

(* every key that cannot take part is reported, with the reason, and no other *)
Theorem C20_missed : forall st ks g fl ofs cnt unique r, request st ks fl cnt ->
  smget st ks g fl ofs cnt unique = Some (Found r) ->
  r_miss r = misses (seen st) g 0 ks /\
  (forall i why, In (i, why) (r_miss r) <-> exists k, nth_error ks i = Some k /\ In (i, why) (key_miss g i (seen st k))).
Proof.
  intros st ks g fl ofs cnt unique r HQ HS. pose proof (request_spec st ks g fl ofs cnt unique HQ) as SP. cbv zeta in SP.
  destruct (first_error (seen st) g ks); [congruence|]. destruct SP as (r' & E & _ & P & _). assert (r' = r) by congruence. subst. rewrite P. split; [reflexivity|].
  assert (IXS : forall i why j c, In (i, why) (key_miss g j c) -> i = j).
  { intros i why j c H. unfold key_miss in H. destruct c; try (destruct H as [[= -> _]|[]]; reflexivity); [contradiction|]. destruct (out_of_range s g); [|contradiction]. destruct H as [[= -> _]|[]]; reflexivity. }
  assert (G : forall ks n i why, In (i, why) (misses (seen st) g n ks) <-> exists j k, i = n + j /\ nth_error ks j = Some k /\ In (i, why) (key_miss g i (seen st k))).
  { clear - IXS. induction ks as [|k ks IH]; intros n i why; cbn [misses].
    - split; [intros []|]. intros (j & k & _ & H & _). destruct j; discriminate.
    - rewrite in_app_iff, IH. split.
      + intros [H|(j & k' & H1 & H2 & H3)].
        * pose proof (IXS _ _ _ _ H) as ->. exists 0, k. split; [lia|]. split; [reflexivity|exact H].
        * exists (S j), k'. split; [lia|]. split; assumption.
      + intros ([|j] & k' & H1 & H2 & H3).
        * left. cbn in H2. injection H2 as ->. rewrite Nat.add_0_r in H1. subst i. exact H3.
        * right. exists j, k'. split; [lia|]. split; assumption. }
  intros i why. rewrite G. cbn [Nat.add]. split; [intros (j & k & -> & H); eauto|intros (k & H); eauto].
Qed.
Print Assumptions C20_missed.

(* keys whose elements were trimmed from a point inside the answer on are reported once, with the
   last bkey that is left, in the order of the request *)
Theorem C20_trimmed : forall st ks g fl ofs cnt unique r, request st ks fl cnt ->
  smget st ks g fl ofs cnt unique = Some (Found r) ->
  let reported := map (fun p => (bk (fst p), snd p)) (r_trim r) in
  ordered_keys (desc g) reported /\
  Permutation reported (trims (seen st) g (tail_of cnt (wanted (seen st) ks g fl ofs cnt unique)) 0 ks).
Proof.
  intros st ks g fl ofs cnt unique r HQ HS. pose proof (request_spec st ks g fl ofs cnt unique HQ) as SP. cbv zeta in SP.
  destruct (first_error (seen st) g ks); [congruence|]. destruct SP as (r' & E & _ & _ & _ & P). assert (r' = r) by congruence. subst. exact P.
Qed.
Print Assumptions C20_trimmed.

(* DUPLICATED is reported when two elements of the answer have the same bkey *)
Theorem C20_duplicated : forall st ks g fl ofs cnt unique r, request st ks fl cnt ->
  smget st ks g fl ofs cnt unique = Some (Found r) ->
  (r_dup r = true <-> exists i x y, nth_error (r_el r) i = Some x /\ nth_error (r_el r) (S i) = Some y /\ bk (fst (fst x)) = bk (fst (fst y))) /\
  (unique = true -> r_dup r = false).
Proof.
  intros st ks g fl ofs cnt unique r HQ HS. pose proof (request_spec st ks g fl ofs cnt unique HQ) as SP. cbv zeta in SP.
  destruct (first_error (seen st) g ks); [congruence|]. destruct SP as (r' & E & P1 & _ & P2 & _). assert (r' = r) by congruence. subst r'. clear E.
  set (w := wanted (seen st) ks g fl ofs cnt unique) in *.
  assert (D : doubled w = true <-> exists i x y, nth_error w i = Some x /\ nth_error w (S i) = Some y /\ bk (h_e x) = bk (h_e y)).
  { clear. induction w as [|x w IH]; [split; [discriminate|intros ([|i] & x & y & H & _); discriminate]|]. destruct w as [|y w].
    - split; [discriminate|]. intros ([|[|i]] & u & v & _ & H & _); discriminate.
    - cbn [doubled]. rewrite orb_true_iff, IH. split.
      + intros [H|(i & u & v & H1 & H2 & H3)]; [exists 0, x, y; apply keq_eq in H; auto|exists (S i), u, v; auto].
      + intros ([|i] & u & v & H1 & H2 & H3); [left; cbn in H1, H2; injection H1 as ->; injection H2 as ->; rewrite H3; apply keq_refl|right; exists i, u, v; auto]. }
  split.
  - rewrite P2, D, P1. split.
    + intros (i & x & y & H1 & H2 & H3). exists i, (trip x), (trip y). rewrite !nth_error_map, H1, H2. auto.
    + intros (i & x & y & H1 & H2 & H3). rewrite nth_error_map in H1, H2. destruct (nth_error w i) as [a|] eqn:E1; [|discriminate]. destruct (nth_error w (S i)) as [b|] eqn:E2; [|discriminate].
      injection H1 as <-. injection H2 as <-. exists i, a, b. auto.
  - intros U. rewrite P2. apply not_true_is_false. intros DW. apply D in DW. destruct DW as (i & x & y & H1 & H2 & H3).
    destruct (C20_sorted st ks g fl cnt HQ) as (_ & _ & NDF & _). unfold w, wanted in H1, H2. rewrite U in H1, H2. set (f := firsts (sort (desc g) (all_hits (seen st) g fl 0 ks))) in *.
    assert (NT : forall j z, nth_error (firstn cnt (skipn ofs f)) j = Some z -> nth_error f (ofs + j) = Some z).
    { intros j z HZ. assert (JC : j < cnt). { assert (j < length (firstn cnt (skipn ofs f))) by (apply nth_error_Some; congruence). rewrite firstn_length in H. lia. }
      rewrite nth_error_firstn in HZ by exact JC. rewrite nth_error_skipn in HZ. exact HZ. }
    apply NT in H1. apply NT in H2. rewrite NoDup_nth_error in NDF. assert (Q : ofs + i = ofs + S i); [|lia]. apply NDF.
    + rewrite map_length. apply nth_error_Some. congruence.
    + rewrite !nth_error_map, H1, H2. cbn. f_equal. exact H3.
Qed.
Print Assumptions C20_duplicated.

(* the request fails only for a key of another type or a bkey of the other kind, and then always;
   the server does not run into an assert *)
Theorem C20_errors : forall st ks g fl ofs cnt unique, request st ks fl cnt ->
  match first_error (seen st) g ks with
  | Some e => smget st ks g fl ofs cnt unique = Some (Failed e)
  | None => exists r, smget st ks g fl ofs cnt unique = Some (Found r)
  end.
Proof.
  intros st ks g fl ofs cnt unique HQ. pose proof (request_spec st ks g fl ofs cnt unique HQ) as SP. cbv zeta in SP.
  destruct (first_error (seen st) g ks); [exact SP|]. destruct SP as (r & E & _). exists r. exact E.
Qed.
Print Assumptions C20_errors.

(* at most one entry per key in the tables of missed and trimmed keys (key_count entries long), at
   most cnt elements *)
Theorem C20_fits : forall st ks g fl ofs cnt unique r, request st ks fl cnt ->
  smget st ks g fl ofs cnt unique = Some (Found r) ->
  length (r_miss r) + length (r_trim r) <= length ks /\ length (r_el r) <= cnt.
Proof.
  intros st ks g fl ofs cnt unique r HQ HS. pose proof (request_spec st ks g fl ofs cnt unique HQ) as SP. cbv zeta in SP.
  destruct (first_error (seen st) g ks); [congruence|]. destruct SP as (r' & E & P1 & P2 & _ & _ & P5). assert (r' = r) by congruence. subst r'.
  apply Permutation_length in P5. unfold pairs in P5. rewrite map_length in P5. rewrite P1, P2, P5, map_length. split; [|unfold wanted; rewrite firstn_length; lia].
  generalize (tail_of cnt (wanted (seen st) ks g fl ofs cnt unique)). intros tl. clear. generalize 0. induction ks as [|k ks IH]; intros n; [cbn; lia|].
  cbn [misses trims length]. rewrite !app_length. specialize (IH (S n)).
  assert (length (key_miss g n (seen st k)) + length (key_trim g tl n (seen st k)) <= 1); [|lia].
  unfold key_miss, key_trim. destruct (seen st k); cbn [length]; try lia. destruct (out_of_range s g); cbn [length]; [lia|].
  destruct (rev (walk_of g (s_el s))); cbn [length]; [lia|]. match goal with |- context [if ?c then _ else _] => destruct c end; cbn [length]; lia.
Qed.
Print Assumptions C20_fits.

(* ---------- cases ---------- *)

Definition el (k : N) : elem := mkE (U64 k) [] [13; 10]%N.
Definition ins (k : N) : op := Insert (el k) false false true 8.
Definition tree (max : nat) (v : ovact) (l : list N) : bt := match run (init max v) (map ins l) with Some (s, _) => s | None => init max v end.
Lemma tree_reach max v l : (exists s outs, run (init max v) (map ins l) = Some (s, outs)) -> reach (tree max v l).
Proof.
  intros (s & outs & E). unfold tree. rewrite E. exists max, v, (map ins l), outs. split; [|exact E]. apply Forall_forall. intros o HO. apply in_map_iff in HO. destruct HO as (k & <- & _). exact I.
Qed.

Definition held (l : list (bytes * entry)) (k : bytes) : entry :=
  match find (fun p => if list_eq_dec N.eq_dec (fst p) k then true else false) l with Some (_, e) => e | None => Absent end.
Lemma held_reach l : Forall (fun p => match snd p with Tree _ _ t => reach t | _ => True end) l -> forall k r f t, held l k = Tree r f t -> reach t.
Proof.
  intros H k r f t E. unfold held in E. match type of E with context [find ?h l] => destruct (find h l) as [(k', e)|] eqn:F end; [|discriminate]. subst e. apply find_some in F. destruct F as (F & _).
  rewrite Forall_forall in H. exact (H _ F).
Qed.

Definition t1 := tree 400 OvSmallest [10; 40; 20; 30]%N.
Definition t2 := tree 3 OvSmallest [5; 20; 25; 40; 50]%N. (* keeps 25, 40, 50 *)
Definition t3 := tree 400 OvSmallest [20]%N.
Definition t4 := tree 400 OvSmallest [20; 40]%N.
Lemma t1_reach : reach t1. Proof. apply tree_reach. eexists _, _. vm_compute. reflexivity. Qed.
Lemma t2_reach : reach t2. Proof. apply tree_reach. eexists _, _. vm_compute. reflexivity. Qed.
Lemma t3_reach : reach t3. Proof. apply tree_reach. eexists _, _. vm_compute. reflexivity. Qed.
Lemma t4_reach : reach t4. Proof. apply tree_reach. eexists _, _. vm_compute. reflexivity. Qed.

Definition stored : list (bytes * entry) :=
  [([1]%N, Tree true 5 t1); ([2]%N, Tree true 6 t2); ([3]%N, Tree false 7 t3); ([4]%N, Tree true 8 t4); ([5]%N, Other)].
Definition store := held stored.
Definition keys : list bytes := [[4]; [1]; [9]; [2]; [3]]%N.
Lemma store_reach : forall k r f t, store k = Tree r f t -> reach t.
Proof. apply held_reach. repeat (apply Forall_cons; [cbn [snd]; first [exact t1_reach|exact t2_reach|exact t3_reach|exact t4_reach|exact I]|]). apply Forall_nil. Qed.

Example C20_case_request : request store keys None 4.
Proof.
  split; [repeat constructor; cbn; intuition discriminate|]. split; [repeat constructor; discriminate|]. split; [|split; [exact I|lia]].
  intros k r f t _. apply store_reach.
Qed.

(* descending from 45 to 1, offset 1: 40 of three keys (larger key first), 30, 25; key 2 was trimmed at 25 *)
Example C20_case :
  smget store keys (mkR (U64 45) (Some (U64 1))) None 1 4 false =
  Some (Found (mkRes [(el 40, 3, 6%N); (el 40, 1, 5%N); (el 30, 1, 5%N); (el 25, 3, 6%N)] [(2, MNoKey); (4, MUnreadable)] [] true)) /\
  smget store keys (mkR (U64 45) (Some (U64 1))) None 1 4 true =
  Some (Found (mkRes [(el 30, 1, 5%N); (el 25, 3, 6%N); (el 20, 0, 8%N); (el 10, 1, 5%N)] [(2, MNoKey); (4, MUnreadable)] [(el 25, 3)] false)) /\
  smget store keys (mkR (U64 1) (Some (U64 45))) None 0 3 false =
  Some (Found (mkRes [(el 10, 1, 5%N); (el 20, 1, 5%N); (el 20, 0, 8%N)] [(2, MNoKey); (3, MOutOfRange); (4, MUnreadable)] [] true)).
Proof. vm_compute. repeat split. Qed.
Example C20_case_error : smget store [[4]; [5]]%N (mkR (U64 1) (Some (U64 45))) None 0 3 false = Some (Failed EBadType).
Proof. vm_compute. reflexivity. Qed.

(* ---------- where the code departs from the claim ---------- *)

(* The limit on offset + count is tested after the sum has wrapped to 32 bits: a request for 2^32 - 1
   elements passes. *)
Theorem C20_request_limit_refuted : exists ofs cnt, (ofs < 2 ^ 32)%N /\ (cnt < 2 ^ 32)%N /\ admitted ofs cnt = true /\ (2000 < ofs + cnt)%N.
Proof. exists 1%N, (2 ^ 32 - 1)%N. vm_compute. repeat split; reflexivity. Qed.
Print Assumptions C20_request_limit_refuted.
(* apart from that the limit holds *)
Theorem C20_request_limit_partial : forall ofs cnt, (ofs + cnt < 2 ^ 32)%N -> (admitted ofs cnt = true <-> (0 < cnt)%N /\ (ofs + cnt <= 2000)%N).
Proof.
  intros ofs cnt H. unfold admitted. rewrite N.mod_small by exact H. rewrite andb_true_iff, !negb_true_iff, N.eqb_neq, N.ltb_ge. lia.
Qed.
Print Assumptions C20_request_limit_partial.

(* Two different keys that agree up to a NUL byte: the request fails, or the merge runs into its
   assert. *)
Definition t5 := tree 400 OvSmallest [10; 20]%N.
Definition t6 := tree 400 OvSmallest [10; 30]%N.
Definition t7 := tree 400 OvSmallest [5; 20]%N.
Lemma t5_reach : reach t5. Proof. apply tree_reach. eexists _, _. vm_compute. reflexivity. Qed.
Lemma t6_reach : reach t6. Proof. apply tree_reach. eexists _, _. vm_compute. reflexivity. Qed.
Lemma t7_reach : reach t7. Proof. apply tree_reach. eexists _, _. vm_compute. reflexivity. Qed.
Definition nul_store := held [([1; 0; 1]%N, Tree true 0 t5); ([1; 0; 2]%N, Tree true 0 t6); ([1; 0; 3]%N, Tree true 0 t7)].
Lemma nul_reach : forall k r f t, nul_store k = Tree r f t -> reach t.
Proof. apply held_reach. repeat (apply Forall_cons; [cbn [snd]; first [exact t5_reach|exact t6_reach|exact t7_reach]|]). apply Forall_nil. Qed.
Theorem C20_nul_key_refuted :
  (exists st ks g cnt, NoDup ks /\ (forall k r f t, In k ks -> st k = Tree r f t -> reach t) /\ first_error (seen st) g ks = None /\
     smget st ks g None 0 cnt false = Some (Failed EBadValue)) /\
  (exists st ks g cnt, NoDup ks /\ (forall k r f t, In k ks -> st k = Tree r f t -> reach t) /\ first_error (seen st) g ks = None /\
     smget st ks g None 0 cnt false = None).
Proof.
  split.
  - exists nul_store, [[1; 0; 1]; [1; 0; 2]]%N, (mkR (U64 1) (Some (U64 99))), 5. split; [repeat constructor; cbn; intuition discriminate|].
    split; [intros k r f t _; apply nul_reach|]. split; vm_compute; reflexivity.
  - exists nul_store, [[1; 0; 1]; [1; 0; 3]]%N, (mkR (U64 1) (Some (U64 99))), 5. split; [repeat constructor; cbn; intuition discriminate|].
    split; [intros k r f t _; apply nul_reach|]. split; vm_compute; reflexivity.
Qed.
Print Assumptions C20_nul_key_refuted.

(* A key named twice: the request fails or ends the server, it is not merged with itself. *)
Theorem C20_repeated_key_refuted : exists st ks g cnt, Forall nul_free ks /\ (forall k r f t, In k ks -> st k = Tree r f t -> reach t) /\ first_error (seen st) g ks = None /\
  smget st ks g None 0 cnt false = Some (Failed EBadValue).
Proof.
  exists store, [[1]; [1]]%N, (mkR (U64 1) (Some (U64 99))), 5. split; [repeat constructor; discriminate|].
  split; [intros k r f t _; apply store_reach|]. split; vm_compute; reflexivity.
Qed.
Print Assumptions C20_repeated_key_refuted.

(* A key is reported as trimmed although its range has nothing beyond the elements that are left:
   the only element of the range is the outermost one of the tree and is the far end of the range. *)
Theorem C20_spurious_trim_refuted : exists st ks g cnt r, request st ks None cnt /\ smget st ks g None 0 cnt false = Some (Found r) /\
  r_trim r = [(el 25, 0)] /\
  (forall k f s, In k ks -> seen st k = Elements f s -> exists x, In x (s_el s) /\ bk x = lo_of g).
Proof.
  exists store, [[2]]%N, (mkR (U64 30) (Some (U64 25))), 4. eexists. split.
  - split; [repeat constructor; intros []|]. split; [repeat constructor; discriminate|]. split; [|split; [exact I|lia]].
    intros k r f t _. apply store_reach.
  - split; [vm_compute; reflexivity|]. split; [reflexivity|]. intros k f s [<-|[]] E. vm_compute in E. injection E as _ <-. exists (el 25). split; [left; reflexivity|reflexivity].
Qed.
Print Assumptions C20_spurious_trim_refuted.
