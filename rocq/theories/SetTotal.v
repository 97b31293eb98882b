(* No operation of the set model fails, whatever the hash function, as long as no 65 of the
   inserted values agree in the low 28 bits of their hash. *)
From Verif Require Import Base HtModel HtProofs SetModel SetSpec SetProofs SetRefine.
Set Default Proof Using "Type".

Lemma s_merge_tok d m s : tok m -> s_merge m = Some s -> stok d s.
Proof.
  intros T. unfold s_merge. destruct (Nat.ltb_spec (ntot m) 32); cbn [andb].
  - destruct (is_leaf m); [|intros Q; injection Q as <-; exact T].
    destruct (gather slots (ntab m) []) as [l|]; [|discriminate]. destruct (Nat.eqb_spec (length l) (ntot m)); [|discriminate].
    intros Q; injection Q as <-. cbn [stok]. lia.
  - intros Q; injection Q as <-. exact T.
Qed.

Lemma s_del_tok h k : forall n c n', tok n -> s_del n h k = Some (c, n') -> tok n'.
Proof.
  intros n. induction n as [d t z tab IH] using node_rec'. intros c n' T. cbn [s_del].
  destruct (hidx h d) as [i|] eqn:E; [|discriminate].
  destruct (tab i) as [l|m] eqn:Ti.
  - destruct (chain_del h k l) as [[e r]|] eqn:C; intros H; injection H as <- <-; [|exact T].
    eapply tok_upd; [exact T|]. cbn [stok]. apply chain_del_len in C.
    destruct (Nat.lt_ge_cases i 16) as [Hi|Hi].
    + pose proof (proj2 (proj1 (tok_iff _ _ _ _) T)) as T'; clear T; rename T' into T. specialize (T i Hi). rewrite Ti in T. cbn [stok] in T. lia.
    + exfalso. revert E. unfold hidx. pose proof (proj1 (proj1 (tok_iff _ _ _ _) T)) as T'; clear T; rename T' into T. intros E.
      destruct (hidx_low h d T) as (j & Ej & Lj & _). unfold hidx in Ej. assert (i = j) by congruence. lia.
  - destruct (s_del m h k) as [[cm m']|] eqn:D; [|discriminate].
    assert (Tm : tok m').
    { eapply IH; [exact Ti| |exact D]. pose proof T as T2. apply tok_iff in T2 as [T1 T2].
      destruct (hidx_low h d T1) as (j & Ej & Lj & _). assert (i = j) by congruence. subst j.
      specialize (T2 i Lj). rewrite Ti in T2. exact T2. }
    destruct cm; intros H; try (injection H as <- <-; exact T).
    destruct (s_merge m') as [s|] eqn:M; [|discriminate]. injection H as <- <-.
    eapply tok_upd; [exact T|]. eapply s_merge_tok; eassumption.
Qed.

Lemma dfs_slots_tok rec del count d z tab0 : (forall i, i < 16 -> stok d (tab0 i)) ->
  (forall i m c l m', i < 16 -> tab0 i = Child m -> rec m c = Some (l, m') -> tok m') ->
  forall is t tab acc l n', (forall i, In i is -> i < 16) -> tok (Node d t z tab) ->
  dfs_slots rec del count d z tab0 is t tab acc = Some (l, n') -> tok n'.
Proof.
  intros T0 R. induction is as [|i is IH]; intros t tab acc l n' SL T.
  - cbn. intros H; injection H as <- <-. exact T.
  - assert (IH' := fun t tab acc l n' => IH t tab acc l n' (fun i H => SL i (or_intror H))).
    assert (Hi : i < 16) by (apply SL; left; reflexivity). specialize (T0 i Hi).
    assert (STEP : forall t1 tab1 a, tok (Node d t1 z tab1) ->
      (if full count (length (acc ++ a)) then Some (acc ++ a, Node d t1 z tab1)
       else dfs_slots rec del count d z tab0 is t1 tab1 (acc ++ a)) = Some (l, n') -> tok n').
    { intros t1 tab1 a T1. destruct (full _ _); [intros H; injection H as <- <-; exact T1|apply IH'; exact T1]. }
    cbn [dfs_slots]. fold (dfs_slots rec del count d z tab0).
    destruct (tab0 i) as [c|m] eqn:Ti.
    + pose proof (take_chain_app count c (length acc)) as TA. destruct (take_chain count (length acc) c) as [a b]. cbn [fst snd] in TA.
      apply (f_equal (@length _)) in TA. rewrite app_length in TA. cbn [stok] in T0.
      destruct del; apply STEP; [|exact T]. eapply tok_upd; [exact T|]. cbn [stok]. lia.
    + destruct (rec m _) as [[a m']|] eqn:RM; [|discriminate].
      destruct del; [|apply STEP; exact T].
      destruct (s_merge m') as [s|] eqn:M; [|discriminate]. apply STEP. eapply tok_upd; [exact T|].
      eapply s_merge_tok; [|exact M]. exact (R i m _ _ _ Hi Ti RM).
Qed.
Lemma s_dfs_tok del : forall n count l n', tok n -> s_dfs del n count = Some (l, n') -> tok n'.
Proof.
  intros n. induction n as [d t z tab IH] using node_rec'. intros count l n' T H. rewrite s_dfs_eq in H.
  eapply dfs_slots_tok in H; [exact H| | |intros i; apply in_slots|exact T].
  - exact (proj2 (proj1 (tok_iff _ _ _ _) T)).
  - intros i m c l' m' Hi Ti Q. eapply IH; [exact Ti| |exact Q]. pose proof (proj2 (proj1 (tok_iff _ _ _ _) T)) as T'; clear T; rename T' into T. specialize (T i Hi). rewrite Ti in T. exact T.
Qed.

Lemma at_slots_tok rec del d t z tab : tok (Node d t z tab) ->
  (forall i m off x m', i < 16 -> tab i = Child m -> rec m off = Some (x, m') -> tok m') ->
  forall is off x n', (forall i, In i is -> i < 16) ->
  at_slots rec del d t z tab is off = Some (x, n') -> tok n'.
Proof.
  intros T R. induction is as [|i is IH]; intros off x n' SL.
  - cbn. intros H; injection H as <- <-. exact T.
  - assert (IH' := fun off x n' => IH off x n' (fun i H => SL i (or_intror H))).
    assert (Hi : i < 16) by (apply SL; left; reflexivity).
    pose proof (proj2 (proj1 (tok_iff _ _ _ _) T) i Hi) as Ts.
    cbn [at_slots]. fold (at_slots rec del d t z tab).
    destruct (tab i) as [c|m] eqn:Ti.
    + destruct (Nat.leb_spec (length c) off) as [L|L]; [apply IH'|]. destruct (nth_error c off); [|discriminate].
      destruct del; intros Q; injection Q as <- <-; [|exact T]. eapply tok_upd; [exact T|]. cbn [stok] in *.
      rewrite app_length, firstn_length. pose proof (skipn_length (S off) c) as K. cbn [skipn] in K. lia.
    + destruct (Nat.leb (ntot m) off); [apply IH'|]. destruct (rec m off) as [[y m']|] eqn:RM; [|discriminate].
      destruct del; [|intros Q; injection Q as <- <-; exact T].
      destruct (s_merge m') as [s|] eqn:M; [|discriminate]. intros Q; injection Q as <- <-. eapply tok_upd; [exact T|].
      eapply s_merge_tok; [|exact M]. exact (R i m _ _ _ Hi Ti RM).
Qed.
Lemma s_at_tok del : forall n off x n', tok n -> s_at del n off = Some (x, n') -> tok n'.
Proof.
  intros n. induction n as [d t z tab IH] using node_rec'. intros off x n' T H. rewrite s_at_eq in H.
  eapply at_slots_tok in H; [exact H|exact T| |intros i; apply in_slots].
  intros i m o' x' m' Hi Ti Q. eapply IH; [exact Ti| |exact Q]. pose proof (proj2 (proj1 (tok_iff _ _ _ _) T)) as T'; clear T; rename T' into T. specialize (T i Hi). rewrite Ti in T. exact T.
Qed.
Lemma pick_del_tok : forall need n cc rnd l n' r, tok n -> pick_del n cc need rnd = Some (l, n', r) -> tok n'.
Proof.
  induction need as [|need IH]; intros n cc rnd l n' r T; cbn [pick_del].
  - intros Q; injection Q as <- <- <-. exact T.
  - destruct rnd as [|x rnd]; [discriminate|]. destruct cc as [|cc]; [discriminate|].
    destruct (s_at true n (x mod S cc)) as [[[e|] n1]|] eqn:A; try discriminate. apply s_at_tok in A; [|exact T].
    destruct (pick_del n1 cc need rnd) as [[[l' n2] r']|] eqn:P; [|discriminate]. intros Q; injection Q as <- <- <-.
    eapply IH; eassumption.
Qed.

(* insertion *)
Section Link.
Variable hash : bytes -> Z.
Variable vals : list bytes.     (* the values inserted *)
Hypothesis few : forall V, NoDup V -> incl V vals -> (exists r, forall v, In v V -> (hash v mod 2 ^ 28 = r)%Z) -> length V <= 64.

Lemma s_link_total e mem : eh e = hash (ek e) -> In (ek e) vals -> forall n, nwf n -> tok n ->
  hashed hash (elems n) -> NoDup (map ek (elems n)) -> incl (map ek (elems n)) vals ->
  (exists r, forall x, In x (e :: elems n) -> (eh x mod 2 ^ (4 * Z.of_nat (ndep n)) = r)%Z) ->
  exists c n', s_link n e mem = Some (c, n') /\ tok n'.
Proof using few.
  intros He Hv n. induction n as [d t z tab IH] using node_rec'. intros W T HH ND IN (r & Hr). cbn [s_link].
  pose proof (proj1 (tok_iff _ _ _ _) T) as [TD TS]. cbn [ndep] in Hr.
  destruct (hidx_low (eh e) d TD) as (i & E & Hi & _). rewrite E. specialize (TS i Hi).
  pose proof (hashed_slot hash _ _ _ _ _ HH Hi) as HS.
  pose proof (proj1 (nwf_iff _ _ _ _) W) as [_ Ws]. specialize (Ws i Hi).
  assert (IS : forall x, In x (slot_elems (tab i)) -> In x (elems (Node d t z tab))) by (intros; apply in_elems; eauto).
  assert (NS : NoDup (map ek (slot_elems (tab i)))).
  { destruct (elems_split tab i Hi) as (pre & post & E1 & _). rewrite elems_eq, E1 in ND. rewrite !map_app in ND.
    apply NoDup_app_r in ND. clear - ND. revert ND. generalize (map ek (slot_elems (tab i))) as a. induction a as [|x a IHa]; [constructor|].
    cbn [app]. intros H. apply NoDup_cons_iff in H as [H1 H2]. constructor; [|auto]. intros Q. apply H1. apply in_app_iff. auto. }
  assert (SAME : forall x, In x (e :: slot_elems (tab i)) -> (eh x mod 2 ^ (4 * Z.of_nat (S d)) = Z.of_nat i * 2 ^ (4 * Z.of_nat d) + r)%Z).
  { intros x [<-|Hx].
    - rewrite (nibble _ d i TD E), (Hr e) by (left; reflexivity). reflexivity.
    - destruct Ws as [Ws _]. rewrite Forall_forall in Ws. rewrite (nibble _ d i TD (Ws x Hx)), (Hr x) by (right; auto). reflexivity. }
  destruct (tab i) as [l|m] eqn:Ti; cbn [slot_elems stok] in *.
  - destruct (existsb (same (eh e) (ek e)) l) eqn:X; [eauto|].
    assert (NI : ~ In (ek e) (map ek l)) by (rewrite <- (existsb_key hash l e HS He); congruence).
    destruct (Nat.leb_spec 64 (length l)) as [L|L].
    + destruct mem; cbn [negb]; [|eauto].
      assert (D6 : d <> 6).
      { intros ->. assert (length (ek e :: map ek l) <= 64); [|cbn [length] in *; rewrite map_length in *; lia].
        apply few.
        - constructor; assumption.
        - intros v [<-|Q]; [exact Hv|]. apply IN. apply in_map_iff in Q as (x & <- & Hx). apply in_map. auto.
        - exists (Z.of_nat i * 2 ^ 24 + r)%Z. intros v [<-|Q].
          + rewrite <- He. apply SAME. left; reflexivity.
          + apply in_map_iff in Q as (x & <- & Hx). rewrite <- (hashed_in _ _ _ HS Hx). apply (SAME x). right; exact Hx. }
      assert (SD : S d <= 6) by lia.
      assert (M : exists tab', move (S d) l empty_tab = Some tab').
      { assert (A : all_chains empty_tab) by (intros j; exists []; reflexivity). revert A. generalize empty_tab as tb.
        clear - SD. induction l as [|x l IHl]; intros tb A; cbn [move]; [eauto|].
        destruct (hidx_low (eh x) (S d) SD) as (j & -> & _). destruct (A j) as (c & ->). apply IHl.
        intros y. unfold upd. destruct (Nat.eqb y j); eauto. }
      destruct M as (tab' & M). rewrite M. destruct (hidx_low (eh e) (S d) SD) as (j & -> & Hj & _).
      assert (A : all_chains tab').
      { clear - M. assert (A : all_chains empty_tab) by (intros j; exists []; reflexivity). revert A M. generalize empty_tab as tb.
        induction l as [|x l IHl]; intros tb A; cbn [move]; [intros Q; injection Q as <-; exact A|].
        destruct (hidx _ _) as [j|]; [|discriminate]. destruct (tb j); [|discriminate]. apply IHl.
        intros y. unfold upd. destruct (Nat.eqb y j); eauto. }
      destruct (A j) as (c & Ec). rewrite Ec.
      destruct (move_tab_len (S d) l empty_tab tab' (proj1 (empty_tab_ok 0)) M j c Ec) as (c0 & Q & Lc). injection Q as <-. cbn [length] in Lc.
      replace (chain_ok (S (length c))) with true by (unfold chain_ok; lia).
      eexists _, _. split; [reflexivity|]. eapply tok_upd; [exact T|]. cbn [stok]. apply tok_iff. split; [exact SD|].
      intros x Hx. unfold upd. destruct (Nat.eqb_spec x j) as [->|].
      * cbn [stok length]. lia.
      * destruct (A x) as (cx & Ex). rewrite Ex. cbn [stok].
        destruct (move_tab_len (S d) l empty_tab tab' (proj1 (empty_tab_ok 0)) M x cx Ex) as (c1 & Q & Lx). injection Q as <-. cbn [length] in Lx. lia.
    + replace (chain_ok (S (length l))) with true by (unfold chain_ok; lia).
      eexists _, _. split; [reflexivity|]. eapply tok_upd; [exact T|]. cbn [stok length]. lia.
  - apply slot_ok_child in Ws as (W1 & W2 & W3).
    destruct (IH i m Ti W3 TS HS NS) as (c & m' & -> & Tm).
    { intros v Q. apply IN. apply in_map_iff in Q as (x & <- & Hx). apply in_map. auto. }
    { rewrite W2. eexists. exact SAME. }
    destruct c; eexists _, _; (split; [reflexivity|]); try exact T. eapply tok_upd; [exact T|exact Tm].
Qed.
End Link.

Lemma s_del_total h k : forall n, nwf n -> tok n -> hashed h (elems n) -> (forall x, range (h x)) -> exists c n', s_del n (h k) k = Some (c, n').
Proof.
  intros n. induction n as [d t z tab IH] using node_rec'. intros W T HH HI. cbn [s_del].
  pose proof (proj1 (tok_iff _ _ _ _) T) as [TD TS].
  destruct (hidx_low (h k) d TD) as (i & E & Hi & _). rewrite E.
  destruct (tab i) as [l|m] eqn:Ti.
  - destruct (chain_del (h k) k l) as [[e r]|]; eauto.
  - pose proof (proj1 (nwf_iff _ _ _ _) W) as [_ Ws]. specialize (Ws i Hi). rewrite Ti in Ws. apply slot_ok_child in Ws as (_ & _ & W3).
    specialize (TS i Hi). rewrite Ti in TS. pose proof (hashed_slot h _ _ _ _ _ HH Hi) as HS. rewrite Ti in HS.
    destruct (IH i m Ti W3 TS HS HI) as (c & m' & D). rewrite D.
    destruct c; eauto. apply (s_del_ok h HI) in D; [|exact W3|exact HS].
    destruct (s_merge_some m' (proj1 D)) as (s & ->). eauto.
Qed.
(* random choice *)
Definition total (cap : nat) (ht : nat -> list nat) : nat := length (flat_map ht (seq 0 cap)).

Lemma total_insert cap ht j x : j < cap ->
  total cap (fun i => if Nat.eqb i j then ht j ++ [x] else ht i) = S (total cap ht).
Proof.
  intros Hj. unfold total. assert (I : In j (seq 0 cap)) by (apply in_seq; lia).
  assert (N : NoDup (seq 0 cap)) by apply seq_NoDup.
  apply in_split in I as (a & b & E). rewrite E in *. apply NoDup_remove_2 in N. rewrite in_app_iff in N.
  rewrite !flat_map_app. cbn [flat_map]. rewrite Nat.eqb_refl.
  assert (X : forall l, ~ In j l -> flat_map (fun i => if Nat.eqb i j then ht j ++ [x] else ht i) l = flat_map ht l).
  { intros l Hl. apply flat_map_ext_in. intros y Hy. destruct (Nat.eqb_spec y j); congruence. }
  rewrite !X by tauto. rewrite !app_length. cbn. lia.
Qed.
Lemma total_full cap ht : (forall j, j < cap -> ht j <> []) -> cap <= total cap ht.
Proof.
  intros H. unfold total. assert (G : forall l, (forall j, In j l -> ht j <> []) -> length l <= length (flat_map ht l)).
  { induction l as [|j l IH]; intros K; [cbn; lia|]. cbn [flat_map length]. rewrite app_length.
    assert (ht j <> []) by (apply K; left; reflexivity). destruct (ht j); [congruence|]. cbn [length].
    specialize (IH (fun y Hy => K y (or_intror Hy))). lia. }
  rewrite <- (seq_length cap 0) at 1. apply G. intros j Hj. apply H. apply in_seq in Hj. lia.
Qed.

Lemma pick_progress n cc cap : nwf n -> cc = length (elems n) -> 0 < cc -> 0 < cap -> forall rnd need ht,
  pick n cc cap need ht rnd = None ->
  exists ht', (forall j, ht j <> [] -> ht' j <> []) /\ total cap ht' < total cap ht + need /\
    (forall x, In x rnd -> ht' ((x mod cc) mod cap) <> []).
Proof.
  intros W Ecc Hcc Hcap. induction rnd as [|x rnd IH]; intros need ht.
  - destruct need as [|need]; cbn [pick]; [discriminate|]. intros _. exists ht. split; [auto|]. split; [lia|intros ? []].
  - destruct need as [|need]; cbn [pick]; [discriminate|].
    destruct (off_insert cap ht (x mod cc)) as [ht1|] eqn:E.
    + assert (Ex : ht1 = fun i => if Nat.eqb i ((x mod cc) mod cap) then ht ((x mod cc) mod cap) ++ [x mod cc] else ht i).
      { revert E. unfold off_insert. destruct (Nat.eqb _ 3); [discriminate|]. destruct (existsb _ _); [discriminate|]. intros Q; injection Q as <-. reflexivity. }
      destruct (s_at_some false n (x mod cc) W) as (y & n' & A). rewrite A. apply s_at_ok in A as (A1 & _ & _); [|exact W].
      assert (LT : x mod cc < cc) by (apply Nat.mod_upper_bound; lia).
      destruct y as [e|]; [|symmetry in A1; apply nth_error_None in A1; lia].
      destruct (pick n cc cap need ht1 rnd) as [[l r]|] eqn:P; [discriminate|]. intros _.
      apply IH in P as (ht' & P1 & P2 & P3).
      assert (LC : (x mod cc) mod cap < cap) by (apply Nat.mod_upper_bound; lia).
      exists ht'. split; [|split].
      * intros j Hj. apply P1. rewrite Ex. destruct (Nat.eqb j _); [destruct (ht _); discriminate|exact Hj].
      * rewrite Ex, total_insert in P2 by exact LC. lia.
      * intros y [<-|Hy]; [|auto]. apply P1. rewrite Ex, Nat.eqb_refl. destruct (ht _); discriminate.
    + intros P. apply IH in P as (ht' & P1 & P2 & P3). exists ht'. split; [exact P1|]. split; [exact P2|].
      intros y [<-|Hy]; [|auto]. apply P1. revert E. unfold off_insert. destruct (ht ((x mod cc) mod cap)); [discriminate|discriminate].
Qed.

Lemma pick_total n cc cap need rnd : nwf n -> cc = length (elems n) -> 0 < cc -> 0 < cap -> need <= cap -> cap <= cc ->
  (forall o, o < cc -> exists x, In x rnd /\ x mod cc = o) ->
  exists l r, pick n cc cap need (fun _ => []) rnd = Some (l, r).
Proof.
  intros W E H1 H2 H3 H4 F. destruct (pick n cc cap need (fun _ => []) rnd) as [[l r]|] eqn:P; [eauto|exfalso].
  apply pick_progress in P; try assumption. destruct P as (ht' & _ & P2 & P3).
  assert (cap <= total cap ht').
  { apply total_full. intros j Hj. destruct (F j) as (x & Hx & Ex); [lia|]. specialize (P3 x Hx). rewrite Ex, Nat.mod_small in P3 by exact Hj. exact P3. }
  assert (Z : total cap (fun _ => []) = 0) by (unfold total; induction (seq 0 cap); [reflexivity|assumption]). lia.
Qed.

Lemma pick_del_total : forall need n cc rnd, nwf n -> cc = length (elems n) -> need <= cc -> need <= length rnd ->
  exists l n' r, pick_del n cc need rnd = Some (l, n', r).
Proof.
  induction need as [|need IH]; intros n cc rnd W E H1 H2; cbn [pick_del]; [eauto|].
  destruct rnd as [|x rnd]; [cbn in H2; lia|]. destruct cc as [|cc]; [lia|].
  destruct (s_at_some true n (x mod S cc) W) as (y & n1 & A). rewrite A. apply s_at_ok in A as (A1 & _ & A3); [|exact W].
  assert (LT : x mod S cc < S cc) by (apply Nat.mod_upper_bound; lia).
  destruct y as [e|]; [|symmetry in A1; apply nth_error_None in A1; lia].
  destruct (A3 eq_refl e eq_refl) as (W1 & _ & P1). apply Permutation_length in P1. cbn [length] in *.
  destruct (IH n1 cc rnd W1) as (l & n2 & r & ->); [lia|lia|lia|]. eauto.
Qed.

Lemma samp_slots_total rec tab :
  (forall i m remain need rnd, i < 16 -> tab i = Child m -> 1 <= need -> need <= remain -> length (elems m) <= remain -> length (elems m) <= length rnd ->
     exists a rn, rec m remain need rnd = Some (a, rn) /\ length rnd <= length rn + length (elems m)) ->
  (forall i m remain need rnd a rn, i < 16 -> tab i = Child m -> 1 <= need -> need <= remain -> length (elems m) <= remain ->
     rec m remain need rnd = Some (a, rn) -> samp_good (elems m) remain need a /\ ntot m = length (elems m)) ->
  forall is remain need rnd, (forall i, In i is -> i < 16) -> 1 <= need -> need <= remain ->
  length (flat_map (fun i => slot_elems (tab i)) is) <= remain ->
  length (flat_map (fun i => slot_elems (tab i)) is) <= length rnd ->
  exists a rn, samp_slots rec tab is remain need rnd = Some (a, rn) /\
    length rnd <= length rn + length (flat_map (fun i => slot_elems (tab i)) is).
Proof.
  intros R G. induction is as [|i is IH]; intros remain need rnd SL N1 N2 L1 L2.
  - cbn. exists [], rnd. split; [reflexivity|lia].
  - assert (IH' := fun remain need rnd => IH remain need rnd (fun i H => SL i (or_intror H))).
    assert (Hi : i < 16) by (apply SL; left; reflexivity).
    cbn [samp_slots flat_map] in *. fold (samp_slots rec tab). rewrite app_length in *.
    destruct (tab i) as [c|m] eqn:T; cbn [slot_elems] in *.
    + destruct (samp_chain_some c remain need rnd) as (a & rm & nd & rn & E & L); [lia|lia|]. rewrite E.
      apply samp_chain_ok in E; [|lia|lia|lia]. destruct E as (_ & E2 & E3 & E4).
      destruct (Nat.eqb_spec nd 0); [exists a, rn; split; [reflexivity|lia]|].
      destruct (E4 n) as [-> E5]. destruct (IH' (remain - length c) nd rn) as (b & rn' & -> & L'); [lia|lia|lia|lia|].
      exists (a ++ b), rn'. split; [reflexivity|lia].
    + destruct (R i m remain need rnd Hi T N1 N2) as (a & rn & E & L); [lia|lia|]. rewrite E.
      apply (G i m) in E; [|exact Hi|exact T|lia|lia|lia]. destruct E as ((_ & E1 & E2) & TT). rewrite TT.
      destruct (Nat.leb_spec need (length a)); [exists a, rn; split; [reflexivity|lia]|].
      destruct (IH' (remain - length (elems m)) (need - length a) rn) as (b & rn' & -> & L'); [lia|lia|lia|lia|].
      exists (a ++ b), rn'. split; [reflexivity|lia].
Qed.
Lemma s_samp_total : forall n remain need rnd, nwf n -> 1 <= need -> need <= remain -> length (elems n) <= remain -> length (elems n) <= length rnd ->
  exists a rn, s_samp n remain need rnd = Some (a, rn) /\ length rnd <= length rn + length (elems n).
Proof.
  intros n. induction n as [d t z tab IH] using node_rec'. intros remain need rnd W N1 N2 L1 L2.
  rewrite s_samp_eq. apply samp_slots_total; try assumption; try (intros i; apply in_slots).
  - intros i m remain' need' rnd' Hi T H1 H2 H3 H4. pose proof (proj1 (nwf_iff _ _ _ _) W) as [_ Ws].
    specialize (Ws i Hi). rewrite T in Ws. apply slot_ok_child in Ws as (_ & _ & W3). eapply IH; eassumption.
  - intros i m remain' need' rnd' a rn Hi T H1 H2 H3 Q. pose proof (proj1 (nwf_iff _ _ _ _) W) as [_ Ws].
    specialize (Ws i Hi). rewrite T in Ws. apply slot_ok_child in Ws as (_ & _ & W3). split; [|apply nwf_tot; exact W3].
    eapply s_samp_ok; eassumption.
Qed.

Lemma set_at_len {A} (l : list A) i x : length (set_at l i x) = length l.
Proof. revert i. induction l as [|y l IH]; intros [|i]; cbn; congruence. Qed.
Lemma shuffle_total : forall i l rnd, (i = 0 \/ i < length l) -> i <= length rnd -> exists l', shuffle i l rnd = Some l'.
Proof.
  induction i as [|i IH]; intros l rnd H1 H2; cbn [shuffle]; [eauto|].
  destruct rnd as [|x rnd]; [cbn in H2; lia|]. cbn [length] in H2.
  assert (J : x mod S (S i) < S (S i)) by (apply Nat.mod_upper_bound; lia).
  destruct (Nat.eqb_spec (x mod S (S i)) (S i)); [apply IH; lia|].
  destruct (nth_error l (S i)) eqn:Ea; [|apply nth_error_None in Ea; lia].
  destruct (nth_error l (x mod S (S i))) eqn:Eb; [|apply nth_error_None in Eb; lia].
  apply IH; rewrite ?set_at_len; lia.
Qed.

(* enough random numbers for a set of at most cap elements *)
Definition rich (cap count : nat) (rnd : list nat) : Prop :=
  cap + count <= length rnd /\ forall m o, o < m -> m <= cap -> exists x, In x rnd /\ x mod m = o.

Lemma pick_del_dep : forall need n cc rnd l n' r, nwf n -> pick_del n cc need rnd = Some (l, n', r) -> ndep n' = ndep n.
Proof.
  induction need as [|need IH]; intros n cc rnd l n' r W; cbn [pick_del].
  - intros Q; injection Q as <- <- <-. reflexivity.
  - destruct rnd as [|x rnd]; [discriminate|]. destruct cc as [|cc]; [discriminate|].
    destruct (s_at true n (x mod S cc)) as [[[e|] n1]|] eqn:A; try discriminate. apply s_at_ok in A as (_ & _ & A); [|exact W].
    destruct (A eq_refl e eq_refl) as (W1 & D1 & _).
    destruct (pick_del n1 cc need rnd) as [[[l' n2] r']|] eqn:P; [|discriminate]. intros Q; injection Q as <- <- <-.
    apply IH in P; [|exact W1]. congruence.
Qed.

Section T.
Variable hash : bytes -> Z.

Definition rtok (s : set_info) : Prop := match root s with Some n => tok n /\ ndep n = 0 | None => True end.

Lemma s_get_total s count del rnd A : Inv hash s A -> A <> [] -> length A <= maxc s -> rtok s ->
  rich (maxc s) count rnd -> exists l s', s_get s count del rnd = Some (l, s') /\ rtok s'.
Proof.
  intros I NE LM RT (RL & RM). pose proof I as (N & C & J). unfold s_get. unfold rtok in RT.
  destruct (root s) as [n|] eqn:E; [|contradiction]. destruct J as (W & H & PA & _).
  pose proof (inv_len hash s n A I E) as [LE L1]. destruct RT as [RT RD].
  assert (FIN : forall (l1 : list elem) n1, (del = true -> tok n1 /\ ndep n1 = 0) ->
    exists l s', (if del then match drop_root n1 with Some r => Some (l1, mkSet r (ccnt s - length l1) (maxc s)) | None => None end
     else Some (l1, s)) = Some (l, s') /\ rtok s').
  { intros l1 n1 T1. destruct del.
    - unfold drop_root. destruct (Nat.eqb (ntot n1) 0); eexists _, _; (split; [reflexivity|]); unfold rtok; cbn [root]; [exact Logic.I|auto].
    - eexists _, _. split; [reflexivity|]. unfold rtok. rewrite E. auto. }
  destruct (Nat.leb (ccnt s) count || Nat.eqb count 0) eqn:B.
  - destruct (s_dfs_some del n count W) as (l & n1 & D). rewrite D. apply FIN. intros ->. split; [eapply s_dfs_tok; eassumption|].
    apply s_dfs_ok in D as (_ & _ & D). destruct (D eq_refl W) as (_ & D' & _). congruence.
  - apply orb_false_iff in B as [B1 B2]. apply Nat.leb_gt in B1. apply Nat.eqb_neq in B2.
    destruct del.
    + destruct (pick_del_total count n (ccnt s) rnd W) as (l & n1 & r & D); [lia|lia|lia|]. rewrite D. apply FIN.
      intros _. split; [eapply pick_del_tok; eassumption|]. apply pick_del_dep in D; [congruence|exact W].
    + destruct (Nat.leb_spec count (Nat.div (ccnt s) 10)) as [Q|Q].
      * assert (K1 : count * 10 <= ccnt s) by (pose proof (Nat.mul_div_le (ccnt s) 10); lia).
        assert (K2 : count <= 13 * count / 10) by (apply Nat.div_le_lower_bound; lia).
        assert (K3 : 13 * count / 10 <= ccnt s).
        { assert (13 * count / 10 < 10 * count); [apply Nat.div_lt_upper_bound; lia|lia]. }
        destruct (pick_total n (ccnt s) (13 * count / 10) count rnd W) as (l & r & D); try lia.
        { intros o Ho. apply RM; lia. }
        rewrite D. apply (FIN l n). discriminate.
      * destruct (s_samp_total n (ccnt s) count rnd W) as (l & r & D & LR); try lia. rewrite D.
        apply s_samp_ok in D; [|exact W|lia|lia|lia]. destruct D as (_ & D2 & _).
        destruct (shuffle_total (pred (length l)) l r) as (l2 & SH); [lia|lia|]. rewrite SH. apply (FIN l2 n). discriminate.
Qed.

Hypothesis hash_int : forall k, range (hash k).
Variable vals : list bytes.
Hypothesis few : forall V, NoDup V -> incl V vals -> (exists r, forall v, In v V -> (hash v mod 2 ^ 28 = r)%Z) -> length V <= 64.

Definition op_fine (cap : nat) (o : op) : Prop :=
  match o with
  | Insert v _ _ _ => In v vals
  | Get count _ rnd => rich cap count rnd
  | _ => True
  end.

Lemma step_total s A o : Inv hash s A -> rtok s -> incl A vals -> length A <= maxc s -> op_fine (maxc s) o ->
  exists s' x, step hash s o = Some (s', x) /\ rtok s'.
Proof using hash_int few.
  intros I RT IA LM OF. pose proof I as (N & C & J). pose proof RT as RT0. unfold rtok in RT.
  destruct o as [v st mr mn|v|v|count|count del rnd]; cbn [step op_fine] in *.
  - destruct st; [eexists _, _; split; [reflexivity|exact RT]|].
    destruct (Nat.leb (maxc s) (ccnt s)); [eexists _, _; split; [reflexivity|exact RT]|].
    assert (LINK : forall n, nwf n -> tok n -> ndep n = 0 -> hashed hash (elems n) -> Permutation (map ek (elems n)) A ->
      exists c n', s_link n (mkElem (hash v) v []) mn = Some (c, n') /\ (c = SUCC -> tok n' /\ ndep n' = 0) /\ (c <> SUCC -> n' = n)).
    { intros n W T D HH P.
      destruct (s_link_total hash vals few (mkElem (hash v) v []) mn eq_refl OF n W T HH) as (c & n' & L & T').
      { eapply Permutation_NoDup; [symmetry; exact P|exact N]. }
      { intros x Hx. apply IA. eapply Permutation_in; [exact P|exact Hx]. }
      { exists 0%Z. intros x _. rewrite D. apply Z.mod_1_r. }
      exists c, n'. split; [exact L|]. apply (s_link_ok hash hash_int) in L; [|reflexivity|exact W|exact HH].
      destruct c; (split; [intros Q; try discriminate|intros Q; try congruence]); try tauto.
      split; [exact T'|]. destruct L as (_ & L & _). congruence. }
    destruct (root s) as [n|] eqn:E.
    + destruct J as (W & HH & P & NE). destruct (LINK n W (proj1 RT) (proj2 RT) HH P) as (c & n' & -> & K1 & K2).
      destruct c; eexists _, _; (split; [reflexivity|]); unfold rtok; cbn [root]; rewrite ?E; auto.
    + destruct mr; cbn [negb]; [|eexists _, _; split; [reflexivity|exact RT0]].
      destruct (LINK (Node 0 0 0 empty_tab)) as (c & n' & -> & K1 & K2).
      { apply empty_root. } { split; [lia|]. intros i Hi. cbn. lia. } { reflexivity. } { constructor. } { rewrite J. reflexivity. }
      destruct c; [eexists _, _; (split; [reflexivity|]); unfold rtok; cbn [root]; rewrite ?E; auto|..];
        (rewrite K2 by discriminate; cbn [ntot Nat.eqb]; eexists _, _; (split; [reflexivity|exact RT0])).
  - destruct (root s) as [n|] eqn:E; [|eexists _, _; split; [reflexivity|exact RT0]].
    destruct J as (W & HH & P & NE). destruct RT as [RT RD]. destruct (s_del_total hash v n W RT HH hash_int) as (c & n' & D). rewrite D.
    pose proof (s_del_tok _ _ _ _ _ RT D) as T'. apply (s_del_ok hash hash_int) in D; [|exact W|exact HH].
    destruct c; try (eexists _, _; split; [reflexivity|exact RT0]).
    destruct D as (_ & D & _). unfold drop_root. destruct (Nat.eqb (ntot n') 0); eexists _, _; (split; [reflexivity|]); unfold rtok; cbn [root]; [exact Logic.I|]. split; [exact T'|congruence].
  - destruct (root s) as [n|] eqn:E; [|eexists _, _; split; [reflexivity|exact RT0]].
    pose proof (find_total (hash v) v n (proj1 RT)) as F. destruct (find_elem n (hash v) v) as [[e|]|]; [| |congruence]; eexists _, _; split; (reflexivity || exact RT0).
  - destruct (root s) as [n|] eqn:E; [|eexists _, _; split; [reflexivity|exact RT0]].
    destruct J as (W & HH & P & NE). destruct (s_dfs_some true n count W) as (l & n1 & D). rewrite D.
    pose proof (s_dfs_tok _ _ _ _ _ (proj1 RT) D) as T'. apply s_dfs_ok in D as (_ & _ & D). destruct (D eq_refl W) as (_ & D' & _).
    unfold drop_root. destruct (Nat.eqb (ntot n1) 0); eexists _, _; (split; [reflexivity|]); unfold rtok; cbn [root]; [exact Logic.I|]. destruct RT. split; [exact T'|congruence].
  - rewrite C. destruct (Nat.eqb_spec (length A) 0) as [Z|Z]; [eexists _, _; split; [reflexivity|exact RT0]|].
    assert (NE : A <> []) by (destruct A; [cbn in Z; lia|discriminate]).
    destruct (s_get_total s count del rnd A I NE LM RT0 OF) as (l & s' & G & T'). rewrite G.
    destruct l as [|e l]; [|eexists _, _; split; [reflexivity|exact T']].
    apply (s_get_ok hash s count del rnd _ _ A I NE) in G as (G & _ & _). exfalso. cbn [length] in G.
    unfold size_wanted in G. destruct (Nat.eqb_spec count 0); lia.
Qed.

Lemma spec_step_vals cap A o x A' : spec_step cap A o x A' -> op_fine cap o -> incl A vals -> length A <= cap ->
  incl A' vals /\ length A' <= cap.
Proof using hash_int few.
  assert (SUB : forall l R, Permutation A (l ++ R) -> incl A vals -> length A <= cap -> incl R vals /\ length R <= cap).
  { intros l R P I L. split; [|apply Permutation_length in P; rewrite app_length in P; lia].
    intros y Hy. apply I. eapply Permutation_in; [symmetry; exact P|]. apply in_app_iff. auto. }
  intros S OF I L. destruct S; cbn [op_fine] in OF; try (split; assumption).
  - split.
    + intros y Hy. eapply Permutation_in in Hy; [|eassumption]. destruct Hy as [<-|Hy]; auto.
    + apply Permutation_length in H1. cbn [length] in H1. lia.
  - apply (SUB [v]); assumption.
  - apply (SUB D); assumption.
  - apply (SUB l); assumption.
Qed.

Lemma run_total : forall ops s A, Inv hash s A -> rtok s -> incl A vals -> length A <= maxc s ->
  Forall (op_fine (maxc s)) ops -> run hash s ops <> None.
Proof using hash_int few.
  induction ops as [|o ops IH]; intros s A I RT IA LM F; cbn [run]; [discriminate|].
  inversion F; subst. destruct (step_total s A o I RT IA LM) as (s' & x & E & RT'); [assumption|]. rewrite E.
  apply (step_ok hash hash_int _ A) in E as (A' & S & I' & M); [|exact I].
  destruct (spec_step_vals _ _ _ _ _ S) as [IA' LM']; try assumption.
  assert (R : run hash s' ops <> None) by (apply (IH s' A'); rewrite ?M; assumption).
  destruct (run hash s' ops) as [[? ?]|]; congruence.
Qed.
End T.
