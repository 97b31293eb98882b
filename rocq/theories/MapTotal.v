(* No operation of the map model fails, whatever the hash function, as long as no 65 of the
   inserted fields agree in the low 28 bits of their hash and no lookup names a field twice. *)
From Verif Require Import Base HtModel HtProofs MapModel MapSpec MapProofs MapRefine.
Set Default Proof Using "Type".

Lemma tok_cnt d t z tab : mwf (Node d t z tab) -> tok (Node d t z tab) -> t <= 1120.
Proof.
  intros W T. apply mwf_iff in W as (-> & _ & _). apply tok_iff in T as [TD TS]. unfold tsum.
  assert (G : forall l, (forall i, In i l -> i < 16) -> list_sum (map (fun i => own (tab i)) l) <= 70 * length l).
  { induction l as [|i l IH]; intros K; [cbn; lia|]. cbn [map length]. change (list_sum (?a :: ?b)) with (a + list_sum b).
    specialize (IH (fun j Hj => K j (or_intror Hj))). specialize (TS i (K i (or_introl eq_refl))).
    destruct (tab i) as [c|m]; cbn [own stok] in *; unfold list_sum in *; cbn [fold_right]; lia. }
  specialize (G slots (fun i Hi => proj1 (in_slots i) Hi)). unfold slots in G at 2. rewrite seq_length in G. lia.
Qed.

Lemma m_after_tok d t z tab i m n' : tok (Node d t z tab) -> tok m -> m_after d t z tab i m = Some n' -> tok n'.
Proof.
  intros T Tm. unfold m_after. destruct (Nat.eqb (nhsh m) 0); cbn [andb].
  - destruct (Nat.ltb_spec (ntot m) 32).
    + destruct (gather slots (ntab m) []) as [l|]; [|discriminate]. destruct (Nat.eqb_spec (length l) (ntot m)); cbn [andb]; [|discriminate].
      destruct (cnt_ok _); [|discriminate]. intros Q; injection Q as <-. eapply tok_upd; [exact T|]. cbn [stok]. lia.
    + intros Q; injection Q as <-. eapply tok_upd; [exact T|exact Tm].
  - intros Q; injection Q as <-. eapply tok_upd; [exact T|exact Tm].
Qed.

Section Link.
Variable hash : bytes -> Z.
Variable vals : list bytes.     (* the fields inserted *)
Hypothesis few : forall V, NoDup V -> incl V vals -> (exists r, forall v, In v V -> (hash v mod 2 ^ 28 = r)%Z) -> length V <= 64.

Lemma chain_replace_len e : forall l, length (chain_replace e l) = length l.
Proof. induction l as [|x l IH]; cbn [chain_replace]; [reflexivity|]. destruct (same _ _ x); cbn [length]; congruence. Qed.

Lemma m_link_total e rep room st mem : eh e = hash (ek e) -> In (ek e) vals -> forall n, mwf n -> tok n ->
  hashed hash (elems n) -> NoDup (map ek (elems n)) -> incl (map ek (elems n)) vals ->
  (exists r, forall x, In x (e :: elems n) -> (eh x mod 2 ^ (4 * Z.of_nat (ndep n)) = r)%Z) ->
  exists c n', m_link n e rep room st mem = Some (c, n') /\ tok n'.
Proof using few.
  intros He Hv n. induction n as [d t z tab IH] using node_rec'. intros W T HH ND IN (r & Hr). cbn [m_link].
  pose proof (proj1 (tok_iff _ _ _ _) T) as [TD TS]. cbn [ndep] in Hr.
  destruct (hidx_low (eh e) d TD) as (i & E & Hi & _). rewrite E. specialize (TS i Hi).
  pose proof (hashed_slot hash _ _ _ _ _ HH Hi) as HS.
  pose proof (tok_cnt _ _ _ _ W T) as TC.
  pose proof (proj1 (mwf_iff _ _ _ _) W) as (_ & _ & Ws). specialize (Ws i Hi).
  assert (IS : forall x, In x (slot_elems (tab i)) -> In x (elems (Node d t z tab))) by (intros; apply in_elems; eauto).
  assert (NS : NoDup (map ek (slot_elems (tab i)))).
  { destruct (elems_split tab i Hi) as (pre & post & E1 & _). rewrite elems_eq, E1 in ND. rewrite !map_app in ND.
    apply NoDup_app_r in ND. clear - ND. revert ND. generalize (map ek (slot_elems (tab i))) as a. induction a as [|x a IHa]; [constructor|].
    cbn [app]. intros H. apply NoDup_cons_iff in H as [H1 H2]. constructor; [|auto]. intros Q. apply H1. apply in_app_iff. auto. }
  assert (SAME : forall x, In x (e :: slot_elems (tab i)) -> (eh x mod 2 ^ (4 * Z.of_nat (S d)) = Z.of_nat i * 2 ^ (4 * Z.of_nat d) + r)%Z).
  { intros x [<-|Hx].
    - rewrite (nibble _ d i TD E), (Hr e) by (left; reflexivity). reflexivity.
    - destruct Ws as [Ws _]. rewrite Forall_forall in Ws. rewrite (nibble _ d i TD (Ws x Hx)), (Hr x) by (right; auto). reflexivity. }
  destruct (tab i) as [l|m] eqn:Ti; cbn [slot_elems stok] in *.
  - pose proof (find_key hash l e HS He) as NI.
    destruct (find (same (eh e) (ek e)) l) as [y|] eqn:X.
    { destruct rep; [|eauto]. destruct (st && _); [eauto|]. eexists _, _. split; [reflexivity|]. eapply tok_upd; [exact T|].
      cbn [stok]. rewrite chain_replace_len. exact TS. }
    destruct st; [eauto|]. destruct room; cbn [negb]; [|eauto].
    destruct (Nat.leb_spec 64 (length l)) as [L|L].
    + destruct mem; cbn [negb]; [|eauto].
      assert (D6 : d <> 6).
      { intros ->. assert (length (ek e :: map ek l) <= 64); [|cbn [length] in *; rewrite map_length in *; lia].
        apply few.
        - constructor; assumption.
        - intros v [<-|Q]; [exact Hv|]. apply IN. apply in_map_iff in Q as (x & <- & Hx). apply in_map. auto.
        - exists (Z.of_nat i * 2 ^ 24 + r)%Z. intros v [<-|Q].
          + rewrite <- He. apply SAME. left; reflexivity.
          + apply in_map_iff in Q as (x & <- & Hx). rewrite <- (hashed_in _ _ _ HS Hx). apply (SAME x). right; exact Hx. }
      assert (SD : S d <= 6) by lia.
      assert (M : exists tab', move (S d) l empty_tab = Some tab').
      { assert (A : all_chains empty_tab) by (intros j; exists []; reflexivity). revert A. generalize empty_tab as tb.
        clear - SD. induction l as [|x l IHl]; intros tb A; cbn [move]; [eauto|].
        destruct (hidx_low (eh x) (S d) SD) as (j & -> & _). destruct (A j) as (c & ->). apply IHl.
        intros y. unfold upd. destruct (Nat.eqb y j); eauto. }
      destruct M as (tab' & M). rewrite M. destruct (hidx_low (eh e) (S d) SD) as (j & -> & Hj & _).
      assert (A : all_chains tab').
      { clear - M. assert (A : all_chains empty_tab) by (intros j; exists []; reflexivity). revert A M. generalize empty_tab as tb.
        induction l as [|x l IHl]; intros tb A; cbn [move]; [intros Q; injection Q as <-; exact A|].
        destruct (hidx _ _) as [j|]; [|discriminate]. destruct (tb j); [|discriminate]. apply IHl.
        intros y. unfold upd. destruct (Nat.eqb y j); eauto. }
      destruct (A j) as (c & Ec). rewrite Ec.
      destruct (move_tab_len (S d) l empty_tab tab' (proj1 (empty_tab_ok 0)) M j c Ec) as (c0 & Q & Lc). injection Q as <-. cbn [length] in Lc.
      replace (chain_ok (S (length c))) with true by (unfold chain_ok; lia).
      eexists _, _. split; [reflexivity|]. eapply tok_upd; [exact T|]. cbn [stok]. apply tok_iff. split; [exact SD|].
      intros x Hx. unfold upd. destruct (Nat.eqb_spec x j) as [->|].
      * cbn [stok length]. lia.
      * destruct (A x) as (cx & Ex). rewrite Ex. cbn [stok].
        destruct (move_tab_len (S d) l empty_tab tab' (proj1 (empty_tab_ok 0)) M x cx Ex) as (c1 & Q & Lx). injection Q as <-. cbn [length] in Lx. lia.
    + replace (chain_ok (S (length l)) && cnt_ok (S t)) with true by (unfold chain_ok, cnt_ok; lia).
      eexists _, _. split; [reflexivity|]. eapply tok_upd; [exact T|]. cbn [stok length]. lia.
  - apply slot_ok_child in Ws as (W1 & W2 & W3 & W4).
    destruct (IH i m Ti W3 TS HS NS) as (c & m' & -> & Tm).
    { intros v Q. apply IN. apply in_map_iff in Q as (x & <- & Hx). apply in_map. auto. }
    { rewrite W2. eexists. exact SAME. }
    destruct c; eexists _, _; (split; [reflexivity|]); try exact T; (eapply tok_upd; [exact T|exact Tm]).
Qed.
End Link.

Lemma picks_len del : forall fl A, NoDup (keys A) -> length (fst (picks del A fl)) <= length fl.
Proof.
  induction fl as [|f fl IH]; intros A N; cbn [picks]; [cbn; lia|].
  assert (L1 : length (filter (fun p => beqb f (fst p)) A) <= 1).
  { clear IH. induction A as [|p A IHA]; [cbn; lia|]. cbn [keys map] in N. apply NoDup_cons_iff in N as [N1 N2]. cbn [filter].
    destruct (beqb f (fst p)) eqn:E; [|auto]. apply beqb_eq in E. subst f. destruct (filter_none (fst p) A N1) as [-> _]. cbn. lia. }
  set (A1 := if del then _ else _). assert (N' : NoDup (keys A1)).
  { subst A1. destruct del; [|exact N]. clear - N. induction A as [|p A IHA]; [exact N|]. cbn [keys map] in N. apply NoDup_cons_iff in N as [N1 N2].
    cbn [filter]. destruct (negb _); [|auto]. cbn [keys map]. constructor; [|auto]. intros Q. apply N1.
    apply in_map_iff in Q as (q & <- & Hq). apply filter_In in Hq as [Hq _]. apply in_map. exact Hq. }
  specialize (IH A1 N'). destruct (picks del A1 fl) as [l A2]. cbn [fst length] in *. rewrite app_length. lia.
Qed.
Lemma picks_small fl A : NoDup fl -> NoDup (keys A) -> length (fst (picks false A fl)) <= length A.
Proof.
  intros NF N. rewrite <- (map_length fst A). rewrite <- (map_length fst (fst _)).
  apply NoDup_incl_length.
  - revert NF. induction fl as [|f fl IH]; intros NF; [constructor|]. apply NoDup_cons_iff in NF as [NF1 NF2]. specialize (IH NF2).
    cbn [picks]. pose proof (picks_false fl A) as PF. destruct (picks false A fl) as [l A2]. cbn [fst snd] in *. destruct PF as [_ PF].
    rewrite map_app.
    assert (F1 : (filter (fun p => beqb f (fst p)) A = [] ) \/ exists p, filter (fun p => beqb f (fst p)) A = [p] /\ fst p = f).
    { clear - N. induction A as [|p A IHA]; [left; reflexivity|]. cbn [keys map] in N. apply NoDup_cons_iff in N as [N1 N2]. cbn [filter].
      destruct (beqb f (fst p)) eqn:E; [|auto]. apply beqb_eq in E. subst f. destruct (filter_none (fst p) A N1) as [-> _]. right. eauto. }
    destruct F1 as [->|(p & -> & <-)]; cbn [map app]; [exact IH|]. constructor; [|exact IH].
    intros Q. apply in_map_iff in Q as (q & Eq & Hq). apply PF in Hq as [_ Hq]. apply NF1. rewrite <- Eq. exact Hq.
  - intros f Hf. apply in_map_iff in Hf as (p & <- & Hp). apply (proj2 (picks_false fl A)) in Hp as [Hp _]. apply in_map. exact Hp.
Qed.

Section T.
Variable hash : bytes -> Z.
Hypothesis hash_int : forall k, range (hash k).

Lemma m_byfield_total del k : forall n, mwf n -> tok n -> hashed hash (elems n) ->
  exists x n', m_byfield del n (hash k) k = Some (x, n') /\ tok n'.
Proof using hash_int.
  intros n. induction n as [d t z tab IH] using node_rec'. intros W T HH. cbn [m_byfield].
  pose proof (proj1 (tok_iff _ _ _ _) T) as [TD TS].
  destruct (hidx_low (hash k) d TD) as (i & E & Hi & _). rewrite E.
  destruct (tab i) as [l|m] eqn:Ti.
  - destruct (chain_del (hash k) k l) as [[e r]|] eqn:CD; [|eauto]. destruct del; [|eauto].
    eexists _, _. split; [reflexivity|]. eapply tok_upd; [exact T|]. specialize (TS i Hi). rewrite Ti in TS.
    apply chain_del_len in CD. cbn [stok] in *. lia.
  - pose proof (proj1 (mwf_iff _ _ _ _) W) as (_ & _ & Ws). specialize (Ws i Hi). rewrite Ti in Ws. apply slot_ok_child in Ws as (_ & _ & W3 & _).
    specialize (TS i Hi). rewrite Ti in TS. pose proof (hashed_slot hash _ _ _ _ _ HH Hi) as HS. rewrite Ti in HS.
    destruct (IH i m Ti W3 TS HS) as (x & m' & D & Tm). rewrite D.
    destruct x as [e|]; [|eauto]. destruct del; [|eauto].
    apply (m_byfield_ok hash hash_int) in D; [|exact W3|exact HS]. destruct D as (_ & _ & _ & D). destruct (D eq_refl) as (D1 & _ & _).
    pose proof (tok_cnt _ _ _ _ W T).
    destruct (m_after_some d t z tab i m' D1) as (n' & M); [lia|]. rewrite M. eexists _, _. split; [reflexivity|].
    eapply m_after_tok; eassumption.
Qed.

Lemma m_put_total e : eh e = hash (ek e) -> forall n, tok n -> exists n', m_put n e = Some n' /\ tok n'.
Proof.
  intros He n. induction n as [d t z tab IH] using node_rec'. intros T. cbn [m_put].
  pose proof (proj1 (tok_iff _ _ _ _) T) as [TD TS].
  destruct (hidx_low (eh e) d TD) as (i & E & Hi & _). rewrite E. specialize (TS i Hi).
  destruct (tab i) as [l|m] eqn:Ti.
  - eexists. split; [reflexivity|]. eapply tok_upd; [exact T|]. cbn [stok] in *. rewrite chain_replace_len. exact TS.
  - destruct (IH i m Ti TS) as (m' & -> & Tm). eexists. split; [reflexivity|]. eapply tok_upd; [exact T|exact Tm].
Qed.

Lemma m_dfs_slots_total rec del count d tab0 :
  (forall i m c, i < 16 -> tab0 i = Child m -> exists l m', rec m c = Some (l, m') /\
     (del = true -> mwf m' /\ tok m' /\ ndep m' = ndep m /\ Permutation (elems m) (l ++ elems m'))) ->
  forall is t z tab acc, mwf (Node d t z tab) -> tok (Node d t z tab) ->
  (forall i, In i is -> tab i = tab0 i) -> NoDup is -> (forall i, In i is -> i < 16) ->
  exists l n', m_dfs_slots rec del count d tab0 is t z tab acc = Some (l, n') /\ tok n'.
Proof.
  intros R. induction is as [|i is IH]; intros t z tab acc W T S ND SL; [eexists _, _; split; [reflexivity|exact T]|].
  apply NoDup_cons_iff in ND as [ND1 ND2]. assert (Hi : i < 16) by (apply SL; left; reflexivity).
  pose proof (S i (or_introl eq_refl)) as Si.
  pose proof (proj1 (tok_iff _ _ _ _) T) as [TD TS]. specialize (TS i Hi). rewrite Si in TS.
  pose proof (proj1 (mwf_iff _ _ _ _) W) as (Wt & _ & Ws). specialize (Ws i Hi). rewrite Si in Ws.
  assert (STEP : forall a t1 z1 tab1, mwf (Node d t1 z1 tab1) -> tok (Node d t1 z1 tab1) -> (forall j, In j is -> tab1 j = tab0 j) ->
    exists l n', (if full count (length (acc ++ a)) then Some (acc ++ a, Node d t1 z1 tab1)
       else m_dfs_slots rec del count d tab0 is t1 z1 tab1 (acc ++ a)) = Some (l, n') /\ tok n').
  { intros a t1 z1 tab1 W1 T1 S1. destruct (full _ _); [eexists _, _; split; [reflexivity|exact T1]|].
    apply IH; [exact W1|exact T1|exact S1|exact ND2|intros; apply SL; right; assumption]. }
  assert (S' : forall s j, In j is -> upd tab i s j = tab0 j).
  { intros s j Hj. rewrite upd_other by congruence. apply S; right; exact Hj. }
  cbn [m_dfs_slots]. fold (m_dfs_slots rec del count d tab0).
  destruct (tab0 i) as [c|m] eqn:T0.
  - pose proof (take_chain_app count c (length acc)) as TA. destruct (take_chain count (length acc) c) as [a b]. cbn [fst snd] in TA.
    pose proof (f_equal (@length _) TA) as TL. rewrite app_length in TL. cbn [stok] in TS.
    destruct del; apply STEP; try exact W; try exact T; [| |apply S'|intros j Hj; apply S; right; exact Hj].
    + eapply mwf_upd; [exact W|exact Hi| | |rewrite Si; reflexivity].
      * split; [|exact I]. destruct Ws as [Ws _]. cbn [slot_elems] in *. rewrite <- TA in Ws. apply Forall_app in Ws. tauto.
      * pose proof (tsum_ge own tab i Hi) as G. rewrite Si in G |- *. cbn [own] in *. lia.
    + eapply tok_upd; [exact T|]. cbn [stok]. lia.
  - destruct (R i m (rest count (length acc)) Hi T0) as (l & m' & -> & RD). destruct del.
    + destruct (RD eq_refl) as (R1 & R2 & R3 & R4). pose proof (tok_cnt _ _ _ _ W T).
      destruct (m_after_some d t z tab i m' R1) as ([d1 t1 z1 tab1] & M); [lia|]. rewrite M.
      pose proof (m_after_tok _ _ _ _ _ _ _ T R2 M) as T1.
      apply slot_ok_child in Ws as (W1 & W2 & W3 & W4). pose proof (Forall_perm _ _ _ R4 W1) as Q. apply Forall_app in Q as [_ Q].
      eapply (m_after_ok d _ _ tab i m m' l) in M; [|exact W|exact Hi|exact Si|exact Q|congruence|exact R1|exact R4].
      destruct M as (M1 & M2 & M3 & M4). cbn [ndep ntab] in *. subst d1.
      apply STEP; [exact M1|exact T1|]. intros j Hj. rewrite M4 by congruence. apply S; right; exact Hj.
    + apply STEP; [exact W|exact T|]. intros j Hj; apply S; right; exact Hj.
Qed.
Lemma m_dfs_total del : forall n count, mwf n -> tok n -> exists l n', m_dfs del n count = Some (l, n') /\ tok n'.
Proof.
  intros n. induction n as [d t z tab IH] using node_rec'. intros count W T. rewrite m_dfs_eq.
  apply m_dfs_slots_total; [|exact W|exact T|reflexivity|apply seq_NoDup|intros i; apply in_slots].
  intros i m c Hi Ti. pose proof (proj1 (mwf_iff _ _ _ _) W) as (_ & _ & Ws). specialize (Ws i Hi). rewrite Ti in Ws.
  apply slot_ok_child in Ws as (_ & _ & W3 & _). pose proof (proj1 (tok_iff _ _ _ _) T) as [_ TS]. specialize (TS i Hi). rewrite Ti in TS.
  destruct (IH i m Ti c W3 TS) as (l & m' & D & Tm). exists l, m'. split; [exact D|]. intros ->.
  apply m_dfs_ok in D as (_ & _ & D); [|intros _; exact W3]. destruct (D eq_refl W3) as (D1 & D2 & D3). auto.
Qed.

Lemma by_fields_total del : forall fl n, mwf n -> tok n -> hashed hash (elems n) ->
  exists l n', by_fields hash del n fl = Some (l, n') /\ tok n' /\ (ndep n = 0 -> ndep n' = 0).
Proof using hash_int.
  induction fl as [|f fl IH]; intros n W T HH; cbn [by_fields]; [eexists _, _; split; [reflexivity|auto]|].
  destruct (m_byfield_total del f n W T HH) as (x & n1 & B & T1). rewrite B.
  assert (K : mwf n1 /\ hashed hash (elems n1) /\ ndep n1 = ndep n).
  { apply (m_byfield_ok hash hash_int) in B; [|exact W|exact HH]. destruct x as [e|].
    - destruct B as (_ & _ & B0 & B1). destruct del.
      + destruct (B1 eq_refl) as (W1 & D1 & P1). split; [exact W1|]. split; [|exact D1]. apply (hashed_perm hash _ _ P1) in HH. inversion HH; assumption.
      + rewrite (B0 eq_refl). auto.
    - destruct B as [-> _]. auto. }
  destruct K as (W1 & H1 & D1). destruct (IH n1 W1 T1 H1) as (l & n2 & -> & T2 & D2).
  eexists _, _. split; [reflexivity|]. split; [exact T2|]. intros D. apply D2. congruence.
Qed.

Definition rtok (s : map_info) : Prop := match root s with Some n => tok n /\ ndep n = 0 | None => True end.

Variable vals : list bytes.
Hypothesis few : forall V, NoDup V -> incl V vals -> (exists r, forall v, In v V -> (hash v mod 2 ^ 28 = r)%Z) -> length V <= 64.

Definition op_fine (o : op) : Prop :=
  match o with
  | Insert f _ _ _ _ _ => In f vals
  | Get fl del => del = true \/ NoDup fl
  | _ => True
  end.

Lemma drop_rtok n c m : tok n -> ndep n = 0 -> rtok (mkMap (drop_root n) c m).
Proof. intros T D. unfold rtok, drop_root. cbn [root]. destruct (_ && _); [exact I|auto]. Qed.

Lemma step_total s A o : Inv hash s A -> rtok s -> incl (keys A) vals -> op_fine o ->
  exists s' x, step hash s o = Some (s', x) /\ rtok s'.
Proof using hash_int few.
  intros I RT IA OF. pose proof I as (N & C & J). pose proof RT as RT0. unfold rtok in RT.
  destruct o as [f v rep st mr mn|f v held st mem|fl|fl del|count]; cbn [step op_fine] in *.
  - set (room := Nat.ltb (ccnt s) (maxc s)). set (e := mkElem (hash f) f v).
    assert (LINK : forall n, mwf n -> tok n -> ndep n = 0 -> hashed hash (elems n) -> Permutation (map pair_of (elems n)) A ->
      exists c n', m_link n e rep room st mn = Some (c, n') /\
        match c with LNew => tok n' /\ ndep n' = 0 | LReplaced => tok n' /\ ndep n' = 0 /\ A <> [] | LErr _ => n' = n end).
    { intros n W T D HH P. pose proof (keys_perm _ _ P) as KP. rewrite keys_pairs in KP.
      destruct (m_link_total hash vals few e rep room st mn eq_refl OF n W T HH) as (c & n' & L & T').
      { eapply Permutation_NoDup; [symmetry; exact KP|exact N]. }
      { intros x Hx. apply IA. eapply Permutation_in; [exact KP|exact Hx]. }
      { exists 0%Z. intros x _. rewrite D. apply Z.mod_1_r. }
      exists c, n'. split; [exact L|]. apply (m_link_ok hash hash_int) in L; [|reflexivity|exact W|exact HH].
      destruct c as [| |[]]; try tauto.
      - destruct L as (_ & L & _). split; [exact T'|congruence].
      - destruct L as (_ & L & _ & x & R & _ & L2 & _). split; [exact T'|]. split; [congruence|]. intros ->.
        apply Permutation_length in P. rewrite map_length, (Permutation_length L2) in P. discriminate. }
    destruct (root s) as [n|] eqn:E.
    + destruct J as (W & HH & P & NE). destruct (LINK n W (proj1 RT) (proj2 RT) HH P) as (c & n' & -> & K).
      destruct c; eexists _, _; (split; [reflexivity|]); unfold rtok; cbn [root]; rewrite ?E; tauto.
    + destruct mr; cbn [negb]; [|eexists _, _; split; [reflexivity|exact RT0]].
      destruct (LINK (Node 0 0 0 empty_tab)) as (c & n' & -> & K).
      { apply empty_root. } { split; [lia|]. intros i Hi. cbn. lia. } { reflexivity. } { constructor. } { rewrite J. reflexivity. }
      destruct c as [| |c].
      * eexists _, _. split; [reflexivity|]. unfold rtok; cbn [root]. exact K.
      * destruct K as (_ & _ & K). contradiction.
      * subst n'. cbn. eexists _, _. split; [reflexivity|exact RT0].
  - destruct (root s) as [n|] eqn:E; [|eexists _, _; split; [reflexivity|exact RT0]].
    destruct J as (W & HH & P & NE).
    pose proof (find_total (hash f) f n (proj1 RT)) as F. pose proof (find_elem_ok hash f (hash_int f) n (proj1 W) HH) as FO.
    destruct (find_elem n (hash f) f) as [[y|]|]; [| |congruence]; [|eexists _, _; split; [reflexivity|exact RT0]].
    destruct FO as [FO1 FO2]. pose proof (hashed_in _ _ _ HH FO1) as Hy.
    destruct (m_put_total (mkElem (eh y) (ek y) v) Hy n (proj1 RT)) as (n' & M & T'). cbv zeta. rewrite M.
    assert (D' : ndep n' = 0).
    { clear - M RT. destruct RT as [_ D]. destruct n as [d t z tab]. cbn [m_put] in M. cbn [ndep] in D. subst d.
      destruct (hidx _ 0) as [i|]; [|discriminate]. destruct (tab i); [injection M as <-; reflexivity|].
      destruct (m_put n _); [|discriminate]. injection M as <-. reflexivity. }
    assert (P1 : exists s' x, Some (mkMap (Some n') (ccnt s) (maxc s), ORc SUCC) = Some (s', x) /\ rtok s').
    { eexists _, _. split; [reflexivity|]. unfold rtok. cbn [root]. auto. }
    destruct (negb held && _); [exact P1|]. destruct (st && _); [eexists _, _; split; [reflexivity|exact RT0]|].
    destruct mem; [exact P1|eexists _, _; split; [reflexivity|exact RT0]].
  - destruct (root s) as [n|] eqn:E; [|eexists _, _; split; [reflexivity|exact RT0]].
    pose proof J as (W & HH & P & NE). destruct RT as [RT RD].
    assert (exists l n', match fl with [] => m_dfs true n 0 | _ => by_fields hash true n fl end = Some (l, n') /\
       tok n' /\ ndep n' = 0 /\ mwf n' /\ Permutation (elems n) (l ++ elems n')) as (l & n' & Q & T' & D' & W' & P').
    { destruct fl as [|f fl].
      - destruct (m_dfs_total true n 0 W RT) as (l & n' & D & T'). exists l, n'. split; [exact D|]. split; [exact T'|].
        apply m_dfs_ok in D as (_ & _ & D); [|intros _; exact W]. destruct (D eq_refl W) as (D1 & D2 & D3). split; [congruence|auto].
      - destruct (by_fields_total true (f :: fl) n W RT HH) as (l & n' & D & T' & DD). exists l, n'. split; [exact D|]. split; [exact T'|]. split; [auto|].
        apply (by_fields_ok hash hash_int true (f :: fl) n A) in D; [|exact W|exact HH|exact N|exact P]. destruct D as (_ & _ & D). destruct (D eq_refl) as (D1 & D2 & _). auto. }
    rewrite Q. destruct (inv_removed hash s n n' l A I E W' P') as (_ & _ & RG). cbn [ccnt root]. rewrite RG. cbn [negb].
    destruct l; eexists _, _; (split; [reflexivity|]); apply drop_rtok; assumption.
  - rewrite C. destruct (Nat.eqb_spec (length A) 0) as [Z|Z]; [eexists _, _; split; [reflexivity|exact RT0]|].
    destruct (root s) as [n|] eqn:E; [|subst A; cbn in Z; lia].
    pose proof J as (W & HH & P & NE). destruct RT as [RT RD].
    set (cap := if Nat.eqb (length fl) 0 || Nat.ltb (length A) (length fl) then length A else length fl).
    assert (exists l n', match fl with [] => m_dfs del n 0 | _ => by_fields hash del n fl end = Some (l, n') /\
       tok n' /\ ndep n' = 0 /\ length l <= cap) as (l & n' & Q & T' & D' & LC).
    { destruct fl as [|f fl].
      - destruct (m_dfs_total del n 0 W RT) as (l & n' & D & T'). exists l, n'. split; [exact D|]. split; [exact T'|].
        apply m_dfs_ok in D as (D1 & D2 & D); [|intros _; exact W]. split.
        + destruct del; [destruct (D eq_refl W) as (_ & D3 & _); congruence|rewrite D2; auto].
        + cbn. rewrite D1. unfold wantn. cbn. rewrite (proj1 (inv_len hash s n A I E)). lia.
      - destruct (by_fields_total del (f :: fl) n W RT HH) as (l & n' & D & T' & DD). exists l, n'. split; [exact D|]. split; [exact T'|]. split; [auto|].
        apply (by_fields_ok hash hash_int del (f :: fl) n A) in D; [|exact W|exact HH|exact N|exact P]. destruct D as (D1 & _ & _).
        apply (f_equal (@length _)) in D1. rewrite map_length in D1. rewrite D1.
        subst cap. destruct (Nat.eqb_spec (length (f :: fl)) 0) as [Q0|Q0]; [discriminate|]. cbn [orb].
        destruct (Nat.ltb_spec (length A) (length (f :: fl))); [|apply picks_len; exact N].
        destruct del; [|destruct OF as [OF|OF]; [discriminate|apply picks_small; assumption]].
        destruct (picks_true (f :: fl) A) as (PP & _ & _). apply Permutation_length in PP. rewrite app_length in PP. lia. }
    rewrite Q. destruct (Nat.ltb_spec cap (length l)); [lia|].
    destruct l; eexists _, _; (split; [reflexivity|]); (destruct del; [apply drop_rtok; assumption|exact RT0]).
  - destruct (root s) as [n|] eqn:E; [|eexists _, _; split; [reflexivity|exact RT0]].
    destruct J as (W & HH & P & NE). destruct RT as [RT RD].
    destruct (m_dfs_total true n count W RT) as (l & n' & D & T'). rewrite D.
    apply m_dfs_ok in D as (_ & _ & D); [|intros _; exact W]. destruct (D eq_refl W) as (D1 & D2 & D3).
    eexists _, _. split; [reflexivity|]. apply drop_rtok; [exact T'|congruence].
Qed.

Lemma spec_step_vals cap A o x A' : spec_step cap A o x A' -> op_fine o -> incl (keys A) vals -> incl (keys A') vals.
Proof using Type.
  assert (SUB : forall l R, Permutation A (l ++ R) -> incl (keys A) vals -> incl (keys R) vals).
  { intros l R P I y Hy. apply I. apply in_map_iff in Hy as (p & <- & Hp). apply in_map.
    eapply Permutation_in; [symmetry; exact P|]. apply in_app_iff. auto. }
  assert (SWAP : forall f v w R A', Permutation A ((f, w) :: R) -> Permutation A' ((f, v) :: R) -> incl (keys A) vals -> incl (keys A') vals).
  { intros f v w R B P1 P2 I y Hy. apply I. apply keys_perm in P1, P2. eapply Permutation_in in Hy; [|exact P2].
    eapply Permutation_in; [symmetry; exact P1|exact Hy]. }
  intros S OF I. destruct S; cbn [op_fine] in OF; try assumption; try (intros ? []; fail).
  - intros y Hy. apply keys_perm in H2. eapply Permutation_in in Hy; [|exact H2]. destruct Hy as [<-|Hy]; auto.
  - eapply SWAP; eassumption.
  - eapply SWAP; eassumption.
  - eapply SUB; eassumption.
  - destruct (picks_true fl A) as (PP & _ & _). eapply SUB; [|exact I]. rewrite H0. exact PP.
  - eapply SUB; eassumption.
Qed.

Lemma run_total : forall ops s A, Inv hash s A -> rtok s -> incl (keys A) vals ->
  Forall op_fine ops -> run hash s ops <> None.
Proof using hash_int few.
  induction ops as [|o ops IH]; intros s A I RT IA F; cbn [run]; [discriminate|].
  inversion F; subst. destruct (step_total s A o I RT IA) as (s' & x & E & RT'); [assumption|]. rewrite E.
  apply (step_ok hash hash_int _ A) in E as (A' & S & I' & M); [|exact I].
  assert (IA' : incl (keys A') vals) by (eapply spec_step_vals; eassumption).
  assert (R : run hash s' ops <> None) by (apply (IH s' A'); assumption).
  destruct (run hash s' ops) as [[? ?]|]; congruence.
Qed.
End T.
