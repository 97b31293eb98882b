(* The hash tree of a set implements a finite set. *)
From Verif Require Import Base HtModel HtProofs SetModel SetSpec.
Set Default Proof Using "Type".

(* tot_elem_cnt is the number of elements below the node *)
Fixpoint cwf (n : node) : Prop :=
  match n with Node _ t _ tab =>
    t = length (tab_elems tab) /\ forall i, i < 16 -> match tab i with Chain _ => True | Child m => cwf m end
  end.

Definition slot_ok (d i : nat) (s : slot) : Prop :=
  Forall (at_ d i) (slot_elems s) /\
  match s with Chain _ => True | Child m => ndep m = S d /\ pwf m /\ cwf m end.

Definition nwf (n : node) : Prop := pwf n /\ cwf n.

Lemma nwf_iff d t h tab :
  nwf (Node d t h tab) <-> t = length (tab_elems tab) /\ forall i, i < 16 -> slot_ok d i (tab i).
Proof.
  unfold nwf, slot_ok. cbn [pwf cwf]. split.
  - intros (P & C & D). split; [exact C|]. intros i Hi. specialize (P i Hi). specialize (D i Hi).
    destruct (tab i); cbn [slot_elems]; tauto.
  - intros (C & D). split; [|split]; [|exact C|]; intros i Hi; specialize (D i Hi); destruct (tab i); cbn [slot_elems] in D; tauto.
Qed.

Lemma nwf_tot n : nwf n -> ntot n = length (elems n).
Proof. destruct n as [d t h tab]. intros H. apply nwf_iff in H. exact (proj1 H). Qed.

Lemma slot_ok_child d i m : slot_ok d i (Child m) <-> Forall (at_ d i) (elems m) /\ ndep m = S d /\ nwf m.
Proof. unfold slot_ok, nwf. cbn [slot_elems]. tauto. Qed.

Lemma nwf_upd d t h tab i s t' :
  nwf (Node d t h tab) -> i < 16 -> slot_ok d i s -> t' = length (tab_elems (upd tab i s)) ->
  nwf (Node d t' h (upd tab i s)).
Proof.
  rewrite !nwf_iff. intros [_ A] Hi S E. split; [exact E|]. intros j Hj.
  destruct (Nat.eq_dec j i) as [->|N]; [rewrite upd_same; exact S|rewrite upd_other by exact N; auto].
Qed.

(* node unlink *)
Lemma s_merge_ok d i m s : slot_ok d i (Child m) -> s_merge m = Some s ->
  slot_ok d i s /\ Permutation (slot_elems s) (elems m).
Proof.
  intros S. unfold s_merge. destruct (_ && _).
  - destruct (gather slots (ntab m) []) as [l|] eqn:G; [|discriminate]. destruct (Nat.eqb _ _); [|discriminate].
    intros H; injection H as <-. apply gather_ok in G. rewrite app_nil_r in G.
    destruct m as [d' t h tab]. cbn [ntab] in G. cbn [slot_elems].
    assert (P : Permutation l (elems (Node d' t h tab))) by exact G.
    split; [|exact P]. split; [|exact I]. cbn [slot_elems]. eapply Forall_perm; [symmetry; exact P|]. apply S.
  - intros H; injection H as <-. split; [exact S|reflexivity].
Qed.
Lemma s_merge_some m : nwf m -> exists s, s_merge m = Some s.
Proof.
  intros W. unfold s_merge. destruct (Nat.ltb (ntot m) 32 && is_leaf m) eqn:E; [|eauto].
  apply andb_true_iff in E as [_ L]. destruct m as [d t h tab]. cbn [ntab ntot].
  destruct (gather_some tab slots []) as (l & G).
  { intros i Hi. eapply is_leaf_ok; [exact L|]. apply in_slots; exact Hi. }
  rewrite G. apply gather_ok in G. rewrite app_nil_r in G. apply nwf_iff in W as [-> _].
  apply Permutation_length in G. unfold tab_elems. rewrite G, Nat.eqb_refl. eauto.
Qed.

Section H.
Variable hash : bytes -> Z.
Hypothesis hash_int : forall k, range (hash k).

Lemma hashed_range l : hashed hash l -> forall e, In e l -> range (eh e).
Proof using hash_int. intros H e I. rewrite (hashed_in _ _ _ H I). apply hash_int. Qed.

Lemma key_in_slot d t h tab i k :
  nwf (Node d t h tab) -> hashed hash (elems (Node d t h tab)) -> hidx (hash k) d = Some i ->
  In k (map ek (elems (Node d t h tab))) -> In k (map ek (slot_elems (tab i))).
Proof.
  intros W H E Q. apply in_map_iff in Q as (e & Q & Qe). pose proof (hashed_in _ _ _ H Qe) as Q2.
  apply in_map_iff. exists e. split; [exact Q|]. eapply in_slot; [apply W|exact Qe|]. congruence.
Qed.
Lemma s_link_ok e mem : eh e = hash (ek e) -> forall n c n', nwf n -> hashed hash (elems n) ->
  s_link n e mem = Some (c, n') ->
  match c with
  | SUCC => nwf n' /\ ndep n' = ndep n /\ ~ In (ek e) (map ek (elems n)) /\ Permutation (elems n') (e :: elems n)
  | EEXISTS => n' = n /\ In (ek e) (map ek (elems n))
  | ENOMEM => n' = n /\ mem = false
  | _ => False
  end.
Proof using hash_int.
  intros He n. induction n as [d t h tab IH] using node_rec'. intros c n' W HH. cbn [s_link].
  destruct (hidx (eh e) d) as [i|] eqn:E; [|discriminate].
  assert (Hi : i < 16) by (eapply hidx_lt; [|exact E]; rewrite He; apply hash_int).
  pose proof (hashed_slot hash _ _ _ _ _ HH Hi) as HS.
  assert (E' : hidx (hash (ek e)) d = Some i) by congruence.
  pose proof (key_in_slot _ _ _ _ _ (ek e) W HH E') as K1.
  pose proof (fun q => slot_in_key d t h tab i (ek e) Hi q) as K2.
  pose proof (proj1 (nwf_iff _ _ _ _) W) as [Wt Ws]. pose proof (Ws i Hi) as Wi.
  assert (build : forall s, slot_ok d i s -> Permutation (slot_elems s) (e :: slot_elems (tab i)) ->
     ~ In (ek e) (map ek (slot_elems (tab i))) ->
     nwf (Node d (S t) h (upd tab i s)) /\ ndep (Node d (S t) h (upd tab i s)) = ndep (Node d t h tab) /\
     ~ In (ek e) (map ek (elems (Node d t h tab))) /\
     Permutation (elems (Node d (S t) h (upd tab i s))) (e :: elems (Node d t h tab))).
  { intros s S P N. pose proof (tab_add tab i s [e] Hi P) as Q. cbn [app] in Q.
    split; [|split; [reflexivity|split; [tauto|exact Q]]].
    eapply nwf_upd; [exact W|exact Hi|exact S|]. rewrite (Permutation_length Q). cbn [length]. congruence. }
  destruct (tab i) as [l|m] eqn:T; cbn [slot_elems] in *.
  - destruct (existsb (same (eh e) (ek e)) l) eqn:X.
    + intros H; injection H as <- <-. split; [reflexivity|]. apply K2. apply (existsb_key hash); assumption.
    + assert (N : ~ In (ek e) (map ek l)) by (rewrite <- (existsb_key hash) by assumption; congruence).
      destruct (Nat.leb 64 (length l)).
      * destruct mem; cbn [negb]; [|intros H; injection H as <- <-; auto].
        destruct (move (S d) l empty_tab) as [tab'|] eqn:M; [|discriminate].
        destruct (hidx (eh e) (S d)) as [j|] eqn:J; [|discriminate].
        assert (Hj : j < 16) by (eapply hidx_lt; [|exact J]; rewrite He; apply hash_int).
        destruct (tab' j) as [cj|] eqn:Tj; [|discriminate]. destruct (chain_ok _); [|discriminate].
        intros H; injection H as <- <-.
        destruct (empty_tab_ok (S d)) as (A1 & A2 & A3).
        apply move_ok in M; [|apply hashed_range; exact HS|exact A1|exact A2].
        destruct M as (M1 & M2 & M3). rewrite A3, app_nil_r in M3.
        assert (Q : Permutation (tab_elems (upd tab' j (Chain (e :: cj)))) (e :: l)).
        { rewrite (tab_add tab' j (Chain (e :: cj)) [e] Hj); [cbn [app]; constructor; exact M3|]. rewrite Tj. reflexivity. }
        apply build; [|exact Q|exact N].
        apply slot_ok_child. split; [|split; [reflexivity|]].
        { cbn [elems]. eapply Forall_perm; [symmetry; exact Q|]. constructor; [exact E|]. apply Wi. }
        apply nwf_iff. split.
        { rewrite (Permutation_length Q). reflexivity. }
        intros x Hx. destruct (Nat.eq_dec x j) as [->|Nx].
        { rewrite upd_same. split; [|exact I]. cbn [slot_elems]. constructor; [exact J|]. specialize (M2 j Hj). rewrite Tj in M2. exact M2. }
        { rewrite upd_other by exact Nx. destruct (M1 x) as (lx & Ex). specialize (M2 x Hx). rewrite Ex in *. split; [exact M2|exact I]. }
      * destruct (chain_ok _); [|discriminate]. intros H; injection H as <- <-.
        apply build; [|reflexivity|exact N]. split; [|exact I]. cbn [slot_elems]. constructor; [exact E|apply Wi].
  - destruct (s_link m e mem) as [[cm m']|] eqn:L; [|discriminate].
    apply slot_ok_child in Wi as (W1 & W2 & W3).
    specialize (IH i m T cm m' W3 HS L).
    destruct cm; intros H; injection H as <- <-.
    + destruct IH as (I1 & I2 & I3 & I4). apply build; [|exact I4|exact I3].
      apply slot_ok_child. split; [|split; [congruence|exact I1]].
      eapply Forall_perm; [symmetry; exact I4|]. constructor; [exact E|exact W1].
    + split; [reflexivity|]. apply K2. apply IH.
    + destruct IH.
    + split; [reflexivity|apply IH].
    + destruct IH.
Qed.

Lemma s_del_ok k : forall n c n', nwf n -> hashed hash (elems n) ->
  s_del n (hash k) k = Some (c, n') ->
  match c with
  | SUCC => nwf n' /\ ndep n' = ndep n /\ exists e, ek e = k /\ Permutation (elems n) (e :: elems n')
  | ENOENT => n' = n /\ ~ In k (map ek (elems n))
  | _ => False
  end.
Proof using hash_int.
  intros n. induction n as [d t h tab IH] using node_rec'. intros c n' W HH. cbn [s_del].
  destruct (hidx (hash k) d) as [i|] eqn:E; [|discriminate].
  assert (Hi : i < 16) by (eapply hidx_lt; [apply hash_int|exact E]).
  pose proof (hashed_slot hash _ _ _ _ _ HH Hi) as HS.
  pose proof (key_in_slot _ _ _ _ _ k W HH E) as K1.
  pose proof (proj1 (nwf_iff _ _ _ _) W) as [Wt Ws]. pose proof (Ws i Hi) as Wi.
  assert (build : forall s e, slot_ok d i s -> Permutation (slot_elems (tab i)) (e :: slot_elems s) -> ek e = k ->
     nwf (Node d (pred t) h (upd tab i s)) /\ ndep (Node d (pred t) h (upd tab i s)) = ndep (Node d t h tab) /\
     exists e, ek e = k /\ Permutation (elems (Node d t h tab)) (e :: elems (Node d (pred t) h (upd tab i s)))).
  { intros s e S P N. pose proof (tab_sub tab i s [e] Hi P) as Q. cbn [app] in Q.
    split; [|split; [reflexivity|exists e; split; [exact N|exact Q]]].
    eapply nwf_upd; [exact W|exact Hi|exact S|]. apply Permutation_length in Q. cbn [length] in Q. lia. }
  destruct (tab i) as [l|m] eqn:T; cbn [slot_elems] in *.
  - pose proof (chain_del_ok (hash k) k l) as X. destruct (chain_del (hash k) k l) as [[e r]|].
    + intros H; injection H as <- <-. destruct X as (S & a & b & -> & -> & F). apply same_spec in S.
      apply (build (Chain (a ++ b)) e); [|symmetry; apply Permutation_middle|tauto].
      split; [|exact I]. cbn [slot_elems]. destruct Wi as [Wi _]. cbn [slot_elems] in Wi.
      apply Forall_app in Wi as [Wa Wb]. apply Forall_app. inversion Wb; subst. tauto.
    + intros H; injection H as <- <-. split; [reflexivity|]. intros Q. apply K1 in Q.
      apply in_map_iff in Q as (e & Q & Qe). rewrite Forall_forall in X. specialize (X e Qe).
      assert (same (hash k) k e = true); [|congruence]. apply same_spec. rewrite (hashed_in _ _ _ HS Qe). split; congruence.
  - destruct (s_del m (hash k) k) as [[cm m']|] eqn:L; [|discriminate].
    apply slot_ok_child in Wi as (W1 & W2 & W3).
    specialize (IH i m T cm m' W3 HS L).
    destruct cm; [|intros H; injection H as <- <- ..]; try (destruct IH; fail).
    + destruct IH as (I1 & I2 & e & I3 & I4).
      destruct (s_merge m') as [s|] eqn:M; [|discriminate]. intros H; injection H as <- <-.
      assert (SC : slot_ok d i (Child m')).
      { apply slot_ok_child. split; [|split; [congruence|exact I1]].
        pose proof (Forall_perm _ _ _ I4 W1) as Q. inversion Q; subst. assumption. }
      destruct (s_merge_ok d i m' s SC M) as (S1 & S2).
      apply (build s e); [exact S1|rewrite I4, S2; reflexivity|exact I3].
    + split; [reflexivity|]. intros Q. apply IH. apply K1. exact Q.
Qed.


End H.

(* ---- traversals ---- *)
Lemma wantn_len {A} c (l : list A) : length (wantn c l) = size_wanted c (length l).
Proof.
  unfold wantn, size_wanted. destruct (Nat.eqb c 0); [reflexivity|]. rewrite firstn_length. lia.
Qed.

Definition dfs_good (del : bool) (m : node) (c : nat) (l : list elem) (m' : node) : Prop :=
  l = wantn c (elems m) /\ (del = false -> m' = m) /\
  (del = true -> nwf m -> nwf m' /\ ndep m' = ndep m /\ Permutation (elems m) (l ++ elems m')).

Lemma dfs_slots_ok rec del count d z tab0 :
  (forall i m c l m', tab0 i = Child m -> rec m c = Some (l, m') -> dfs_good del m c l m') ->
  forall is t tab acc l n',
  count = 0 \/ length acc < count ->
  (forall i, In i is -> tab i = tab0 i) -> NoDup is -> (forall i, In i is -> i < 16) ->
  dfs_slots rec del count d z tab0 is t tab acc = Some (l, n') ->
  exists dl, l = acc ++ dl /\
  dl = wantn (rest count (length acc)) (flat_map (fun i => slot_elems (tab0 i)) is) /\
  (del = false -> n' = Node d t z tab) /\
  (del = true -> nwf (Node d t z tab) -> nwf n' /\ ndep n' = d /\ Permutation (tab_elems tab) (dl ++ elems n')).
Proof.
  intros R. induction is as [|i is IH]; intros t tab acc l n' C S ND SL.
  - cbn. intros H; injection H as <- <-. exists []. rewrite app_nil_r. split; [reflexivity|].
    split; [unfold wantn; destruct (Nat.eqb _ 0); [reflexivity|rewrite firstn_nil; reflexivity]|].
    split; [reflexivity|]. intros _ W. split; [exact W|]. split; [reflexivity|]. reflexivity.
  - apply NoDup_cons_iff in ND as [ND1 ND2]. assert (Hi : i < 16) by (apply SL; left; reflexivity).
    pose proof (S i (or_introl eq_refl)) as Si.
    (* one step of the loop: found [a], table and total afterwards *)
    assert (STEP : forall a t1 tab1 l n',
      a = wantn (rest count (length acc)) (slot_elems (tab0 i)) ->
      (forall j, In j is -> tab1 j = tab0 j) ->
      (del = false -> t1 = t /\ tab1 = tab) ->
      (del = true -> nwf (Node d t z tab) -> nwf (Node d t1 z tab1) /\ Permutation (tab_elems tab) (a ++ tab_elems tab1)) ->
      (if full count (length (acc ++ a)) then Some (acc ++ a, Node d t1 z tab1)
       else dfs_slots rec del count d z tab0 is t1 tab1 (acc ++ a)) = Some (l, n') ->
      exists dl, l = acc ++ dl /\
      dl = wantn (rest count (length acc)) (slot_elems (tab0 i) ++ flat_map (fun i => slot_elems (tab0 i)) is) /\
      (del = false -> n' = Node d t z tab) /\
      (del = true -> nwf (Node d t z tab) -> nwf n' /\ ndep n' = d /\ Permutation (tab_elems tab) (dl ++ elems n'))).
    { clear l n'. intros a t1 tab1 l n' Ea S1 D0 D1. rewrite app_length. destruct (full count (length acc + length a)) eqn:F.
      - intros H; injection H as <- <-. exists a. split; [reflexivity|]. rewrite wantn_app; [|exact C|rewrite <- Ea; exact F].
        split; [exact Ea|]. split; [intros Q; destruct (D0 Q) as [-> ->]; reflexivity|].
        intros Q W. destruct (D1 Q W) as [W1 P1]. split; [exact W1|]. split; [reflexivity|exact P1].
      - intros H. rewrite Ea in F. destruct (wantn_app2 count (length acc) (slot_elems (tab0 i)) (flat_map (fun i => slot_elems (tab0 i)) is) C F) as (U1 & U2 & U3).
        rewrite U1 in Ea. subst a.
        apply IH in H; [|rewrite app_length; exact U2|exact S1|exact ND2|intros; apply SL; right; assumption].
        destruct H as (dl & -> & Edl & H1 & H2). exists (slot_elems (tab0 i) ++ dl). rewrite <- app_assoc. split; [reflexivity|].
        rewrite app_length in Edl. split; [rewrite U3, Edl; reflexivity|].
        split; [intros Q; destruct (D0 Q) as [-> ->]; auto|].
        intros Q W. destruct (D1 Q W) as [W1 P1]. destruct (H2 Q W1) as (X1 & X2 & X3).
        split; [exact X1|]. split; [exact X2|]. rewrite P1, X3, <- app_assoc. reflexivity. }
    cbn [dfs_slots flat_map]. fold (dfs_slots rec del count d z tab0).
    destruct (tab0 i) as [c|m] eqn:T0; cbn [slot_elems] in STEP |- *.
    + pose proof (take_chain_want count c (length acc) C) as TW. pose proof (take_chain_app count c (length acc)) as TA.
      destruct (take_chain count (length acc) c) as [a b]. cbn [fst snd] in *.
      destruct del.
      * apply STEP; [exact TW| |discriminate|].
        { intros j Hj. rewrite upd_other by congruence. apply S; right; exact Hj. }
        intros _ W. assert (Q : Permutation (tab_elems tab) (a ++ tab_elems (upd tab i (Chain b)))).
        { apply tab_sub; [exact Hi|]. rewrite Si. cbn [slot_elems]. rewrite TA. reflexivity. }
        split; [|exact Q]. pose proof (proj1 (nwf_iff _ _ _ _) W) as [Wt Ws].
        eapply nwf_upd; [exact W|exact Hi| |].
        { specialize (Ws i Hi). rewrite Si in Ws. split; [|exact I]. destruct Ws as [Ws _]. cbn [slot_elems] in *.
          rewrite <- TA in Ws. apply Forall_app in Ws. tauto. }
        { apply Permutation_length in Q. rewrite app_length in Q. lia. }
      * apply STEP; [exact TW| |auto|discriminate]. intros j Hj. apply S; right; exact Hj.
    + destruct (rec m (rest count (length acc))) as [[a m']|] eqn:RM; [|discriminate].
      destruct (R _ _ _ _ _ T0 RM) as (R1 & R2 & R3).
      destruct del.
      * destruct (s_merge m') as [s|] eqn:M; [|discriminate].
        apply STEP; [exact R1| |discriminate|].
        { intros j Hj. rewrite upd_other by congruence. apply S; right; exact Hj. }
        intros _ W. pose proof (proj1 (nwf_iff _ _ _ _) W) as [Wt Ws]. specialize (Ws i Hi). rewrite Si in Ws.
        apply slot_ok_child in Ws as (W1 & W2 & W3). destruct (R3 eq_refl W3) as (R4 & R5 & R6).
        assert (SC : slot_ok d i (Child m')).
        { apply slot_ok_child. split; [|split; [congruence|exact R4]].
          pose proof (Forall_perm _ _ _ R6 W1) as Q. apply Forall_app in Q. tauto. }
        destruct (s_merge_ok d i m' s SC M) as (S1 & S2).
        assert (Q : Permutation (tab_elems tab) (a ++ tab_elems (upd tab i s))).
        { apply tab_sub; [exact Hi|]. rewrite Si. cbn [slot_elems]. rewrite R6, S2. reflexivity. }
        split; [|exact Q]. eapply nwf_upd; [exact W|exact Hi|exact S1|].
        apply Permutation_length in Q. rewrite app_length in Q. lia.
      * apply STEP; [exact R1| |auto|discriminate]. intros j Hj. apply S; right; exact Hj.
Qed.

Lemma s_dfs_eq del d t z tab count :
  s_dfs del (Node d t z tab) count = dfs_slots (s_dfs del) del count d z tab slots t tab [].
Proof. reflexivity. Qed.
Lemma s_at_eq del d t z tab off :
  s_at del (Node d t z tab) off = at_slots (s_at del) del d t z tab slots off.
Proof. reflexivity. Qed.
Lemma s_samp_eq d t z tab remain need rnd :
  s_samp (Node d t z tab) remain need rnd = samp_slots s_samp tab slots remain need rnd.
Proof. reflexivity. Qed.

Lemma s_dfs_ok del : forall n count l n', s_dfs del n count = Some (l, n') -> dfs_good del n count l n'.
Proof.
  intros n. induction n as [d t z tab IH] using node_rec'. intros count l n' H. rewrite s_dfs_eq in H.
  apply dfs_slots_ok in H; [| |cbn; lia|auto|apply seq_NoDup|intros i; apply in_slots].
  - destruct H as (dl & -> & E & H1 & H2). cbn [app length] in *.
    rewrite rest_0 in E. split; [exact E|].
    split; [exact H1|exact H2].
  - intros i m c l' m' T Q. exact (IH i m T c l' m' Q).
Qed.

Lemma dfs_slots_some rec del count d z tab0 :
  (forall i m c, i < 16 -> tab0 i = Child m -> exists l m', rec m c = Some (l, m') /\ (del = true -> nwf m')) ->
  forall is t tab acc, (forall i, In i is -> i < 16) -> dfs_slots rec del count d z tab0 is t tab acc <> None.
Proof.
  intros R. induction is as [|i is IH]; intros t tab acc SL; [discriminate|].
  assert (IH' := fun t tab acc => IH t tab acc (fun i H => SL i (or_intror H))).
  cbn [dfs_slots]. fold (dfs_slots rec del count d z tab0).
  destruct (tab0 i) as [c|m] eqn:T.
  - destruct (take_chain count (length acc) c) as [a b].
    destruct del; destruct (full _ _); try discriminate; apply IH'.
  - destruct (R i m (rest count (length acc)) (SL i (or_introl eq_refl)) T) as (l & m' & -> & W). destruct del.
    + destruct (s_merge_some m' (W eq_refl)) as (s & ->). destruct (full _ _); [discriminate|apply IH'].
    + destruct (full _ _); [discriminate|apply IH'].
Qed.
Lemma s_dfs_some del : forall n count, nwf n -> exists l n', s_dfs del n count = Some (l, n').
Proof.
  intros n. induction n as [d t z tab IH] using node_rec'. intros count W. rewrite s_dfs_eq.
  destruct (dfs_slots (s_dfs del) del count d z tab slots t tab []) as [[l n']|] eqn:E; [eauto|].
  exfalso. revert E. apply dfs_slots_some; [|intros i; apply in_slots].
  intros i m c Hi T. apply nwf_iff in W as [_ W]. specialize (W i Hi). rewrite T in W. apply slot_ok_child in W as (_ & _ & W).
  destruct (IH i m T c W) as (l & m' & Q). exists l, m'. split; [exact Q|].
  intros D. apply s_dfs_ok in Q. destruct Q as (_ & _ & Q). apply (Q D W).
Qed.

(* the element at an offset *)
Definition at_good (del : bool) (m : node) (off : nat) (x : option elem) (m' : node) : Prop :=
  x = nth_error (elems m) off /\ (del = false -> m' = m) /\
  (del = true -> forall e, x = Some e -> nwf m' /\ ndep m' = ndep m /\ Permutation (elems m) (e :: elems m')).

Lemma remove_nth_perm {A} (c : list A) off e : nth_error c off = Some e ->
  Permutation c (e :: firstn off c ++ skipn (S off) c).
Proof.
  revert off. induction c as [|x c IH]; intros [|off]; cbn [nth_error]; try discriminate.
  - intros H; injection H as ->. reflexivity.
  - intros H. cbn [firstn skipn app]. rewrite (IH _ H) at 1. apply perm_swap.
Qed.

Lemma at_slots_ok rec del d t z tab : nwf (Node d t z tab) ->
  (forall i m off x m', i < 16 -> tab i = Child m -> nwf m -> rec m off = Some (x, m') -> at_good del m off x m') ->
  forall is off x n', (forall i, In i is -> i < 16) -> at_slots rec del d t z tab is off = Some (x, n') ->
  x = nth_error (flat_map (fun i => slot_elems (tab i)) is) off /\ (del = false -> n' = Node d t z tab) /\
  (del = true -> forall e, x = Some e -> nwf n' /\ ndep n' = d /\ Permutation (tab_elems tab) (e :: elems n')).
Proof.
  intros W R. pose proof (proj1 (nwf_iff _ _ _ _) W) as [Wt Ws].
  induction is as [|i is IH]; intros off x n' SL.
  - cbn. intros H; injection H as <- <-. destruct off; split; auto; split; auto; discriminate.
  - assert (Hi : i < 16) by (apply SL; left; reflexivity).
    assert (IH' := fun off x n' => IH off x n' (fun i H => SL i (or_intror H))).
    pose proof (Ws i Hi) as Wi.
    cbn [at_slots flat_map]. fold (at_slots rec del d t z tab).
    destruct (tab i) as [c|m] eqn:T; cbn [slot_elems].
    + destruct (Nat.leb_spec (length c) off).
      * intros H1. apply IH' in H1. rewrite nth_error_app2 by assumption. exact H1.
      * destruct (nth_error c off) as [e|] eqn:N; [|discriminate]. rewrite nth_error_app1 by assumption.
        destruct del; intros H1; injection H1 as <- <-.
        { split; [congruence|]. split; [discriminate|]. intros _ e0 E0. injection E0 as <-.
          pose proof (remove_nth_perm c off e N) as P.
          pose proof (tab_sub tab i (Chain (firstn off c ++ skipn (S off) c)) [e] Hi) as Q. rewrite T in Q. specialize (Q P).
          split; [|split; [reflexivity|exact Q]].
          eapply nwf_upd; [exact W|exact Hi| |].
          - split; [|exact I]. destruct Wi as [Wi _]. cbn [slot_elems] in *. apply (Forall_perm _ _ _ P) in Wi. inversion Wi; subst; assumption.
          - apply Permutation_length in Q. rewrite app_length in Q. change (length [e]) with 1 in Q. cbn [skipn] in Q. lia. }
        { split; [congruence|]. split; [reflexivity|discriminate]. }
    + apply slot_ok_child in Wi as (W1 & W2 & W3). rewrite (nwf_tot m W3).
      destruct (Nat.leb_spec (length (elems m)) off).
      * intros H1. apply IH' in H1. rewrite nth_error_app2 by assumption. exact H1.
      * destruct (rec m off) as [[y m']|] eqn:RM; [|discriminate]. rewrite nth_error_app1 by assumption.
        destruct (R i m off y m' Hi T W3 RM) as (R1 & R2 & R3).
        destruct del.
        { destruct (s_merge m') as [s|] eqn:M; [|discriminate]. intros H1; injection H1 as <- <-.
          split; [exact R1|]. split; [discriminate|]. intros _ e E0. subst y. destruct (R3 eq_refl e E0) as (R4 & R5 & R6).
          assert (SC : slot_ok d i (Child m')).
          { apply slot_ok_child. split; [|split; [congruence|exact R4]]. apply (Forall_perm _ _ _ R6) in W1. inversion W1; subst; assumption. }
          destruct (s_merge_ok d i m' s SC M) as (S1 & S2).
          pose proof (tab_sub tab i s [e] Hi) as Q. rewrite T in Q. cbn [slot_elems app] in Q.
          assert (Q' : Permutation (tab_elems tab) (e :: tab_elems (upd tab i s))) by (apply Q; rewrite R6, S2; reflexivity).
          split; [|split; [reflexivity|exact Q']]. eapply nwf_upd; [exact W|exact Hi|exact S1|].
          apply Permutation_length in Q'. cbn [length] in Q'. lia. }
        { intros H1; injection H1 as <- <-. split; [exact R1|]. split; [reflexivity|discriminate]. }
Qed.

Lemma s_at_ok del : forall n off x n', nwf n -> s_at del n off = Some (x, n') -> at_good del n off x n'.
Proof.
  intros n. induction n as [d t z tab IH] using node_rec'. intros off x n' W H. rewrite s_at_eq in H.
  apply at_slots_ok in H; [exact H|exact W| |intros i; apply in_slots].
  intros i m off' x' m' Hi T Wm Q. exact (IH i m T off' x' m' Wm Q).
Qed.

Lemma at_slots_some rec del d t z tab : nwf (Node d t z tab) ->
  (forall i m off, i < 16 -> tab i = Child m -> off < length (elems m) -> exists x m', rec m off = Some (x, m') /\ (del = true -> nwf m')) ->
  forall is off, (forall i, In i is -> i < 16) -> at_slots rec del d t z tab is off <> None.
Proof.
  intros W R. pose proof (proj1 (nwf_iff _ _ _ _) W) as [_ Ws].
  induction is as [|i is IH]; intros off SL; [discriminate|].
  assert (IH' := fun off => IH off (fun i H => SL i (or_intror H))).
  assert (Hi : i < 16) by (apply SL; left; reflexivity). specialize (Ws i Hi).
  cbn [at_slots]. fold (at_slots rec del d t z tab).
  destruct (tab i) as [c|m] eqn:T.
  - destruct (Nat.leb_spec (length c) off); [apply IH'|].
    destruct (nth_error c off) eqn:N; [destruct del; discriminate|]. apply nth_error_None in N. lia.
  - apply slot_ok_child in Ws as (_ & _ & W3). rewrite (nwf_tot m W3).
    destruct (Nat.leb_spec (length (elems m)) off); [apply IH'|].
    destruct (R i m off Hi T H) as (x & m' & -> & W'). destruct del; [|discriminate].
    destruct (s_merge_some m' (W' eq_refl)) as (s & ->). discriminate.
Qed.
Lemma s_at_some del : forall n off, nwf n -> exists x n', s_at del n off = Some (x, n').
Proof.
  intros n. induction n as [d t z tab IH] using node_rec'. intros off W. rewrite s_at_eq.
  destruct (at_slots (s_at del) del d t z tab slots off) as [[x n']|] eqn:E; [eauto|].
  exfalso. revert E. apply at_slots_some; [exact W| |intros i; apply in_slots].
  intros i m off' Hi T L. apply nwf_iff in W as [_ W]. specialize (W i Hi). rewrite T in W. apply slot_ok_child in W as (_ & _ & W).
  destruct (IH i m T off' W) as (x & m' & Q). exists x, m'. split; [exact Q|]. intros D.
  pose proof (s_at_ok del m off' x m' W Q) as (G1 & _ & G3).
  destruct (nth_error (elems m) off') as [e|] eqn:N; [|apply nth_error_None in N; lia].
  apply (G3 D e G1).
Qed.

(* sampling *)
Lemma samp_chain_ok : forall l remain need rnd a rm nd rn, 1 <= need ->
  samp_chain l remain need rnd = Some (a, rm, nd, rn) -> length l <= remain -> need <= remain ->
  (exists R, Permutation l (a ++ R)) /\ nd = need - length a /\ length a <= need /\
  (nd <> 0 -> rm = remain - length l /\ nd <= rm).
Proof.
  induction l as [|e l IH]; intros remain need rnd a rm nd rn N; cbn [samp_chain].
  - intros H; injection H as <- <- <- <-. intros. cbn [length]. split; [exists []; reflexivity|]. repeat split; lia.
  - destruct remain as [|rem']; [discriminate|]. destruct (next rnd) as [[x rnd']|]; [|discriminate].
    destruct (Nat.ltb_spec (x mod S rem') need) as [L|L].
    + destruct (Nat.eqb_spec need 1) as [->|N1].
      * intros H; injection H as <- <- <- <-. intros. cbn [length]. split; [exists l; reflexivity|]. repeat split; lia.
      * destruct (samp_chain l rem' (pred need) rnd') as [[[[a' rm'] nd'] rn']|] eqn:E; [|discriminate].
        intros H; injection H as <- <- <- <-. cbn [length]. intros H1 H2.
        apply IH in E; [|lia|lia|lia]. destruct E as ((R & P) & E1 & E2 & E3).
        split; [exists R; cbn [app]; constructor; exact P|]. split; [lia|]. split; [lia|]. intros Q. specialize (E3 Q). lia.
    + intros H. cbn [length]. intros H1 H2.
      assert (x mod S rem' < S rem') by (apply Nat.mod_upper_bound; lia).
      apply IH in H; [|lia|lia|lia]. destruct H as ((R & P) & E1 & E2 & E3).
      split; [exists (e :: R); rewrite P; apply Permutation_middle|]. split; [lia|]. split; [lia|]. intros Q. specialize (E3 Q). lia.
Qed.

Definition samp_good (L : list elem) (remain need : nat) (a : list elem) : Prop :=
  (exists R, Permutation L (a ++ R)) /\ length a <= need /\ (length a < need -> need - length a <= remain - length L).

Lemma samp_slots_ok rec tab :
  (forall i m remain need rnd a rn, i < 16 -> tab i = Child m -> 1 <= need -> need <= remain -> length (elems m) <= remain ->
     rec m remain need rnd = Some (a, rn) -> samp_good (elems m) remain need a /\ ntot m = length (elems m)) ->
  forall is remain need rnd a rn, (forall i, In i is -> i < 16) -> 1 <= need -> need <= remain ->
  length (flat_map (fun i => slot_elems (tab i)) is) <= remain ->
  samp_slots rec tab is remain need rnd = Some (a, rn) ->
  samp_good (flat_map (fun i => slot_elems (tab i)) is) remain need a.
Proof.
  intros R. induction is as [|i is IH]; intros remain need rnd a rn SL N NR.
  - cbn. intros _ H; injection H as <- <-. split; [exists []; reflexivity|]. cbn. lia.
  - assert (IH' := fun remain need rnd a rn => IH remain need rnd a rn (fun i H => SL i (or_intror H))).
    assert (Hi : i < 16) by (apply SL; left; reflexivity).
    cbn [samp_slots flat_map]. fold (samp_slots rec tab). rewrite app_length.
    assert (COMB : forall L1 L2 a1 a2 rem', samp_good L1 remain need a1 -> rem' = remain - length L1 ->
      length L1 + length L2 <= remain ->
      samp_good L2 rem' (need - length a1) a2 -> samp_good (L1 ++ L2) remain need (a1 ++ a2)).
    { intros L1 L2 a1 a2 rem' ((R1 & P1) & A1 & B1) -> LL ((R2 & P2) & A2 & B2). unfold samp_good. rewrite !app_length.
      split; [|lia]. exists (R1 ++ R2). rewrite P1, P2. rewrite <- !app_assoc. apply Permutation_app_head.
      rewrite !app_assoc. apply Permutation_app_tail. apply Permutation_app_comm. }
    assert (STOP : forall L1 L2 a1, samp_good L1 remain need a1 -> need <= length a1 -> samp_good (L1 ++ L2) remain need a1).
    { intros L1 L2 a1 ((R1 & P1) & A1 & B1) LE. unfold samp_good. split; [|lia]. exists (R1 ++ L2). rewrite P1, app_assoc. reflexivity. }
    destruct (tab i) as [c|m] eqn:T; cbn [slot_elems] in *; intros LR.
    + destruct (samp_chain c remain need rnd) as [[[[a1 rm] nd] rnd']|] eqn:C; [|discriminate].
      apply samp_chain_ok in C; [|lia|lia|lia]. destruct C as (C1 & C2 & C3 & C4).
      assert (G : samp_good c remain need a1).
      { split; [exact C1|]. split; [exact C3|]. intros Q. destruct C4 as [-> C4]; lia. }
      destruct (Nat.eqb_spec nd 0).
      * intros H; injection H as <- <-. apply STOP; [exact G|lia].
      * destruct (samp_slots rec tab is rm nd rnd') as [[b rn']|] eqn:Q; [|discriminate]. intros H; injection H as <- <-.
        destruct (C4 n) as [-> C5]. apply IH' in Q; [|lia|lia|lia]. eapply COMB; [exact G|reflexivity|lia|].
        rewrite <- C2. exact Q.
    + destruct (rec m remain need rnd) as [[a1 rnd']|] eqn:C; [|discriminate].
      apply (R i m) in C; [|exact Hi|exact T|lia|lia|lia]. destruct C as (G & TT). rewrite TT.
      destruct (Nat.leb_spec need (length a1)).
      * intros H1; injection H1 as <- <-. apply STOP; [exact G|lia].
      * destruct (samp_slots rec tab is (remain - length (elems m)) (need - length a1) rnd') as [[b rn']|] eqn:Q; [|discriminate].
        intros H1; injection H1 as <- <-.
        assert (need - length a1 <= remain - length (elems m)) by (apply G; lia).
        apply IH' in Q; [|lia|lia|lia]. eapply COMB; [exact G|reflexivity|lia|exact Q].
Qed.
Lemma s_samp_ok : forall n remain need rnd a rn, nwf n -> 1 <= need -> need <= remain -> length (elems n) <= remain ->
  s_samp n remain need rnd = Some (a, rn) -> samp_good (elems n) remain need a.
Proof.
  intros n. induction n as [d t z tab IH] using node_rec'. intros remain need rnd a rn W N1 N2 N3 H. rewrite s_samp_eq in H.
  eapply samp_slots_ok in H; [exact H| |intros i; apply in_slots|exact N1|exact N2|exact N3].
  intros i m remain' need' rnd' a' rn' Hi T L1 L2 L3 Q. apply nwf_iff in W as [_ W]. specialize (W i Hi). rewrite T in W. apply slot_ok_child in W as (_ & _ & W).
  split; [|apply nwf_tot; exact W]. eapply IH; eassumption.
Qed.

Lemma next_some rnd : 1 <= length rnd -> exists x r, next rnd = Some (x, r) /\ length rnd = S (length r).
Proof. destruct rnd as [|x r]; cbn; [lia|]. exists x, r. auto. Qed.

Lemma samp_chain_some : forall l remain need rnd, length l <= remain -> length l <= length rnd ->
  exists a rm nd rn, samp_chain l remain need rnd = Some (a, rm, nd, rn) /\ length rnd <= length rn + length l.
Proof.
  induction l as [|e l IH]; intros remain need rnd H1 H2; cbn [samp_chain].
  - exists [], remain, need, rnd. cbn. split; [reflexivity|lia].
  - cbn [length] in *. destruct remain as [|rem']; [lia|]. destruct (next_some rnd ltac:(lia)) as (x & r & -> & E).
    destruct (Nat.ltb _ _).
    + destruct (Nat.eqb need 1).
      * exists [e], (S rem'), 0, r. split; [reflexivity|lia].
      * destruct (IH rem' (pred need) r ltac:(lia) ltac:(lia)) as (a & rm & nd & rn & -> & L).
        exists (e :: a), rm, nd, rn. split; [reflexivity|lia].
    + destruct (IH rem' need r ltac:(lia) ltac:(lia)) as (a & rm & nd & rn & -> & L).
      exists a, rm, nd, rn. split; [reflexivity|lia].
Qed.
