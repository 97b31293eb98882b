(* The hash tree of a map implements a finite map. *)
From Verif Require Import Base HtModel HtProofs MapModel MapSpec.
Set Default Proof Using "Type".

Definition own (s : slot) : nat := match s with Chain l => length l | Child _ => 0 end.
Definition kid (s : slot) : nat := match s with Chain _ => 0 | Child _ => 1 end.
Definition tsum (f : slot -> nat) (tab : nat -> slot) : nat := list_sum (map (fun i => f (tab i)) slots).

Fixpoint cwf (n : node) : Prop :=
  match n with Node _ t z tab =>
    t = tsum own tab /\ z = tsum kid tab /\
    forall i, i < 16 -> match tab i with Chain _ => True | Child m => elems m <> [] /\ cwf m end
  end.

Definition slot_ok (d i : nat) (s : slot) : Prop :=
  Forall (at_ d i) (slot_elems s) /\
  match s with Chain _ => True | Child m => ndep m = S d /\ pwf m /\ cwf m /\ elems m <> [] end.

Definition mwf (n : node) : Prop := pwf n /\ cwf n.

Lemma mwf_iff d t z tab :
  mwf (Node d t z tab) <-> t = tsum own tab /\ z = tsum kid tab /\ forall i, i < 16 -> slot_ok d i (tab i).
Proof.
  unfold mwf, slot_ok. cbn [pwf cwf]. split.
  - intros (P & C1 & C2 & D). split; [exact C1|]. split; [exact C2|]. intros i Hi. specialize (P i Hi). specialize (D i Hi).
    destruct (tab i); cbn [slot_elems]; tauto.
  - intros (C1 & C2 & D). split; [|split; [|split]]; [|exact C1|exact C2|]; intros i Hi; specialize (D i Hi); destruct (tab i); cbn [slot_elems] in D; tauto.
Qed.

Lemma tsum_upd f tab i s : i < 16 -> tsum f (upd tab i s) + f (tab i) = tsum f tab + f s.
Proof.
  intros Hi. unfold tsum. destruct (slots_split i Hi) as (a & b & E & Na & Nb). rewrite E.
  rewrite !map_app, !list_sum_app. cbn [map list_sum fold_right]. rewrite upd_same.
  assert (X : forall l, ~ In i l -> map (fun j => f (upd tab i s j)) l = map (fun j => f (tab j)) l).
  { intros l Hl. apply map_ext_in. intros j Hj. rewrite upd_other by congruence. reflexivity. }
  rewrite !X by assumption. unfold list_sum. lia.
Qed.
Lemma tsum_ge f tab i : i < 16 -> f (tab i) <= tsum f tab.
Proof.
  intros Hi. unfold tsum. destruct (slots_split i Hi) as (a & b & E & _). rewrite E.
  rewrite map_app, list_sum_app. cbn [map list_sum fold_right]. unfold list_sum. lia.
Qed.
Lemma tsum_0 f tab : (forall i, i < 16 -> f (tab i) = 0) -> tsum f tab = 0.
Proof.
  intros H. unfold tsum. assert (G : forall l, (forall i, In i l -> i < 16) -> list_sum (map (fun i => f (tab i)) l) = 0).
  { induction l as [|i l IH]; intros K; [reflexivity|]. cbn [map list_sum fold_right].
    rewrite H by (apply K; left; reflexivity). apply IH. intros; apply K; right; assumption. }
  apply G. intros i. apply in_slots.
Qed.

Lemma tsum_all tab : (forall i, i < 16 -> exists l, tab i = Chain l) -> tsum own tab = length (tab_elems tab).
Proof.
  intros H. unfold tsum, tab_elems.
  assert (G : forall l, (forall i, In i l -> i < 16) -> list_sum (map (fun i => own (tab i)) l) = length (flat_map (fun i => slot_elems (tab i)) l)).
  { induction l as [|i l IH]; intros K; [reflexivity|]. cbn [map flat_map]. rewrite app_length, <- IH by (intros; apply K; right; assumption).
    destruct (H i) as (c & E); [apply K; left; reflexivity|]. rewrite E. reflexivity. }
  apply G. intros i. apply in_slots.
Qed.

Lemma mwf_leaf d t tab : mwf (Node d t 0 tab) -> (forall i, i < 16 -> exists l, tab i = Chain l) /\ t = length (tab_elems tab).
Proof.
  intros W. apply mwf_iff in W as (Wt & Wz & _).
  assert (L : forall i, i < 16 -> exists l, tab i = Chain l).
  { intros i Hi. pose proof (tsum_ge kid tab i Hi) as G. destruct (tab i) as [l|]; [eauto|]. cbn [kid] in G. lia. }
  split; [exact L|]. rewrite Wt. apply tsum_all. exact L.
Qed.
Lemma mwf_empty n : mwf n -> elems n = [] <-> (nhsh n = 0 /\ ntot n = 0).
Proof.
  destruct n as [d t z tab]. cbn [nhsh ntot]. intros W. split.
  - intros E. pose proof (proj1 (mwf_iff _ _ _ _) W) as (Wt & Wz & Ws).
    assert (S0 : forall i, i < 16 -> slot_elems (tab i) = []).
    { intros i Hi. destruct (slot_elems (tab i)) as [|e l] eqn:Q; [reflexivity|]. exfalso.
      assert (I : In e (elems (Node d t z tab))) by (apply in_elems; exists i; rewrite Q; split; [exact Hi|left; reflexivity]).
      rewrite E in I. exact I. }
    split; [rewrite Wz|rewrite Wt]; apply tsum_0; intros i Hi; specialize (S0 i Hi); specialize (Ws i Hi);
      destruct (tab i) as [l|m]; cbn [slot_elems kid own] in *; try reflexivity.
    + destruct Ws as (_ & _ & _ & _ & Ws). contradiction.
    + rewrite S0. reflexivity.
  - intros [-> ->]. destruct (mwf_leaf d 0 tab W) as [_ L]. rewrite elems_eq. fold (tab_elems tab).
    destruct (tab_elems tab); [reflexivity|discriminate].
Qed.

Lemma slot_ok_child d i m : slot_ok d i (Child m) <-> Forall (at_ d i) (elems m) /\ ndep m = S d /\ mwf m /\ elems m <> [].
Proof. unfold slot_ok, mwf. cbn [slot_elems]. tauto. Qed.

Lemma mwf_upd d t z tab i s t' z' :
  mwf (Node d t z tab) -> i < 16 -> slot_ok d i s -> t' + own (tab i) = t + own s -> z' + kid (tab i) = z + kid s ->
  mwf (Node d t' z' (upd tab i s)).
Proof.
  rewrite !mwf_iff. intros (A1 & A2 & A) Hi S E1 E2.
  pose proof (tsum_upd own tab i s Hi). pose proof (tsum_upd kid tab i s Hi).
  split; [lia|]. split; [lia|]. intros j Hj.
  destruct (Nat.eq_dec j i) as [->|N]; [rewrite upd_same; exact S|rewrite upd_other by exact N; auto].
Qed.

(* node unlink *)
Lemma m_after_ok d t z tab i m0 m x n' : mwf (Node d t z tab) -> i < 16 -> tab i = Child m0 ->
  Forall (at_ d i) (elems m) -> ndep m = S d -> mwf m -> Permutation (elems m0) (x ++ elems m) ->
  m_after d t z tab i m = Some n' ->
  mwf n' /\ ndep n' = d /\ Permutation (tab_elems tab) (x ++ elems n') /\ forall j, j <> i -> ntab n' j = tab j.
Proof.
  intros W Hi T F D Wm P. unfold m_after.
  assert (Z1 : 1 <= z).
  { apply mwf_iff in W as (_ & -> & _). pose proof (tsum_ge kid tab i Hi) as G. rewrite T in G. exact G. }
  destruct (Nat.eqb_spec (nhsh m) 0) as [H0|H0]; cbn [andb].
  - destruct (Nat.ltb_spec (ntot m) 32) as [L|L].
    + destruct (gather slots (ntab m) []) as [l|] eqn:G; [|discriminate].
      destruct (Nat.eqb_spec (length l) (ntot m)) as [El|]; cbn [andb]; [|discriminate].
      destruct (cnt_ok _); [|discriminate]. intros H; injection H as <-.
      apply gather_ok in G. rewrite app_nil_r in G.
      destruct m as [d' tm h tabm]. cbn [ntab nhsh ntot ndep] in *.
      assert (Pl : Permutation l (elems (Node d' tm h tabm))) by exact G.
      assert (S : slot_ok d i (Chain l)).
      { split; [|exact I]. cbn [slot_elems]. eapply Forall_perm; [symmetry; exact Pl|exact F]. }
      split; [|split; [reflexivity|split]].
      * eapply mwf_upd; [exact W|exact Hi|exact S| |]; rewrite T; cbn [own kid]; lia.
      * apply (tab_sub tab i (Chain l) x Hi). rewrite T. cbn [slot_elems]. rewrite Pl. exact P.
      * intros j Hj. cbn [ntab]. apply upd_other. exact Hj.
    + intros H; injection H as <-.
      assert (NE : elems m <> []) by (intros Q; apply mwf_empty in Q; [lia|exact Wm]).
      split; [|split; [reflexivity|split]].
      * eapply mwf_upd; [exact W|exact Hi| | |]; [apply slot_ok_child; auto|rewrite T; reflexivity ..].
      * apply (tab_sub tab i (Child m) x Hi). rewrite T. exact P.
      * intros j Hj. cbn [ntab]. apply upd_other. exact Hj.
  - intros H; injection H as <-.
    assert (NE : elems m <> []) by (intros Q; apply mwf_empty in Q; [lia|exact Wm]).
    split; [|split; [reflexivity|split]].
    * eapply mwf_upd; [exact W|exact Hi| | |]; [apply slot_ok_child; auto|rewrite T; reflexivity ..].
    * apply (tab_sub tab i (Child m) x Hi). rewrite T. exact P.
    * intros j Hj. cbn [ntab]. apply upd_other. exact Hj.
Qed.
Lemma m_after_some d t z tab i m : mwf m -> (Z.of_nat t <= 60000)%Z -> exists n', m_after d t z tab i m = Some n'.
Proof.
  intros W B. unfold m_after. destruct (Nat.eqb_spec (nhsh m) 0) as [H0|H0]; cbn [andb]; [|eauto].
  destruct (Nat.ltb_spec (ntot m) 32); [|eauto]. destruct m as [d' tm h tabm]. cbn [nhsh ntot ntab] in *. subst h.
  destruct (mwf_leaf _ _ _ W) as [L E].
  destruct (gather_some tabm slots []) as (l & G); [intros j Hj; apply L; apply in_slots; exact Hj|].
  rewrite G. apply gather_ok in G. rewrite app_nil_r in G. apply Permutation_length in G. fold (tab_elems tabm) in G.
  rewrite G, <- E, Nat.eqb_refl. cbn [andb]. replace (cnt_ok (t + tm)) with true by (unfold cnt_ok; lia). eauto.
Qed.

Section H.
Variable hash : bytes -> Z.
Hypothesis hash_int : forall k, range (hash k).

Lemma key_in_slot d t h tab i k :
  mwf (Node d t h tab) -> hashed hash (elems (Node d t h tab)) -> hidx (hash k) d = Some i ->
  In k (map ek (elems (Node d t h tab))) -> In k (map ek (slot_elems (tab i))).
Proof.
  intros W H E Q. apply in_map_iff in Q as (e & Q & Qe). pose proof (hashed_in _ _ _ H Qe) as Q2.
  apply in_map_iff. exists e. split; [exact Q|]. eapply in_slot; [apply W|exact Qe|]. congruence.
Qed.
Lemma hashed_range l : hashed hash l -> forall e, In e l -> range (eh e).
Proof using hash_int. intros H e I. rewrite (hashed_in _ _ _ H I). apply hash_int. Qed.

Lemma find_key l e : hashed hash l -> eh e = hash (ek e) ->
  match find (same (eh e) (ek e)) l with
  | Some x => In x l /\ ek x = ek e
  | None => ~ In (ek e) (map ek l)
  end.
Proof.
  intros H He. destruct (find _ l) as [x|] eqn:F.
  - apply find_some in F as [F1 F2]. apply same_spec in F2. tauto.
  - intros Q. apply in_map_iff in Q as (x & Ex & Hx). apply (find_none _ _ F) in Hx as S.
    assert (same (eh e) (ek e) x = true); [|congruence]. apply same_spec. rewrite (hashed_in _ _ _ H Hx). split; congruence.
Qed.

Lemma chain_replace_ok e : forall l, (exists x, find (same (eh e) (ek e)) l = Some x) ->
  exists x a b, find (same (eh e) (ek e)) l = Some x /\ l = a ++ x :: b /\ chain_replace e l = a ++ e :: b /\ ek x = ek e /\ eh x = eh e.
Proof.
  induction l as [|y l IH]; cbn [find chain_replace]; [intros (x & Q); discriminate|].
  destruct (same (eh e) (ek e) y) eqn:S.
  - intros _. apply same_spec in S. exists y, [], l. cbn. tauto.
  - intros Q. destruct (IH Q) as (x & a & b & E1 & E2 & E3 & E4 & E5). exists x, (y :: a), b. cbn [app]. rewrite E3, <- E2. tauto.
Qed.

Lemma m_link_ok e rep room sticky mem : eh e = hash (ek e) -> forall n c n', mwf n -> hashed hash (elems n) ->
  m_link n e rep room sticky mem = Some (c, n') ->
  match c with
  | LNew => mwf n' /\ ndep n' = ndep n /\ ~ In (ek e) (map ek (elems n)) /\ Permutation (elems n') (e :: elems n) /\ room = true /\ sticky = false
  | LReplaced => mwf n' /\ ndep n' = ndep n /\ rep = true /\
      exists x R, ek x = ek e /\ Permutation (elems n) (x :: R) /\ Permutation (elems n') (e :: R) /\ (sticky = true -> length (ev e) <= length (ev x))
  | LErr EEXISTS => n' = n /\ In (ek e) (map ek (elems n)) /\ rep = false
  | LErr ENOMEM => n' = n /\ (mem = false \/ sticky = true)
  | LErr EOVERFLOW => n' = n /\ room = false /\ ~ In (ek e) (map ek (elems n))
  | LErr _ => False
  end.
Proof using hash_int.
  intros He n. induction n as [d t z tab IH] using node_rec'. intros c n' W HH. cbn [m_link].
  destruct (hidx (eh e) d) as [i|] eqn:E; [|discriminate].
  assert (Hi : i < 16) by (eapply hidx_lt; [|exact E]; rewrite He; apply hash_int).
  pose proof (hashed_slot hash _ _ _ _ _ HH Hi) as HS.
  assert (E' : hidx (hash (ek e)) d = Some i) by congruence.
  pose proof (key_in_slot _ _ _ _ _ (ek e) W HH E') as K1.
  pose proof (fun q => slot_in_key d t z tab i (ek e) Hi q) as K2.
  pose proof (proj1 (mwf_iff _ _ _ _) W) as (Wt & Wz & Ws). pose proof (Ws i Hi) as Wi.
  assert (build : forall s t' z', slot_ok d i s -> Permutation (slot_elems s) (e :: slot_elems (tab i)) ->
     ~ In (ek e) (map ek (slot_elems (tab i))) ->
     t' + own (tab i) = t + own s -> z' + kid (tab i) = z + kid s ->
     mwf (Node d t' z' (upd tab i s)) /\ ndep (Node d t' z' (upd tab i s)) = ndep (Node d t z tab) /\
     ~ In (ek e) (map ek (elems (Node d t z tab))) /\
     Permutation (elems (Node d t' z' (upd tab i s))) (e :: elems (Node d t z tab))).
  { intros s t' z' S P N E1 E2. pose proof (tab_add tab i s [e] Hi P) as Q. cbn [app] in Q.
    split; [|split; [reflexivity|split; [tauto|exact Q]]].
    eapply mwf_upd; eassumption. }
  assert (swap : forall s x R, slot_ok d i s -> Permutation (slot_elems (tab i)) (x :: R) -> Permutation (slot_elems s) (e :: R) ->
     own s = own (tab i) -> kid s = kid (tab i) ->
     mwf (Node d t z (upd tab i s)) /\
     exists R', Permutation (elems (Node d t z tab)) (x :: R') /\ Permutation (elems (Node d t z (upd tab i s))) (e :: R')).
  { intros s x R S P1 P2 E1 E2. split; [eapply mwf_upd; [exact W|exact Hi|exact S|lia|lia]|].
    exists (R ++ tab_elems (upd tab i (Chain []))).
    pose proof (tab_sub tab i (Chain []) (x :: R) Hi) as Q1. cbn [slot_elems] in Q1. rewrite app_nil_r in Q1. specialize (Q1 P1).
    split; [exact Q1|]. rewrite elems_eq. fold (tab_elems (upd tab i s)).
    pose proof (tab_sub (upd tab i s) i (Chain []) (e :: R) Hi) as Q2. rewrite upd_same in Q2. cbn [slot_elems] in Q2. rewrite app_nil_r in Q2.
    specialize (Q2 P2). rewrite Q2. cbn [app]. constructor. apply Permutation_app_head.
    assert (QE : tab_elems (upd (upd tab i s) i (Chain [])) = tab_elems (upd tab i (Chain []))).
    { unfold tab_elems. apply flat_map_ext_in. intros j _. unfold upd. destruct (Nat.eqb j i); reflexivity. }
    rewrite QE. reflexivity. }
  destruct (tab i) as [l|m] eqn:T; cbn [slot_elems own kid] in *.
  - pose proof (find_key l e HS He) as FK.
    destruct (find (same (eh e) (ek e)) l) as [x|] eqn:X.
    + destruct rep.
      * destruct (sticky && Nat.ltb (length (ev x)) (length (ev e))) eqn:ST; intros H; injection H as <- <-.
        { split; [reflexivity|]. apply andb_true_iff in ST. tauto. }
        destruct (chain_replace_ok e l) as (x' & a & b & F1 & F2 & F3 & F4 & F5); [eauto|]. rewrite F1 in X. injection X as ->.
        destruct (swap (Chain (chain_replace e l)) x (a ++ b)) as (S1 & R' & S2 & S3).
        { split; [|exact I]. cbn [slot_elems]. rewrite F3. destruct Wi as [Wi _]. cbn [slot_elems] in Wi. rewrite F2 in Wi.
          apply Forall_app in Wi as [Wa Wb]. apply Forall_app. split; [exact Wa|]. inversion Wb; subst. constructor; [exact E|assumption]. }
        { rewrite F2. symmetry. apply Permutation_middle. }
        { cbn [slot_elems]. rewrite F3. symmetry. apply Permutation_middle. }
        { cbn [own]. rewrite F3, F2, !app_length. reflexivity. }
        { reflexivity. }
        split; [exact S1|]. split; [reflexivity|]. split; [reflexivity|]. exists x, R'. split; [exact F4|]. split; [exact S2|]. split; [exact S3|].
        intros ->. cbn [andb] in ST. apply Nat.ltb_ge in ST. exact ST.
      * intros H; injection H as <- <-. split; [reflexivity|]. split; [|reflexivity]. apply K2. destruct FK as [F1 <-]. apply in_map. exact F1.
    + destruct sticky; [intros H; injection H as <- <-; auto|].
      destruct room; cbn [negb]; [|intros H; injection H as <- <-; split; [reflexivity|]; split; [reflexivity|]; intros Q; apply FK; apply K1; exact Q].
      destruct (Nat.leb 64 (length l)).
      * destruct mem; cbn [negb]; [|intros H; injection H as <- <-; auto].
        destruct (move (S d) l empty_tab) as [tab'|] eqn:M; [|discriminate].
        destruct (hidx (eh e) (S d)) as [j|] eqn:J; [|discriminate].
        assert (Hj : j < 16) by (eapply hidx_lt; [|exact J]; rewrite He; apply hash_int).
        destruct (tab' j) as [cj|] eqn:Tj; [|discriminate]. destruct (chain_ok _); [|discriminate].
        intros H; injection H as <- <-.
        destruct (empty_tab_ok (S d)) as (A1 & A2 & A3).
        apply move_ok in M; [|apply hashed_range; exact HS|exact A1|exact A2].
        destruct M as (M1 & M2 & M3). rewrite A3, app_nil_r in M3.
        assert (Q : Permutation (tab_elems (upd tab' j (Chain (e :: cj)))) (e :: l)).
        { rewrite (tab_add tab' j (Chain (e :: cj)) [e] Hj); [cbn [app]; constructor; exact M3|]. rewrite Tj. reflexivity. }
        assert (AC : forall x, x < 16 -> exists c, upd tab' j (Chain (e :: cj)) x = Chain c).
        { intros x _. unfold upd. destruct (Nat.eqb x j); [eauto|apply M1]. }
        assert (LT : length l <= t).
        { rewrite Wt. pose proof (tsum_ge own tab i Hi) as G. rewrite T in G. exact G. }
        assert (B : mwf (Node d (t - length l) (S z) (upd tab i (Child (Node (S d) (S (length l)) 0 (upd tab' j (Chain (e :: cj))))))) /\
          ndep (Node d (t - length l) (S z) (upd tab i (Child (Node (S d) (S (length l)) 0 (upd tab' j (Chain (e :: cj))))))) = ndep (Node d t z tab) /\
          ~ In (ek e) (map ek (elems (Node d t z tab))) /\
          Permutation (elems (Node d (t - length l) (S z) (upd tab i (Child (Node (S d) (S (length l)) 0 (upd tab' j (Chain (e :: cj)))))))) (e :: elems (Node d t z tab))).
        { apply build; [|exact Q|exact FK|cbn [own]; lia|cbn [kid]; lia].
          apply slot_ok_child. split; [|split; [reflexivity|split]].
          { cbn [elems]. eapply Forall_perm; [symmetry; exact Q|]. constructor; [exact E|]. apply Wi. }
          { apply mwf_iff. split; [|split].
            - rewrite (tsum_all _ AC), (Permutation_length Q). reflexivity.
            - symmetry. apply tsum_0. intros x Hx. destruct (AC x Hx) as (c & ->). reflexivity.
            - intros x Hx. destruct (Nat.eq_dec x j) as [->|Nx].
              { rewrite upd_same. split; [|exact I]. cbn [slot_elems]. constructor; [exact J|]. specialize (M2 j Hj). rewrite Tj in M2. exact M2. }
              { rewrite upd_other by exact Nx. destruct (M1 x) as (lx & Ex). specialize (M2 x Hx). rewrite Ex in *. split; [exact M2|exact I]. } }
          { intros Q0. assert (Q1 : tab_elems (upd tab' j (Chain (e :: cj))) = []) by exact Q0. rewrite Q1 in Q. apply Permutation_length in Q. discriminate. } }
        tauto.
      * destruct (chain_ok _ && cnt_ok _); [|discriminate]. intros H; injection H as <- <-.
        destruct (build (Chain (e :: l)) (S t) z) as (B1 & B2 & B3 & B4);
          [|reflexivity|exact FK|cbn [own length]; lia|reflexivity|tauto].
        split; [|exact I]. cbn [slot_elems]. constructor; [exact E|apply Wi].
  - destruct (m_link m e rep room sticky mem) as [[cm m']|] eqn:L; [|discriminate].
    apply slot_ok_child in Wi as (W1 & W2 & W3 & W4).
    specialize (IH i m T cm m' W3 HS L).
    destruct cm as [| |[]]; intros H; injection H as <- <-; try (destruct IH; fail).
    + destruct IH as (I1 & I2 & I3 & I4 & I5).
      destruct (build (Child m') t z) as (B1 & B2 & B3 & B4); [|exact I4|exact I3|reflexivity|reflexivity|tauto].
      apply slot_ok_child. split; [|split; [congruence|split; [exact I1|]]].
      * eapply Forall_perm; [symmetry; exact I4|]. constructor; [exact E|exact W1].
      * intros Q. rewrite Q in I4. apply Permutation_length in I4. discriminate.
    + destruct IH as (I1 & I2 & I3 & x & R & I4 & I5 & I6 & I7).
      destruct (swap (Child m') x R) as (S1 & R' & S2 & S3); [|exact I5|exact I6|reflexivity|reflexivity|].
      { apply slot_ok_child. split; [|split; [congruence|split; [exact I1|]]].
        * eapply Forall_perm; [symmetry; exact I6|]. pose proof (Forall_perm _ _ _ I5 W1) as F. inversion F; subst. constructor; [exact E|assumption].
        * intros Q. rewrite Q in I6. apply Permutation_length in I6. discriminate. }
      split; [exact S1|]. split; [reflexivity|]. split; [exact I3|]. exists x, R'. tauto.
    + split; [reflexivity|]. split; [apply K2; apply IH|apply IH].
    + split; [reflexivity|]. tauto.
    + split; [reflexivity|]. split; [apply IH|]. intros Q. apply IH. apply K1. exact Q.
Qed.

Lemma m_byfield_ok del k : forall n x n', mwf n -> hashed hash (elems n) ->
  m_byfield del n (hash k) k = Some (x, n') ->
  match x with
  | None => n' = n /\ ~ In k (map ek (elems n))
  | Some e => ek e = k /\ In e (elems n) /\ (del = false -> n' = n) /\
      (del = true -> mwf n' /\ ndep n' = ndep n /\ Permutation (elems n) (e :: elems n'))
  end.
Proof using hash_int.
  intros n. induction n as [d t z tab IH] using node_rec'. intros x n' W HH. cbn [m_byfield].
  destruct (hidx (hash k) d) as [i|] eqn:E; [|discriminate].
  assert (Hi : i < 16) by (eapply hidx_lt; [apply hash_int|exact E]).
  pose proof (hashed_slot hash _ _ _ _ _ HH Hi) as HS.
  pose proof (key_in_slot _ _ _ _ _ k W HH E) as K1.
  pose proof (proj1 (mwf_iff _ _ _ _) W) as (Wt & Wz & Ws). pose proof (Ws i Hi) as Wi.
  assert (IE : forall e, In e (slot_elems (tab i)) -> In e (elems (Node d t z tab))) by (intros e He; apply in_elems; eauto).
  destruct (tab i) as [l|m] eqn:T; cbn [slot_elems] in *.
  - pose proof (chain_del_ok (hash k) k l) as X. destruct (chain_del (hash k) k l) as [[e r]|].
    + destruct X as (S & a & b & -> & -> & F). apply same_spec in S.
      assert (Ie : In e (elems (Node d t z tab))) by (apply IE; apply in_app_iff; right; left; reflexivity).
      destruct del; intros H; injection H as <- <-; (split; [apply S|]; split; [exact Ie|]; split; [try reflexivity; discriminate|]); [|discriminate].
      intros _. split; [|split; [reflexivity|]].
      * eapply mwf_upd; [exact W|exact Hi| | |rewrite T; reflexivity].
        { split; [|exact I]. cbn [slot_elems]. destruct Wi as [Wi _]. cbn [slot_elems] in Wi.
          apply Forall_app in Wi as [Wa Wb]. apply Forall_app. inversion Wb; subst. tauto. }
        { pose proof (tsum_ge own tab i Hi) as G. rewrite T in G |- *. cbn [own] in *. rewrite !app_length in *. cbn [length] in *. lia. }
      * apply (tab_sub tab i (Chain (a ++ b)) [e] Hi). rewrite T. cbn [slot_elems app]. symmetry. apply Permutation_middle.
    + intros H; injection H as <- <-. split; [reflexivity|]. intros Q. apply K1 in Q.
      apply in_map_iff in Q as (e & Q & Qe). rewrite Forall_forall in X. specialize (X e Qe).
      assert (same (hash k) k e = true); [|congruence]. apply same_spec. rewrite (hashed_in _ _ _ HS Qe). split; congruence.
  - destruct (m_byfield del m (hash k) k) as [[y m']|] eqn:L; [|discriminate].
    apply slot_ok_child in Wi as (W1 & W2 & W3 & W4).
    specialize (IH i m T y m' W3 HS L). destruct y as [e|].
    + destruct IH as (I1 & I2 & I3 & I4). destruct del.
      * destruct (m_after d t z tab i m') as [n1|] eqn:M; [|discriminate]. intros H; injection H as <- <-.
        destruct (I4 eq_refl) as (I5 & I6 & I7). split; [exact I1|]. split; [auto|]. split; [discriminate|]. intros _.
        pose proof (Forall_perm _ _ _ I7 W1) as Q. inversion Q; subst.
        eapply (m_after_ok d _ _ tab i m m' [e]) in M; [|exact W|exact Hi|exact T|assumption|congruence|exact I5|exact I7].
        destruct M as (M1 & M2 & M3 & _). split; [exact M1|]. split; [exact M2|exact M3].
      * intros H; injection H as <- <-. split; [exact I1|]. split; [auto|]. split; [reflexivity|discriminate].
    + intros H; injection H as <- <-. split; [reflexivity|]. intros Q. apply IH. apply K1. exact Q.
Qed.

Lemma m_put_ok e : eh e = hash (ek e) -> forall n n', mwf n -> hashed hash (elems n) -> In (ek e) (map ek (elems n)) ->
  NoDup (map ek (elems n)) ->
  m_put n e = Some n' ->
  mwf n' /\ ndep n' = ndep n /\ forall x, In x (elems n) -> ek x = ek e -> exists R, Permutation (elems n) (x :: R) /\ Permutation (elems n') (e :: R).
Proof using hash_int.
  intros He n. induction n as [d t z tab IH] using node_rec'. intros n' W HH IK ND. cbn [m_put].
  destruct (hidx (eh e) d) as [i|] eqn:E; [|discriminate].
  assert (Hi : i < 16) by (eapply hidx_lt; [|exact E]; rewrite He; apply hash_int).
  pose proof (hashed_slot hash _ _ _ _ _ HH Hi) as HS.
  assert (E' : hidx (hash (ek e)) d = Some i) by congruence.
  pose proof (key_in_slot _ _ _ _ _ (ek e) W HH E' IK) as K1.
  pose proof (proj1 (mwf_iff _ _ _ _) W) as (Wt & Wz & Ws). pose proof (Ws i Hi) as Wi.
  assert (IS : forall x, In x (elems (Node d t z tab)) -> ek x = ek e -> In x (slot_elems (tab i))).
  { intros x Hx Ex. eapply in_slot; [apply W|exact Hx|]. rewrite (hashed_in _ _ _ HH Hx). congruence. }
  assert (NS : NoDup (map ek (slot_elems (tab i)))).
  { destruct (elems_split tab i Hi) as (pre & post & E1 & _). rewrite elems_eq, E1 in ND. rewrite !map_app in ND.
    apply NoDup_app_r in ND. clear - ND. revert ND. generalize (map ek (slot_elems (tab i))) as a. induction a as [|x a IHa]; [constructor|].
    cbn [app]. intros H. apply NoDup_cons_iff in H as [H1 H2]. constructor; [|auto]. intros Q. apply H1. apply in_app_iff. auto. }
  assert (swap : forall s, slot_ok d i s -> own s = own (tab i) -> kid s = kid (tab i) ->
     (forall x, In x (slot_elems (tab i)) -> ek x = ek e -> exists R, Permutation (slot_elems (tab i)) (x :: R) /\ Permutation (slot_elems s) (e :: R)) ->
     mwf (Node d t z (upd tab i s)) /\ ndep (Node d t z (upd tab i s)) = ndep (Node d t z tab) /\
     forall x, In x (elems (Node d t z tab)) -> ek x = ek e ->
     exists R', Permutation (elems (Node d t z tab)) (x :: R') /\ Permutation (elems (Node d t z (upd tab i s))) (e :: R')).
  { intros s S E1 E2 P. split; [eapply mwf_upd; [exact W|exact Hi|exact S|lia|lia]|]. split; [reflexivity|].
    intros x Hx Ex. destruct (P x (IS x Hx Ex) Ex) as (R & P1 & P2).
    exists (R ++ tab_elems (upd tab i (Chain []))).
    pose proof (tab_sub tab i (Chain []) (x :: R) Hi) as Q1. cbn [slot_elems] in Q1. rewrite app_nil_r in Q1. specialize (Q1 P1).
    split; [exact Q1|]. rewrite elems_eq. fold (tab_elems (upd tab i s)).
    pose proof (tab_sub (upd tab i s) i (Chain []) (e :: R) Hi) as Q2. rewrite upd_same in Q2. cbn [slot_elems] in Q2. rewrite app_nil_r in Q2.
    specialize (Q2 P2). rewrite Q2. cbn [app]. constructor. apply Permutation_app_head.
    assert (QE : tab_elems (upd (upd tab i s) i (Chain [])) = tab_elems (upd tab i (Chain []))).
    { unfold tab_elems. apply flat_map_ext_in. intros j _. unfold upd. destruct (Nat.eqb j i); reflexivity. }
    rewrite QE. reflexivity. }
  destruct (tab i) as [l|m] eqn:T; cbn [slot_elems own kid] in *.
  - intros H; injection H as <-.
    pose proof (find_key l e HS He) as FK.
    destruct (find (same (eh e) (ek e)) l) as [x|] eqn:X; [|contradiction].
    destruct (chain_replace_ok e l) as (x' & a & b & F1 & F2 & F3 & F4 & F5); [eauto|]. rewrite F1 in X. injection X as ->.
    apply swap; [| |reflexivity|].
    { split; [|exact I]. cbn [slot_elems]. rewrite F3. destruct Wi as [Wi _]. cbn [slot_elems] in Wi. rewrite F2 in Wi.
      apply Forall_app in Wi as [Wa Wb]. apply Forall_app. split; [exact Wa|]. inversion Wb; subst. constructor; [exact E|assumption]. }
    { cbn [own]. rewrite F3, F2, !app_length. reflexivity. }
    { intros y Hy Ey. assert (y = x).
      { rewrite F2 in Hy, NS. rewrite map_app in NS. cbn [map] in NS. apply NoDup_remove_2 in NS. rewrite <- map_app in NS.
        rewrite in_app_iff in Hy. cbn [In] in Hy. destruct Hy as [Hy|[Hy|Hy]]; [|auto|]; exfalso; apply NS; rewrite F4, <- Ey; apply in_map, in_app_iff; auto. }
      subst y. exists (a ++ b). split; [rewrite F2; symmetry; apply Permutation_middle|]. cbn [slot_elems]. rewrite F3. symmetry. apply Permutation_middle. }
  - destruct (m_put m e) as [m'|] eqn:M; [|discriminate]. intros H; injection H as <-.
    apply slot_ok_child in Wi as (W1 & W2 & W3 & W4).
    destruct (IH i m T m' W3 HS K1 NS M) as (I1 & I2 & I3).
    apply swap; [|reflexivity|reflexivity|exact I3].
    apply in_map_iff in K1 as (x & Ex & Hx). destruct (I3 x Hx Ex) as (R & P1 & P2).
    apply slot_ok_child. split; [|split; [congruence|split; [exact I1|]]].
    * eapply Forall_perm; [symmetry; exact P2|]. pose proof (Forall_perm _ _ _ P1 W1) as F. inversion F; subst. constructor; [exact E|assumption].
    * intros Q. rewrite Q in P2. apply Permutation_length in P2. discriminate.
Qed.
End H.

(* ---- traversal ---- *)
Definition dfs_good (del : bool) (m : node) (c : nat) (l : list elem) (m' : node) : Prop :=
  l = wantn c (elems m) /\ (del = false -> m' = m) /\
  (del = true -> mwf m -> mwf m' /\ ndep m' = ndep m /\ Permutation (elems m) (l ++ elems m')).

Lemma m_dfs_slots_ok rec del count d tab0 :
  (forall i m c l m', tab0 i = Child m -> rec m c = Some (l, m') -> dfs_good del m c l m') ->
  forall is t z tab acc l n',
  count = 0 \/ length acc < count ->
  (del = true -> mwf (Node d t z tab)) ->
  (forall i, In i is -> tab i = tab0 i) -> NoDup is -> (forall i, In i is -> i < 16) ->
  m_dfs_slots rec del count d tab0 is t z tab acc = Some (l, n') ->
  exists dl, l = acc ++ dl /\
  dl = wantn (rest count (length acc)) (flat_map (fun i => slot_elems (tab0 i)) is) /\
  (del = false -> n' = Node d t z tab) /\
  (del = true -> mwf n' /\ ndep n' = d /\ Permutation (tab_elems tab) (dl ++ elems n')).
Proof.
  intros R. induction is as [|i is IH]; intros t z tab acc l n' C WD S ND SL.
  - cbn. intros H; injection H as <- <-. exists []. rewrite app_nil_r. split; [reflexivity|].
    split; [unfold wantn; destruct (Nat.eqb _ 0); [reflexivity|rewrite firstn_nil; reflexivity]|].
    split; [reflexivity|]. intros D. split; [exact (WD D)|]. split; [reflexivity|]. reflexivity.
  - apply NoDup_cons_iff in ND as [ND1 ND2]. assert (Hi : i < 16) by (apply SL; left; reflexivity).
    pose proof (S i (or_introl eq_refl)) as Si.
    assert (STEP : forall a t1 z1 tab1 l n',
      a = wantn (rest count (length acc)) (slot_elems (tab0 i)) ->
      (forall j, In j is -> tab1 j = tab0 j) ->
      (del = false -> t1 = t /\ z1 = z /\ tab1 = tab) ->
      (del = true -> mwf (Node d t1 z1 tab1) /\ Permutation (tab_elems tab) (a ++ tab_elems tab1)) ->
      (if full count (length (acc ++ a)) then Some (acc ++ a, Node d t1 z1 tab1)
       else m_dfs_slots rec del count d tab0 is t1 z1 tab1 (acc ++ a)) = Some (l, n') ->
      exists dl, l = acc ++ dl /\
      dl = wantn (rest count (length acc)) (slot_elems (tab0 i) ++ flat_map (fun i => slot_elems (tab0 i)) is) /\
      (del = false -> n' = Node d t z tab) /\
      (del = true -> mwf n' /\ ndep n' = d /\ Permutation (tab_elems tab) (dl ++ elems n'))).
    { clear l n'. intros a t1 z1 tab1 l n' Ea S1 D0 D1. rewrite app_length. destruct (full count (length acc + length a)) eqn:F.
      - intros H; injection H as <- <-. exists a. split; [reflexivity|]. rewrite wantn_app; [|exact C|rewrite <- Ea; exact F].
        split; [exact Ea|]. split; [intros Q; destruct (D0 Q) as (-> & -> & ->); reflexivity|].
        intros Q. destruct (D1 Q) as [W1 P1]. split; [exact W1|]. split; [reflexivity|exact P1].
      - intros H. rewrite Ea in F. destruct (wantn_app2 count (length acc) (slot_elems (tab0 i)) (flat_map (fun i => slot_elems (tab0 i)) is) C F) as (U1 & U2 & U3).
        rewrite U1 in Ea. subst a.
        apply IH in H; [|rewrite app_length; exact U2|intros Q; apply (D1 Q)|exact S1|exact ND2|intros; apply SL; right; assumption].
        destruct H as (dl & -> & Edl & H1 & H2). exists (slot_elems (tab0 i) ++ dl). rewrite <- app_assoc. split; [reflexivity|].
        rewrite app_length in Edl. split; [rewrite U3, Edl; reflexivity|].
        split; [intros Q; destruct (D0 Q) as (-> & -> & ->); auto|].
        intros Q. destruct (D1 Q) as [W1 P1]. destruct (H2 Q) as (X1 & X2 & X3).
        split; [exact X1|]. split; [exact X2|]. rewrite P1, X3, <- app_assoc. reflexivity. }
    cbn [m_dfs_slots flat_map]. fold (m_dfs_slots rec del count d tab0).
    destruct (tab0 i) as [c|m] eqn:T0; cbn [slot_elems] in STEP |- *.
    + pose proof (take_chain_want count c (length acc) C) as TW. pose proof (take_chain_app count c (length acc)) as TA.
      destruct (take_chain count (length acc) c) as [a b]. cbn [fst snd] in *.
      destruct del.
      * apply STEP; [exact TW| |discriminate|].
        { intros j Hj. rewrite upd_other by congruence. apply S; right; exact Hj. }
        intros _. specialize (WD eq_refl). assert (Q : Permutation (tab_elems tab) (a ++ tab_elems (upd tab i (Chain b)))).
        { apply tab_sub; [exact Hi|]. rewrite Si. cbn [slot_elems]. rewrite TA. reflexivity. }
        split; [|exact Q]. pose proof (proj1 (mwf_iff _ _ _ _) WD) as (Wt & Wz & Ws).
        eapply mwf_upd; [exact WD|exact Hi| | |rewrite Si; reflexivity].
        { specialize (Ws i Hi). rewrite Si in Ws. split; [|exact I]. destruct Ws as [Ws _]. cbn [slot_elems] in *.
          rewrite <- TA in Ws. apply Forall_app in Ws. tauto. }
        { pose proof (tsum_ge own tab i Hi) as G. rewrite Si in G |- *. cbn [own] in *. apply (f_equal (@length _)) in TA. rewrite app_length in TA. lia. }
      * apply STEP; [exact TW| |auto|discriminate]. intros j Hj. apply S; right; exact Hj.
    + destruct (rec m (rest count (length acc))) as [[a m']|] eqn:RM; [|discriminate].
      destruct (R _ _ _ _ _ T0 RM) as (R1 & R2 & R3).
      destruct del.
      * specialize (WD eq_refl). pose proof (proj1 (mwf_iff _ _ _ _) WD) as (Wt & Wz & Ws). specialize (Ws i Hi). rewrite Si in Ws.
        apply slot_ok_child in Ws as (W1 & W2 & W3 & W4). destruct (R3 eq_refl W3) as (R4 & R5 & R6).
        destruct (m_after d t z tab i m') as [[d1 t1 z1 tab1]|] eqn:M; [|discriminate].
        pose proof (Forall_perm _ _ _ R6 W1) as Q. apply Forall_app in Q as [_ Q].
        eapply (m_after_ok d _ _ tab i m m' a) in M; [|exact WD|exact Hi|exact Si|exact Q|congruence|exact R4|exact R6].
        destruct M as (M1 & M2 & M3 & M4). cbn [ndep ntab] in *. subst d1.
        apply STEP; [exact R1| |discriminate|].
        { intros j Hj. rewrite M4 by congruence. apply S; right; exact Hj. }
        intros _. split; [exact M1|exact M3].
      * apply STEP; [exact R1| |auto|discriminate]. intros j Hj. apply S; right; exact Hj.
Qed.

Lemma m_dfs_eq del d t z tab count :
  m_dfs del (Node d t z tab) count = m_dfs_slots (m_dfs del) del count d tab slots t z tab [].
Proof. reflexivity. Qed.

(* the two halves of dfs_good with and without deletion *)
Lemma m_dfs_ok del : forall n count l n', (del = true -> mwf n) -> m_dfs del n count = Some (l, n') -> dfs_good del n count l n'.
Proof.
  intros n. induction n as [d t z tab IH] using node_rec'. intros count l n' W H. rewrite m_dfs_eq in H.
  assert (G : forall i m c l m', i < 16 -> tab i = Child m -> m_dfs del m c = Some (l, m') -> dfs_good del m c l m').
  { intros i m c l' m' Hi T Q. refine (IH i m T c l' m' _ Q). intros D.
    pose proof (proj1 (mwf_iff _ _ _ _) (W D)) as (_ & _ & Ws). specialize (Ws i Hi). rewrite T in Ws. apply slot_ok_child in Ws. tauto. }
  (* only slots below 16 are visited *)
  set (rec := fun m c => m_dfs del m c) in *.
  assert (H2 : m_dfs_slots rec del count d tab slots t z tab [] = Some (l, n')) by exact H. clear H.
  revert H2.
  assert (V : forall is, (forall i, In i is -> i < 16) -> forall t z tb acc,
     m_dfs_slots rec del count d tab is t z tb acc = m_dfs_slots rec del count d (fun i => if Nat.ltb i 16 then tab i else Chain []) is t z tb acc).
  { induction is as [|i is IHi]; intros K t1 z1 tb acc; [reflexivity|]. cbn [m_dfs_slots].
    fold (m_dfs_slots rec del count d tab). fold (m_dfs_slots rec del count d (fun i => if Nat.ltb i 16 then tab i else Chain [])).
    assert (Hi : i < 16) by (apply K; left; reflexivity). apply Nat.ltb_lt in Hi. rewrite Hi.
    assert (IHi' := IHi (fun j Hj => K j (or_intror Hj))).
    destruct (tab i) as [c|m].
    - destruct (take_chain _ _ _) as [a b]. destruct del; destruct (full _ _); try reflexivity; apply IHi'.
    - destruct (rec m _) as [[a m']|]; [|reflexivity]. destruct del.
      + destruct (m_after _ _ _ _ _ _) as [[]|]; [|reflexivity]. destruct (full _ _); [reflexivity|apply IHi'].
      + destruct (full _ _); [reflexivity|apply IHi']. }
  rewrite V by (intros i; apply in_slots). intros H2.
  apply m_dfs_slots_ok in H2; [| |cbn; lia|exact W| |apply seq_NoDup|intros i; apply in_slots].
  - destruct H2 as (dl & -> & E & H3 & H4). cbn [app length] in *.
    rewrite rest_0 in E. split.
    + rewrite E, elems_eq. reflexivity.
    + split; [exact H3|]. intros D _. exact (H4 D).
  - intros i m c l' m' T Q. destruct (Nat.ltb_spec i 16); [|discriminate]. eapply G; eassumption.
  - intros i Hi. apply in_slots in Hi. apply Nat.ltb_lt in Hi. rewrite Hi. reflexivity.
Qed.
