(* Every operation of the map model is a step of the specification. *)
From Verif Require Import Base HtModel HtProofs MapModel MapSpec MapProofs.
Set Default Proof Using "Type".

(* ---- looking up fields in the abstract map ---- *)
Lemma filter_none f (A : list (bytes * bytes)) : ~ In f (keys A) -> filter (fun p => beqb f (fst p)) A = [] /\ filter (fun p => negb (beqb f (fst p))) A = A.
Proof.
  induction A as [|p A IH]; intros N; [split; reflexivity|]. cbn [keys map In] in N. cbn [filter].
  destruct (beqb f (fst p)) eqn:E; [apply beqb_eq in E; exfalso; apply N; left; congruence|]. cbn [negb].
  destruct IH as [I1 I2]; [intros Q; apply N; right; exact Q|]. rewrite I1, I2. split; reflexivity.
Qed.
Lemma filter_one (A : list (bytes * bytes)) p R : NoDup (keys A) -> Permutation A (p :: R) ->
  filter (fun q => beqb (fst p) (fst q)) A = [p] /\ Permutation (filter (fun q => negb (beqb (fst p) (fst q))) A) R.
Proof.
  intros N P. assert (I : In p A) by (eapply Permutation_in; [symmetry; exact P|left; reflexivity]).
  apply in_split in I as (a & b & ->). unfold keys in N. rewrite map_app in N. cbn [map] in N. apply NoDup_remove_2 in N.
  rewrite <- map_app in N. rewrite !filter_app. cbn [filter].
  assert (beqb (fst p) (fst p) = true) as -> by (apply beqb_eq; reflexivity). cbn [negb].
  assert (Na : ~ In (fst p) (keys a)) by (intros Q; apply N; rewrite map_app; apply in_app_iff; left; exact Q).
  assert (Nb : ~ In (fst p) (keys b)) by (intros Q; apply N; rewrite map_app; apply in_app_iff; right; exact Q).
  destruct (filter_none _ _ Na) as [-> ->]. destruct (filter_none _ _ Nb) as [-> ->]. split; [reflexivity|].
  apply Permutation_cons_inv with (a := p). rewrite <- P. apply Permutation_middle.
Qed.

Lemma filter_split (g : bytes * bytes -> bool) A : Permutation A (filter g A ++ filter (fun p => negb (g p)) A).
Proof.
  induction A as [|p A IH]; [constructor|]. cbn [filter]. destruct (g p); cbn [negb app].
  - constructor. exact IH.
  - rewrite IH at 1. apply Permutation_middle.
Qed.

Lemma picks_true : forall fl A, Permutation A (fst (picks true A fl) ++ snd (picks true A fl)) /\
  (forall p, In p (fst (picks true A fl)) -> In (fst p) fl) /\
  (forall p, In p (snd (picks true A fl)) -> ~ In (fst p) fl).
Proof.
  induction fl as [|f fl IH]; intros A; cbn [picks]; [cbn; split; [reflexivity|split; [intros p []|auto]]|].
  specialize (IH (filter (fun p => negb (beqb f (fst p))) A)).
  destruct (picks true (filter (fun p => negb (beqb f (fst p))) A) fl) as [l A2]. cbn [fst snd] in *.
  destruct IH as (P & I1 & I2). split; [|split].
  - rewrite <- app_assoc, <- P. apply filter_split.
  - intros p Hp. apply in_app_iff in Hp as [Hp|Hp]; [|right; auto]. apply filter_In in Hp as [_ Hp]. apply beqb_eq in Hp. left; exact Hp.
  - intros p Hp [Q|Q]; [|exact (I2 p Hp Q)].
    assert (In p (filter (fun p => negb (beqb f (fst p))) A)) as K by (eapply Permutation_in; [symmetry; exact P|apply in_app_iff; right; exact Hp]).
    apply filter_In in K as [_ K]. assert (beqb f (fst p) = true) as E by (apply beqb_eq; exact Q). rewrite E in K. discriminate.
Qed.
Lemma picks_false : forall fl A, snd (picks false A fl) = A /\
  (forall p, In p (fst (picks false A fl)) <-> In p A /\ In (fst p) fl).
Proof.
  induction fl as [|f fl IH]; intros A; cbn [picks]; [cbn; split; [reflexivity|intros p; tauto]|].
  specialize (IH A). destruct (picks false A fl) as [l A2]. cbn [fst snd] in *. destruct IH as [-> I2]. split; [reflexivity|].
  intros p. rewrite in_app_iff, filter_In, I2, beqb_eq. cbn [In]. tauto.
Qed.
Lemma picks_none del fl A : fst (picks del A fl) = [] -> forall p, In p A -> ~ In (fst p) fl.
Proof.
  intros E p Hp Q. destruct del.
  - destruct (picks_true fl A) as (P & _ & N). rewrite E in P. cbn [app] in P. apply (N p); [|exact Q]. eapply Permutation_in; eassumption.
  - destruct (picks_false fl A) as (_ & I). assert (In p (fst (picks false A fl))) as K by (apply I; tauto). rewrite E in K. exact K.
Qed.

Section H.
Variable hash : bytes -> Z.

Definition Inv (s : map_info) (A : list (bytes * bytes)) : Prop :=
  NoDup (keys A) /\ ccnt s = length A /\
  match root s with
  | None => A = []
  | Some n => mwf n /\ hashed hash (elems n) /\ Permutation (map pair_of (elems n)) A /\ A <> []
  end.

Lemma keys_pairs l : keys (map pair_of l) = map ek l.
Proof. unfold keys. rewrite map_map. reflexivity. Qed.
Lemma keys_perm A B : Permutation A B -> Permutation (keys A) (keys B).
Proof. apply Permutation_map. Qed.

Lemma inv_len s n A : Inv s A -> root s = Some n -> length (elems n) = length A /\ 1 <= length A.
Proof.
  intros (_ & _ & I) E. rewrite E in I. destruct I as (_ & _ & P & N).
  apply Permutation_length in P. rewrite map_length in P. split; [exact P|]. destruct A; [congruence|cbn; lia].
Qed.
Lemma inv_nodup s n A : Inv s A -> root s = Some n -> NoDup (map ek (elems n)).
Proof.
  intros (N & _ & I) E. rewrite E in I. destruct I as (_ & _ & P & _).
  rewrite <- keys_pairs. eapply Permutation_NoDup; [symmetry; apply keys_perm; exact P|exact N].
Qed.
Lemma inv_key s n A f : Inv s A -> root s = Some n -> In f (map ek (elems n)) <-> In f (keys A).
Proof.
  intros (_ & _ & I) E. rewrite E in I. destruct I as (_ & _ & P & _). rewrite <- keys_pairs.
  apply keys_perm in P. split; apply Permutation_in; [exact P|symmetry; exact P].
Qed.

Lemma drop_root_ok n : mwf n -> drop_root n = match elems n with [] => None | _ => Some n end.
Proof.
  intros W. pose proof (mwf_empty n W) as E. unfold drop_root.
  destruct (elems n) as [|e l].
  - destruct (proj1 E eq_refl) as [-> ->]. reflexivity.
  - destruct (Nat.eqb_spec (nhsh n) 0); [|reflexivity]. destruct (Nat.eqb_spec (ntot n) 0); [|reflexivity].
    exfalso. assert (e :: l = []) by (apply E; auto). discriminate.
Qed.

Lemma empty_root : mwf (Node 0 0 0 empty_tab) /\ elems (Node 0 0 0 empty_tab) = [].
Proof.
  split; [|reflexivity]. apply mwf_iff. split; [reflexivity|]. split; [reflexivity|]. intros i Hi. split; [constructor|exact I].
Qed.

(* after removing the elements l *)
Lemma inv_removed s n n' l A : Inv s A -> root s = Some n -> mwf n' -> Permutation (elems n) (l ++ elems n') ->
  Permutation A (map pair_of l ++ map pair_of (elems n')) /\
  Inv (mkMap (drop_root n') (ccnt s - length l) (maxc s)) (map pair_of (elems n')) /\
  root_gone (ccnt s - length l) (drop_root n') = true.
Proof.
  intros (N & C & I) E W P. rewrite E in I. destruct I as (_ & H & PA & _).
  assert (PA' : Permutation A (map pair_of l ++ map pair_of (elems n'))).
  { rewrite <- PA, <- map_app. apply Permutation_map. exact P. }
  split; [exact PA'|].
  assert (HH : hashed hash (elems n')).
  { apply (hashed_perm hash _ _ P) in H. apply Forall_app in H. apply H. }
  assert (ND : NoDup (keys (map pair_of (elems n')))).
  { apply keys_perm in PA'. apply (Permutation_NoDup PA') in N. unfold keys in N. rewrite map_app in N. apply NoDup_app_r in N. exact N. }
  pose proof (Permutation_length PA') as L. rewrite app_length, !map_length in L.
  rewrite (drop_root_ok n' W). split.
  - split; [exact ND|]. split; [cbn [ccnt]; rewrite map_length; lia|]. cbn [root].
    destruct (elems n') as [|e r] eqn:En; [reflexivity|]. rewrite <- En in *. split; [exact W|]. split; [exact HH|]. split; [reflexivity|].
    rewrite En. discriminate.
  - destruct (elems n') as [|e r]; [reflexivity|]. cbn [root_gone length] in *. destruct (Nat.eqb_spec (ccnt s - length l) 0); [lia|reflexivity].
Qed.

Lemma inv_perm s A B : Permutation A B -> Inv s A -> Inv s B.
Proof.
  intros P (N & C & J). split; [eapply Permutation_NoDup; [apply keys_perm; exact P|exact N]|].
  split; [rewrite <- (Permutation_length P); exact C|]. destruct (root s) as [n|].
  - destruct J as (J1 & J2 & J3 & J4). split; [exact J1|]. split; [exact J2|]. split; [rewrite J3; exact P|].
    intros ->. apply J4. symmetry in P. apply Permutation_nil in P. exact P.
  - subst A. apply Permutation_nil in P. exact P.
Qed.

Hypothesis hash_int : forall k, range (hash k).

Lemma by_fields_ok del : forall fl n A l n', mwf n -> hashed hash (elems n) -> NoDup (keys A) ->
  Permutation (map pair_of (elems n)) A -> by_fields hash del n fl = Some (l, n') ->
  map pair_of l = fst (picks del A fl) /\ (del = false -> n' = n) /\
  (del = true -> mwf n' /\ Permutation (elems n) (l ++ elems n') /\ Permutation (map pair_of (elems n')) (snd (picks del A fl))).
Proof using hash_int.
  induction fl as [|f fl IH]; intros n A l n' W H N P; cbn [by_fields picks].
  - intros Q; injection Q as <- <-. cbn [fst snd map app]. split; [reflexivity|]. split; [reflexivity|]. intros _. split; [exact W|]. split; [reflexivity|exact P].
  - destruct (m_byfield del n (hash f) f) as [[x n1]|] eqn:B; [|discriminate].
    destruct (by_fields hash del n1 fl) as [[l2 n2]|] eqn:B2; [|discriminate].
    apply (m_byfield_ok hash hash_int) in B; [|exact W|exact H].
    destruct x as [e|]; intros Q; injection Q as <- <-.
    + destruct B as (Ek & Ie & B0 & B1). subst f.
      assert (exists R, Permutation A (pair_of e :: R)) as (R & PR).
      { assert (I : In (pair_of e) A) by (eapply Permutation_in; [exact P|apply in_map; exact Ie]).
        apply in_split in I as (a & b & ->). exists (a ++ b). symmetry. apply Permutation_middle. }
      destruct (filter_one A (pair_of e) R N PR) as [F1 F2]. change (fst (pair_of e)) with (ek e) in F1, F2. rewrite F1.
      destruct del.
      * destruct (B1 eq_refl) as (W1 & _ & P1).
        assert (P2 : Permutation (map pair_of (elems n1)) (filter (fun q => negb (beqb (ek e) (fst q))) A)).
        { rewrite F2. apply Permutation_cons_inv with (a := pair_of e). rewrite <- PR, <- P. symmetry.
          change (pair_of e :: map pair_of (elems n1)) with (map pair_of (e :: elems n1)). apply Permutation_map. exact P1. }
        assert (H1 : hashed hash (elems n1)).
        { apply (hashed_perm hash _ _ P1) in H. inversion H; assumption. }
        assert (N1 : NoDup (keys (filter (fun q => negb (beqb (ek e) (fst q))) A))).
        { apply keys_perm in F2. eapply Permutation_NoDup; [symmetry; exact F2|]. apply keys_perm in PR. apply (Permutation_NoDup PR) in N. inversion N; assumption. }
        destruct (IH n1 _ l2 n2 W1 H1 N1 P2 B2) as (I1 & _ & I3). destruct (I3 eq_refl) as (I4 & I5 & I6).
        destruct (picks true (filter (fun q => negb (beqb (ek e) (fst q))) A) fl) as [pl pA]. cbn [fst snd map app] in *.
        split; [rewrite I1; reflexivity|]. split; [discriminate|]. intros _. split; [exact I4|]. split; [|exact I6].
        rewrite P1. constructor. exact I5.
      * rewrite (B0 eq_refl) in B2. destruct (IH n A l2 n2 W H N P B2) as (I1 & I2 & _).
        destruct (picks false A fl) as [pl pA]. cbn [fst snd map app] in *. split; [rewrite I1; reflexivity|]. split; [exact I2|discriminate].
    + destruct B as [-> B].
      assert (NI : ~ In f (keys A)).
      { intros Q. apply B. rewrite <- keys_pairs. eapply Permutation_in; [symmetry; apply keys_perm; exact P|exact Q]. }
      destruct (filter_none f A NI) as [-> F2]. rewrite F2. replace (if del then A else A) with A by (destruct del; reflexivity).
      specialize (IH n A l2 n2 W H N P B2). destruct (picks del A fl) as [pl pA]. cbn [fst snd app] in *. exact IH.
Qed.

Lemma map_pair_nil l : map pair_of l = [] -> l = [].
Proof. destruct l; [reflexivity|discriminate]. Qed.

Lemma step_ok s A o s' x : Inv s A -> step hash s o = Some (s', x) ->
  exists A', spec_step (maxc s) A o x A' /\ Inv s' A' /\ maxc s' = maxc s.
Proof using hash_int.
  intros I. pose proof I as (N & C & J). destruct o as [f v rep st mr mn|f v held st mem|fl|fl del|count]; cbn [step].
  - (* insert *)
    set (e := mkElem (hash f) f v). rewrite C.
    assert (INS : forall n n1 c, mwf n -> hashed hash (elems n) -> Permutation (map pair_of (elems n)) A ->
       m_link n e rep (Nat.ltb (length A) (maxc s)) st mn = Some (c, n1) ->
       match c with
       | LNew => exists A', spec_step (maxc s) A (Insert f v rep st mr mn) (OIns false) A' /\
                   Inv (mkMap (Some n1) (S (length A)) (maxc s)) A'
       | LReplaced => exists A', spec_step (maxc s) A (Insert f v rep st mr mn) (OIns true) A' /\
                   Inv (mkMap (Some n1) (length A) (maxc s)) A' /\ A <> []
       | LErr c => n1 = n /\ spec_step (maxc s) A (Insert f v rep st mr mn) (ORc c) A
       end).
    { intros n n1 c W HH P L. apply (m_link_ok hash hash_int) in L; [|reflexivity|exact W|exact HH].
      assert (KI : In f (map ek (elems n)) <-> In f (keys A)).
      { rewrite <- keys_pairs. apply keys_perm in P. split; apply Permutation_in; [exact P|symmetry; exact P]. }
      destruct c as [| |[]]; cbn [ek e] in L; try (destruct L; fail).
      - destruct L as (L1 & L2 & L3 & L4 & L5 & L6). exists ((f, v) :: A). rewrite KI in L3. apply Nat.ltb_lt in L5.
        split; [apply sp_inserted; [exact L3|exact L5|exact L6|reflexivity]|].
        split; [cbn [keys map fst]; constructor; assumption|]. split; [reflexivity|]. cbn [root].
        split; [exact L1|]. split; [eapply hashed_perm; [symmetry; exact L4|]; constructor; [reflexivity|exact HH]|].
        split; [|discriminate]. rewrite L4. cbn [map]. constructor. exact P.
      - destruct L as (L1 & L2 & -> & y & R & L4 & L5 & L6 & L7).
        assert (PA : Permutation A ((f, ev y) :: map pair_of R)).
        { rewrite <- P, L5. cbn [map]. unfold pair_of at 1. rewrite L4. reflexivity. }
        exists ((f, v) :: map pair_of R). split; [eapply sp_replaced; [exact PA|reflexivity|exact L7]|].
        split; [|intros ->; apply Permutation_length in PA; discriminate].
        pose proof (keys_perm _ _ PA) as KP. pose proof (Permutation_length PA) as LP. cbn [length] in LP.
        split; [apply (Permutation_NoDup KP N)|]. split; [exact LP|]. cbn [root].
        split; [exact L1|]. split; [|split; [|discriminate]].
        + eapply hashed_perm; [symmetry; exact L6|]. apply (hashed_perm hash _ _ L5) in HH. inversion HH; subst. constructor; [reflexivity|assumption].
        + rewrite L6. reflexivity.
      - destruct L as (-> & L2 & ->). split; [reflexivity|]. apply sp_duplicate. apply KI. exact L2.
      - destruct L as (-> & L2). split; [reflexivity|]. apply sp_nomem. tauto.
      - destruct L as (-> & L2 & L3). split; [reflexivity|]. apply sp_overflow; [rewrite <- KI; exact L3|]. apply Nat.ltb_ge. exact L2. }
    destruct (root s) as [n|] eqn:E.
    + destruct J as (W & HH & P & NE).
      destruct (m_link n e rep _ st mn) as [[c n1]|] eqn:L; [|discriminate]. specialize (INS n n1 c W HH P L).
      destruct c as [| |c]; intros H1; injection H1 as <- <-.
      * destruct INS as (A' & S1 & I1). exists A'. split; [exact S1|]. split; [exact I1|reflexivity].
      * destruct INS as (A' & S1 & I1 & _). exists A'. split; [exact S1|]. split; [exact I1|reflexivity].
      * exists A. split; [apply INS|]. split; [exact I|reflexivity].
    + subst A. destruct mr; cbn [negb]; [|intros H1; injection H1 as <- <-; exists []; split; [apply sp_nomem; auto|auto]].
      destruct empty_root as [W0 E0].
      destruct (m_link (Node 0 0 0 empty_tab) e rep _ st mn) as [[c n1]|] eqn:L; [|discriminate].
      specialize (INS _ n1 c W0 ltac:(rewrite E0; constructor) ltac:(rewrite E0; reflexivity) L).
      destruct c as [| |c].
      * intros H1; injection H1 as <- <-. destruct INS as (A' & S1 & I1). exists A'. split; [exact S1|]. split; [exact I1|reflexivity].
      * destruct INS as (A' & _ & _ & Q). contradiction.
      * destruct (drop_root n1); [discriminate|]. intros H1; injection H1 as <- <-. exists []. split; [apply INS|]. split; [exact I|reflexivity].
  - (* update *)
    destruct (root s) as [n|] eqn:E.
    + destruct J as (W & HH & P & NE). pose proof (find_elem_ok hash f (hash_int f) n (proj1 W) HH) as F.
      destruct (find_elem n (hash f) f) as [[y|]|]; [| |discriminate].
      * destruct F as [Fi Fk]. subst f. cbv zeta.
        assert (KI : In (ek y) (keys A)) by (apply (inv_key s n A (ek y) I E); apply in_map; exact Fi).
        assert (Hy : eh y = hash (ek y)) by (apply (hashed_in _ _ _ HH Fi)).
        assert (PUT : match m_put n (mkElem (eh y) (ek y) v) with
                      | Some n' => Some (mkMap (Some n') (ccnt s) (maxc s), ORc SUCC)
                      | None => None end = Some (s', x) ->
            exists A', spec_step (maxc s) A (Update (ek y) v held st mem) x A' /\ Inv s' A' /\ maxc s' = maxc s).
        { destruct (m_put n (mkElem (eh y) (ek y) v)) as [n1|] eqn:M; [|discriminate]. intros Q; injection Q as <- <-.
          apply (m_put_ok hash hash_int) in M; [|exact Hy|exact W|exact HH|cbn [ek]; apply in_map; exact Fi|exact (inv_nodup s n A I E)].
          destruct M as (M1 & M2 & M3). destruct (M3 y Fi eq_refl) as (R & P1 & P2).
          assert (PA : Permutation A ((ek y, ev y) :: map pair_of R)).
          { rewrite <- P, P1. reflexivity. }
          exists ((ek y, v) :: map pair_of R). split; [eapply sp_updated; [exact PA|reflexivity]|].
          split; [|reflexivity]. pose proof (keys_perm _ _ PA) as KP. pose proof (Permutation_length PA) as LP. cbn [length] in LP.
          split; [apply (Permutation_NoDup KP N)|]. split; [cbn [ccnt length]; congruence|]. cbn [root].
          split; [exact M1|]. split; [|split; [|discriminate]].
          + eapply hashed_perm; [symmetry; exact P2|]. apply (hashed_perm hash _ _ P1) in HH. inversion HH; subst. constructor; [exact Hy|assumption].
          + rewrite P2. reflexivity. }
        destruct (negb held && _); [exact PUT|].
        destruct (st && _) eqn:ST; [intros Q; injection Q as <- <-; exists A; split; [apply sp_upd_nomem; [exact KI|left; apply andb_true_iff in ST; tauto]|auto]|].
        destruct mem; cbn [negb]; [exact PUT|]. intros Q; injection Q as <- <-; exists A; split; [apply sp_upd_nomem; auto|auto].
      * intros Q; injection Q as <- <-. exists A. split; [|auto]. apply sp_upd_absent. rewrite <- (inv_key s n A f I E). exact F.
    + subst A. intros Q; injection Q as <- <-. exists []. split; [|auto]. apply sp_upd_absent. intros [].
  - (* delete *)
    destruct (root s) as [n|] eqn:E.
    + pose proof J as (W & HH & P & NE). destruct fl as [|f fl].
      * destruct (m_dfs true n 0) as [[l n1]|] eqn:D; [|discriminate].
        apply m_dfs_ok in D as (D1 & _ & D3); [|intros _; exact W]. destruct (D3 eq_refl W) as (W1 & _ & P1).
        destruct (inv_removed s n n1 l A I E W1 P1) as (PA & IA & RG). cbn [ccnt root]. rewrite RG. cbn [negb].
        assert (En : elems n1 = []).
        { apply Permutation_length in P1. rewrite app_length, D1 in P1. unfold wantn in P1. cbn in P1. destruct (elems n1); [reflexivity|cbn in P1; lia]. }
        rewrite En in *. cbn [map app] in *. rewrite app_nil_r in PA.
        destruct l as [|e l].
        { exfalso. apply NE. apply Permutation_length in PA. destruct A; [reflexivity|discriminate]. }
        intros Q; injection Q as <- <-. exists []. split; [|auto].
        replace (S (length l)) with (length A) by (rewrite (Permutation_length PA), map_length; reflexivity).
        apply sp_deleted_all. exact NE.
      * destruct (by_fields hash true n (f :: fl)) as [[l n1]|] eqn:D; [|discriminate].
        apply (by_fields_ok true (f :: fl) n A) in D; [|exact W|exact HH|exact N|exact P]. destruct D as (D1 & _ & D3).
        destruct (D3 eq_refl) as (W1 & P1 & P2).
        destruct (inv_removed s n n1 l A I E W1 P1) as (PA & IA & RG). cbn [ccnt root]. rewrite RG. cbn [negb].
        destruct (picks_true (f :: fl) A) as (Q1 & Q2 & Q3).
        destruct l as [|e l]; intros Q; injection Q as <- <-.
        { exists A. split; [|split; [eapply inv_perm; [symmetry; exact PA|exact IA]|reflexivity]].
          apply sp_del_none; [right; discriminate|]. apply (picks_none true). cbn [map] in D1. congruence. }
        exists (map pair_of (elems n1)). split; [|split; [exact IA|reflexivity]].
        change (ONum (S (length l))) with (ONum (length (e :: l))). rewrite <- (map_length pair_of (e :: l)). apply sp_deleted; [discriminate|exact PA|discriminate| |].
        { rewrite D1. exact Q2. }
        { intros p Hp. apply Q3. eapply Permutation_in; [exact P2|exact Hp]. }
    + subst A. intros Q; injection Q as <- <-. exists []. split; [|auto]. apply sp_del_none; [auto|]. intros p [].
  - (* get *)
    rewrite C. destruct (Nat.eqb_spec (length A) 0) as [Z|Z].
    { destruct A; [|discriminate]. intros H; injection H as <- <-. exists []. split; [|auto]. apply sp_get_none; [auto|]. intros p []. }
    destruct (root s) as [n|] eqn:E; [|discriminate]. pose proof J as (W & HH & P & NE). destruct fl as [|f fl].
    + destruct (m_dfs del n 0) as [[l n1]|] eqn:D; [|discriminate]. cbn [length].
      destruct (Nat.ltb _ (length l)); [discriminate|]. pose proof D as DD.
      apply m_dfs_ok in D as (D1 & _ & D3); [|intros _; exact W]. unfold wantn in D1. cbn [Nat.eqb] in D1.
      assert (PL : Permutation (map pair_of l) A) by (rewrite D1; exact P).
      destruct l as [|e l].
      { exfalso. apply NE. apply Permutation_nil. exact PL. }
      intros Q; injection Q as <- <-. destruct del.
      * destruct (D3 eq_refl W) as (W1 & _ & P1).
        rewrite <- C. destruct (inv_removed s n n1 (e :: l) A I E W1 P1) as (PA & IA & RG).
        assert (En : elems n1 = []).
        { apply Permutation_length in P1. rewrite app_length, D1 in P1. destruct (elems n1); [reflexivity|cbn in P1; lia]. }
        rewrite En in *. exists []. split; [apply sp_get_del_all; [exact NE|exact PL]|]. split; [exact IA|reflexivity].
      * exists A. split; [apply sp_get_all; [exact NE|exact PL]|]. split; [exact I|reflexivity].
    + destruct (by_fields hash del n (f :: fl)) as [[l n1]|] eqn:D; [|discriminate].
      destruct (Nat.ltb _ (length l)); [discriminate|].
      apply (by_fields_ok del (f :: fl) n A) in D; [|exact W|exact HH|exact N|exact P]. destruct D as (D1 & _ & D3).
      destruct l as [|e l]; intros Q; injection Q as <- <-.
      * exists A. split; [apply sp_get_none; [right; discriminate|]; apply (picks_none del); cbn [map] in D1; congruence|].
        destruct del; [|split; [exact I|reflexivity]]. destruct (D3 eq_refl) as (W1 & P1 & P2). rewrite <- C.
        destruct (inv_removed s n n1 [] A I E W1 P1) as (PA & IA & RG).
        split; [eapply inv_perm; [symmetry; exact PA|exact IA]|reflexivity].
      * destruct del.
        { destruct (D3 eq_refl) as (W1 & P1 & P2). rewrite <- C.
          destruct (inv_removed s n n1 (e :: l) A I E W1 P1) as (PA & IA & RG).
          exists (map pair_of (elems n1)). split; [|split; [exact IA|reflexivity]].
          change (pair_of e :: map pair_of l) with (map pair_of (e :: l)). rewrite D1. apply sp_get_del; [rewrite <- D1; discriminate|exact P2]. }
        { exists A. split; [|split; [exact I|reflexivity]].
          change (pair_of e :: map pair_of l) with (map pair_of (e :: l)). rewrite D1. apply sp_get. rewrite <- D1. discriminate. }
  - (* delete some *)
    destruct (root s) as [n|] eqn:E.
    + pose proof J as (W & HH & P & NE).
      destruct (m_dfs true n count) as [[l n1]|] eqn:D; [|discriminate]. intros H; injection H as <- <-.
      apply m_dfs_ok in D as (D1 & _ & D3); [|intros _; exact W]. destruct (D3 eq_refl W) as (W1 & _ & P1).
      destruct (inv_removed s n n1 l A I E W1 P1) as (PA & IA & _).
      exists (map pair_of (elems n1)). split; [|split; [exact IA|reflexivity]].
      rewrite <- (map_length pair_of l). apply sp_some; [exact PA|]. rewrite map_length, D1.
      unfold wantn, size_wanted. rewrite <- (proj1 (inv_len s n A I E)). destruct (Nat.eqb count 0); [reflexivity|]. apply firstn_length.
    + subst A. intros H; injection H as <- <-. exists []. split; [|auto].
      apply (sp_some _ [] [] []); [reflexivity|]. unfold size_wanted. destruct (Nat.eqb count 0); [reflexivity|]. cbn; lia.
Qed.

Lemma run_ok : forall ops s A s' xs, Inv s A -> run hash s ops = Some (s', xs) ->
  exists A', spec_run (maxc s) A ops xs A' /\ Inv s' A'.
Proof using hash_int.
  induction ops as [|o ops IH]; intros s A s' xs I; cbn [run].
  - intros H; injection H as <- <-. exists A. split; [constructor|exact I].
  - destruct (step hash s o) as [[s1 x]|] eqn:E; [|discriminate].
    destruct (run hash s1 ops) as [[s2 ys]|] eqn:R; [|discriminate]. intros H; injection H as <- <-.
    apply (step_ok _ A) in E as (A1 & S1 & I1 & M1); [|exact I]. rewrite <- M1 in *.
    destruct (IH _ _ _ _ I1 R) as (A2 & S2 & I2). exists A2. split; [|exact I2].
    econstructor; [apply I|exact S1|exact S2].
Qed.
End H.
