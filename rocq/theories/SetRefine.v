(* Every operation of the set model is a step of the specification; with hashes whose sign
   bit is clear nothing fails. *)
From Verif Require Import Base HtModel HtProofs SetModel SetSpec SetProofs.
Set Default Proof Using "Type".

(* ---- choosing distinct offsets ---- *)
Lemma incl_perm {A} : forall (os L : list A), NoDup os -> incl os L -> exists R, Permutation L (os ++ R).
Proof.
  induction os as [|o os IH]; intros L N I; [exists L; reflexivity|].
  apply NoDup_cons_iff in N as [N1 N2]. destruct (in_split o L (I o (or_introl eq_refl))) as (a & b & ->).
  destruct (IH (a ++ b)) as (R & P); [exact N2| |].
  - intros x Hx. assert (x <> o) by congruence. specialize (I x (or_intror Hx)). rewrite in_app_iff in *. cbn [In] in I. intuition congruence.
  - exists R. rewrite <- Permutation_middle, P. reflexivity.
Qed.

Lemma map_nth_seq {A} : forall (L : list A), map (nth_error L) (seq 0 (length L)) = map Some L.
Proof.
  induction L as [|x L IH]; [reflexivity|]. cbn [length seq map nth_error]. f_equal.
  rewrite <- seq_shift, map_map. exact IH.
Qed.

Lemma pick_distinct {A} (L : list A) os l : NoDup os -> map (nth_error L) os = map Some l ->
  exists R, Permutation L (l ++ R).
Proof.
  intros N E.
  assert (I : incl os (seq 0 (length L))).
  { intros o Ho. apply in_seq. split; [lia|]. cbn. apply nth_error_Some. intros Q.
    assert (X : In (nth_error L o) (map (nth_error L) os)) by (apply in_map; exact Ho).
    rewrite E, Q in X. apply in_map_iff in X as (? & ? & ?). discriminate. }
  destruct (incl_perm os _ N I) as (R & P). apply (Permutation_map (nth_error L)) in P.
  rewrite map_nth_seq, map_app, E in P.
  set (un := fun o : option A => match o with Some x => [x] | None => [] end).
  assert (U : forall l, flat_map un (map Some l) = l) by (intros l0; induction l0; cbn; congruence).
  exists (flat_map un (map (nth_error L) R)).
  apply (Permutation_flat_map un) in P. rewrite flat_map_app, !U in P. exact P.
Qed.

(* the hash table of used offsets *)
Definition used (cap : nat) (ht : nat -> list nat) (U : list nat) : Prop := forall o, In o U <-> In o (ht (o mod cap)).

Lemma off_insert_ok cap ht U o ht' : used cap ht U -> off_insert cap ht o = Some ht' -> ~ In o U /\ used cap ht' (o :: U).
Proof.
  intros H. unfold off_insert. destruct (Nat.eqb _ 3); [discriminate|].
  destruct (existsb (Nat.eqb o) (ht (o mod cap))) eqn:E; [discriminate|]. intros Q; injection Q as <-.
  assert (N : ~ In o (ht (o mod cap))).
  { intros I. rewrite <- not_true_iff_false in E. apply E. apply existsb_exists. exists o. split; [exact I|apply Nat.eqb_refl]. }
  split; [rewrite (H o); exact N|]. intros x. cbn [In].
  destruct (Nat.eqb_spec (x mod cap) (o mod cap)) as [M|M].
  - rewrite in_app_iff, <- M, <- (H x). cbn [In]. tauto.
  - rewrite <- (H x). split; [intros [->|]; [congruence|assumption]|auto].
Qed.

Lemma pick_ok n cc cap : nwf n -> forall rnd need ht U l r, used cap ht U -> NoDup U ->
  pick n cc cap need ht rnd = Some (l, r) ->
  exists os, NoDup (os ++ U) /\ length os = need /\ map (nth_error (elems n)) os = map Some l.
Proof.
  intros W. induction rnd as [|x rnd IH]; intros need ht U l r H N.
  - destruct need; cbn [pick]; [|discriminate]. intros Q; injection Q as <- <-. exists []. auto.
  - destruct need as [|need]; cbn [pick]; [intros Q; injection Q as <- <-; exists []; auto|].
    destruct (off_insert cap ht (x mod cc)) as [ht'|] eqn:E; [|apply IH; assumption].
    apply (off_insert_ok cap ht U) in E as [E1 E2]; [|exact H].
    destruct (s_at false n (x mod cc)) as [[[e|] n']|] eqn:A; try discriminate.
    apply s_at_ok in A; [|exact W]. destruct A as (A1 & _).
    destruct (pick n cc cap need ht' rnd) as [[l' r']|] eqn:P; [|discriminate]. intros Q; injection Q as <- <-.
    apply (IH need ht' (x mod cc :: U)) in P; [|exact E2|constructor; assumption].
    destruct P as (os & P1 & P2 & P3). exists (x mod cc :: os). split; [|split; [cbn; congruence|cbn [map]; congruence]].
    cbn [app]. apply (Permutation_NoDup (l := os ++ x mod cc :: U)); [symmetry; apply Permutation_middle|exact P1].
Qed.

Lemma pick_del_ok : forall need n cc rnd l n' r, nwf n -> cc = length (elems n) -> need <= cc ->
  pick_del n cc need rnd = Some (l, n', r) ->
  nwf n' /\ length l = need /\ Permutation (elems n) (l ++ elems n').
Proof.
  induction need as [|need IH]; intros n cc rnd l n' r W E L; cbn [pick_del].
  - intros Q; injection Q as <- <- <-. auto.
  - destruct rnd as [|x rnd]; [discriminate|]. destruct cc as [|cc]; [discriminate|].
    destruct (s_at true n (x mod S cc)) as [[[e|] n1]|] eqn:A; try discriminate.
    apply s_at_ok in A; [|exact W]. destruct A as (A1 & _ & A3). destruct (A3 eq_refl e eq_refl) as (W1 & _ & P1).
    destruct (pick_del n1 cc need rnd) as [[[l' n2] r']|] eqn:P; [|discriminate]. intros Q; injection Q as <- <- <-.
    apply Permutation_length in P1 as P1'. cbn [length] in P1'.
    apply IH in P; [|exact W1|lia|lia]. destruct P as (W2 & L2 & P2). split; [exact W2|]. split; [cbn; lia|].
    rewrite P1, P2. reflexivity.
Qed.

Lemma set_at_mid {A} (a b : list A) x y : set_at (a ++ x :: b) (length a) y = a ++ y :: b.
Proof. induction a as [|z a IH]; cbn; [reflexivity|]. rewrite IH. reflexivity. Qed.

Lemma shuffle_ok : forall i l rnd l', shuffle i l rnd = Some l' -> Permutation l l'.
Proof.
  induction i as [|i IH]; intros l rnd l'; cbn [shuffle]; [intros H; injection H as <-; reflexivity|].
  destruct rnd as [|x rnd]; [discriminate|].
  set (j := x mod S (S i)). assert (J : j < S (S i)) by (apply Nat.mod_upper_bound; lia). clearbody j.
  destruct (Nat.eqb_spec j (S i)); [apply IH|].
  destruct (nth_error l (S i)) as [a|] eqn:Ea; [|discriminate]. destruct (nth_error l j) as [b|] eqn:Eb; [|discriminate].
  intros H. apply IH in H. rewrite <- H. clear H IH.
  apply nth_error_split in Eb as (p & q & -> & Lp).
  rewrite nth_error_app2 in Ea by lia. replace (S i - length p) with (S (i - length p)) in Ea by lia. cbn [nth_error] in Ea.
  apply nth_error_split in Ea as (q1 & q2 & -> & Lq).
  assert (E1 : set_at (p ++ b :: q1 ++ a :: q2) (S i) b = p ++ b :: q1 ++ b :: q2).
  { replace (S i) with (length (p ++ b :: q1)) by (rewrite app_length; cbn; lia).
    replace (p ++ b :: q1 ++ a :: q2) with ((p ++ b :: q1) ++ a :: q2) by (rewrite <- app_assoc; reflexivity).
    rewrite set_at_mid, <- app_assoc. reflexivity. }
  rewrite E1, <- Lp, set_at_mid. apply Permutation_app_head.
  rewrite <- (Permutation_middle q1 q2 a), <- (Permutation_middle q1 q2 b). apply perm_swap.
Qed.

(* ---- the refinement ---- *)
Section H.
Variable hash : bytes -> Z.

Definition Inv (s : set_info) (A : list bytes) : Prop :=
  NoDup A /\ ccnt s = length A /\
  match root s with
  | None => A = []
  | Some n => nwf n /\ hashed hash (elems n) /\ Permutation (map ek (elems n)) A /\ A <> []
  end.

Lemma inv_len s n A : Inv s A -> root s = Some n -> length (elems n) = length A /\ 1 <= length A.
Proof.
  intros (_ & _ & I) E. rewrite E in I. destruct I as (_ & _ & P & N).
  apply Permutation_length in P. rewrite map_length in P. split; [exact P|]. destruct A; [congruence|cbn; lia].
Qed.

Lemma empty_root : nwf (Node 0 0 0 empty_tab) /\ elems (Node 0 0 0 empty_tab) = [].
Proof.
  split; [|reflexivity]. apply nwf_iff. split; [reflexivity|]. intros i Hi. split; [constructor|exact I].
Qed.

(* after removing the elements l *)
Lemma inv_removed s n n' l A r : Inv s A -> root s = Some n -> nwf n' -> Permutation (elems n) (l ++ elems n') ->
  drop_root n' = Some r ->
  exists A', Permutation A (map ek l ++ A') /\ Inv (mkSet r (ccnt s - length l) (maxc s)) A'.
Proof.
  intros (N & C & I) E W P D. rewrite E in I. destruct I as (_ & H & PA & _).
  exists (map ek (elems n')).
  assert (PA' : Permutation A (map ek l ++ map ek (elems n'))).
  { rewrite <- PA, <- map_app. apply Permutation_map. exact P. }
  split; [exact PA'|].
  assert (HH : hashed hash (elems n')).
  { apply (hashed_perm hash _ _ P) in H. apply Forall_app in H. apply H. }
  assert (ND : NoDup (map ek (elems n'))).
  { apply (Permutation_NoDup PA') in N. eapply NoDup_app_r; exact N. }
  assert (L : ccnt s - length l = length (map ek (elems n'))).
  { rewrite C, (Permutation_length PA'), app_length, !map_length. lia. }
  unfold drop_root in D. rewrite (nwf_tot n' W) in D. destruct (Nat.eqb_spec (length (elems n')) 0) as [Z|Z]; injection D as <-.
  - split; [exact ND|]. split; [exact L|]. cbn [root]. destruct (elems n'); [reflexivity|discriminate].
  - split; [exact ND|]. split; [exact L|]. cbn [root]. split; [exact W|]. split; [exact HH|]. split; [reflexivity|].
    destruct (elems n'); [cbn in Z; lia|discriminate].
Qed.

Lemma s_get_ok s count del rnd l s' A : Inv s A -> A <> [] -> s_get s count del rnd = Some (l, s') ->
  length l = size_wanted count (length A) /\
  (del = false -> s' = s /\ exists R, Permutation A (map ek l ++ R)) /\
  (del = true -> exists A', Permutation A (map ek l ++ A') /\ Inv s' A').
Proof.
  intros I NE. unfold s_get. destruct (root s) as [n|] eqn:E; [|discriminate].
  pose proof (inv_len s n A I E) as [LE L1]. pose proof I as (N & C & J). rewrite E in J. destruct J as (W & H & PA & _).
  assert (FIN : forall l1 n1 l s', length l1 = size_wanted count (length A) ->
    (del = false -> exists R, Permutation (elems n) (l1 ++ R)) ->
    (del = true -> nwf n1 /\ Permutation (elems n) (l1 ++ elems n1)) ->
    (if del then match drop_root n1 with Some r => Some (l1, mkSet r (ccnt s - length l1) (maxc s)) | None => None end
     else Some (l1, s)) = Some (l, s') ->
    length l = size_wanted count (length A) /\
    (del = false -> s' = s /\ exists R, Permutation A (map ek l ++ R)) /\
    (del = true -> exists A', Permutation A (map ek l ++ A') /\ Inv s' A')).
  { clear l s'. intros l1 n1 l s' LL F0 F1. destruct del.
    - destruct (drop_root n1) as [r|] eqn:D; [|discriminate]. intros Q; injection Q as <- <-.
      split; [exact LL|]. split; [discriminate|]. intros _. destruct (F1 eq_refl) as [W1 P1].
      exact (inv_removed s n n1 l1 A r I E W1 P1 D).
    - intros Q; injection Q as <- <-. split; [exact LL|]. split; [|discriminate]. intros _. split; [reflexivity|].
      destruct (F0 eq_refl) as (R & P). exists (map ek R). rewrite <- PA, <- map_app. apply Permutation_map. exact P. }
  destruct (Nat.leb (ccnt s) count || Nat.eqb count 0) eqn:B.
  - destruct (s_dfs del n count) as [[l1 n1]|] eqn:D; [|discriminate]. apply s_dfs_ok in D as (D1 & D2 & D3).
    refine (FIN l1 n1 l s' _ _ _).
    + rewrite D1, wantn_len, LE. reflexivity.
    + intros _. rewrite D1. unfold wantn. destruct (Nat.eqb count 0); [exists []; rewrite app_nil_r; reflexivity|].
      exists (skipn count (elems n)). rewrite firstn_skipn. reflexivity.
    + intros Q. destruct (D3 Q W) as (? & ? & ?). split; assumption.
  - apply orb_false_iff in B as [B1 B2]. apply Nat.leb_gt in B1. apply Nat.eqb_neq in B2.
    assert (SW : size_wanted count (length A) = count).
    { unfold size_wanted. destruct (Nat.eqb_spec count 0); [contradiction|]. lia. }
    destruct del.
    + destruct (pick_del n (ccnt s) count rnd) as [[[l1 n1] r]|] eqn:D; [|discriminate].
      apply pick_del_ok in D; [|exact W|congruence|lia]. destruct D as (D1 & D2 & D3).
      refine (FIN l1 n1 l s' _ _ _); [congruence|discriminate|auto].
    + destruct (Nat.leb count (Nat.div (ccnt s) 10)).
      * destruct (pick n (ccnt s) _ count _ rnd) as [[l1 r]|] eqn:D; [|discriminate].
        apply (pick_ok _ _ _ W _ _ _ []) in D; [|intros o; reflexivity|constructor].
        destruct D as (os & D1 & D2 & D3). rewrite app_nil_r in D1.
        refine (FIN l1 n l s' _ _ _).
        { rewrite SW, <- D2. apply (f_equal (@length _)) in D3. rewrite !map_length in D3. symmetry; exact D3. }
        { intros _. eapply pick_distinct; eassumption. }
        { discriminate. }
      * destruct (s_samp n (ccnt s) count rnd) as [[l1 r]|] eqn:D; [|discriminate].
        destruct (shuffle (pred (length l1)) l1 r) as [l2|] eqn:SH; [|discriminate].
        apply shuffle_ok in SH. apply s_samp_ok in D; [|exact W|lia|lia|lia]. destruct D as ((R & D1) & D2 & D3).
        refine (FIN l2 n l s' _ _ _).
        { rewrite <- (Permutation_length SH). lia. }
        { intros _. exists R. rewrite <- SH. exact D1. }
        { discriminate. }
Qed.

Hypothesis hash_int : forall k, range (hash k).

Lemma step_ok s A o s' x : Inv s A -> step hash s o = Some (s', x) ->
  exists A', spec_step (maxc s) A o x A' /\ Inv s' A' /\ maxc s' = maxc s.
Proof using hash_int.
  intros I. pose proof I as (N & C & J). destruct o as [v st mr mn|v|v|count|count del rnd]; cbn [step].
  - (* insert *)
    destruct st; [intros H; injection H as <- <-; exists A; split; [apply sp_nomem; auto|auto]|].
    rewrite C. destruct (Nat.leb_spec (maxc s) (length A)).
    { intros H1; injection H1 as <- <-. exists A. split; [apply sp_overflow; assumption|auto]. }
    set (e := mkElem (hash v) v []).
    assert (INS : forall n n1 c, nwf n -> hashed hash (elems n) -> Permutation (map ek (elems n)) A ->
       s_link n e mn = Some (c, n1) -> c = SUCC ->
       exists A', spec_step (maxc s) A (Insert v false mr mn) (ORc SUCC) A' /\
         Inv (mkSet (Some n1) (S (length A)) (maxc s)) A' /\ maxc s = maxc s).
    { intros n n1 c W HH P L ->. apply (s_link_ok hash hash_int) in L; [|reflexivity|exact W|exact HH].
      destruct L as (L1 & L2 & L3 & L4). cbn [ek e] in *. exists (v :: A).
      assert (NI : ~ In v A) by (intros Q; apply L3; eapply Permutation_in; [symmetry; exact P|exact Q]).
      split; [apply sp_inserted; [exact NI|assumption|reflexivity]|]. split; [|reflexivity].
      split; [constructor; assumption|]. split; [reflexivity|]. cbn [root].
      split; [exact L1|]. split; [eapply hashed_perm; [symmetry; exact L4|]; constructor; [reflexivity|exact HH]|].
      split; [|discriminate]. rewrite L4. cbn [map ek e]. constructor. exact P. }
    destruct (root s) as [n|] eqn:E.
    + destruct J as (W & HH & P & NE).
      destruct (s_link n e mn) as [[c n1]|] eqn:L; [|discriminate].
      destruct c; intros H1; injection H1 as <- <-; [eapply INS; eauto|..];
        (apply (s_link_ok hash hash_int) in L; [|reflexivity|exact W|exact HH]).
      * destruct L as [_ L]. exists A. split; [|auto]. apply sp_duplicate; [|assumption]. eapply Permutation_in; [exact P|exact L].
      * destruct L.
      * exists A. split; [|auto]. apply sp_nomem. tauto.
      * destruct L.
    + subst A. destruct mr; cbn [negb]; [|intros H1; injection H1 as <- <-; exists []; split; [apply sp_nomem; auto|auto]].
      destruct empty_root as [W0 E0].
      destruct (s_link (Node 0 0 0 empty_tab) e mn) as [[c n1]|] eqn:L; [|discriminate].
      destruct c; [intros H1; injection H1 as <- <-; apply (INS _ _ SUCC W0 ltac:(rewrite E0; constructor) ltac:(rewrite E0; reflexivity) L eq_refl)|..];
        (apply (s_link_ok hash hash_int) in L; [|reflexivity|exact W0|rewrite E0; constructor]).
      * destruct L as [_ L]. rewrite E0 in L. destruct L.
      * destruct L.
      * destruct (Nat.eqb _ 0); [|discriminate]. intros H1; injection H1 as <- <-. exists []. split; [apply sp_nomem; tauto|auto].
      * destruct L.
  - (* delete *)
    destruct (root s) as [n|] eqn:E.
    + destruct J as (W & HH & P & NE).
      destruct (s_del n (hash v) v) as [[c n1]|] eqn:D; [|discriminate].
      apply (s_del_ok hash hash_int) in D; [|exact W|exact HH]. destruct c; try (destruct D; fail).
      * destruct D as (W1 & _ & e & Ee & P1). destruct (drop_root n1) as [r|] eqn:R; [|discriminate].
        intros H; injection H as <- <-.
        destruct (inv_removed s n n1 [e] A r I E W1 P1 R) as (A' & PA & IA). exists A'. cbn [map app length] in *.
        split; [apply sp_deleted; rewrite <- Ee; exact PA|]. rewrite Nat.sub_1_r in IA. split; [exact IA|reflexivity].
      * intros H; injection H as <- <-. exists A. split; [|auto]. apply sp_absent. intros Q. apply D.
        eapply Permutation_in; [symmetry; exact P|exact Q].
    + subst A. intros H; injection H as <- <-. exists []. split; [apply sp_absent; intros []|auto].
  - (* exist *)
    destruct (root s) as [n|] eqn:E.
    + destruct J as (W & HH & P & NE). pose proof (find_elem_ok hash v (hash_int v) n (proj1 W) HH) as F.
      destruct (find_elem n (hash v) v) as [[e|]|]; [| |discriminate]; intros H; injection H as <- <-; exists A; (split; [|auto]); apply sp_exist.
      * split; [intros _|reflexivity]. eapply Permutation_in; [exact P|]. destruct F as [F1 <-]. apply in_map. exact F1.
      * split; [discriminate|]. intros Q. exfalso. apply F. eapply Permutation_in; [symmetry; exact P|exact Q].
    + subst A. intros H; injection H as <- <-. exists []. split; [|auto]. apply sp_exist. split; [discriminate|intros []].
  - (* delete some *)
    destruct (root s) as [n|] eqn:E.
    + destruct J as (W & HH & P & NE).
      destruct (s_dfs true n count) as [[l n1]|] eqn:D; [|discriminate].
      destruct (drop_root n1) as [r|] eqn:R; [|discriminate]. intros H; injection H as <- <-.
      apply s_dfs_ok in D as (D1 & _ & D3). destruct (D3 eq_refl W) as (W1 & _ & P1).
      destruct (inv_removed s n n1 l A r I E W1 P1 R) as (A' & PA & IA). exists A'.
      split; [|split; [exact IA|reflexivity]]. rewrite <- (map_length ek l). apply sp_some; [exact PA|].
      rewrite map_length, D1, wantn_len. f_equal. apply (inv_len s n A I E).
    + subst A. intros H; injection H as <- <-. exists []. split; [|auto].
      apply (sp_some _ [] [] []); [reflexivity|]. unfold size_wanted. destruct (Nat.eqb count 0); [reflexivity|]. cbn; lia.
  - (* get *)
    rewrite C. destruct (Nat.eqb_spec (length A) 0) as [Z|Z].
    { destruct A; [|discriminate]. intros H; injection H as <- <-. exists []. split; [apply sp_empty|auto]. }
    assert (NE : A <> []) by (destruct A; [cbn in Z; lia|discriminate]).
    destruct (s_get s count del rnd) as [[[|e l] s1]|] eqn:G; [discriminate| |discriminate].
    assert (M : maxc s1 = maxc s).
    { unfold s_get in G. destruct (root s) as [n|]; [|discriminate].
      repeat match type of G with
      | (if ?b then _ else _) = _ => destruct b
      | match ?x with _ => _ end = _ => destruct x as [?|] eqn:?; try discriminate
      | (let '(_, _) := ?x in _) = _ => destruct x
      end; try discriminate; try (injection G; intros; subst; reflexivity). }
    intros H; injection H as <- <-. apply (s_get_ok s count del rnd _ _ A I NE) in G as (G1 & G2 & G3). destruct del.
    + destruct (G3 eq_refl) as (A' & P & I'). exists A'. split; [|auto].
      apply sp_get_del; [exact NE|exact P|]. cbn [length] in *. rewrite map_length. exact G1.
    + destruct (G2 eq_refl) as (-> & R & P). exists A. split; [|auto].
      eapply sp_get; [exact NE|exact P|]. cbn [length] in *. rewrite map_length. exact G1.
Qed.

Lemma run_ok : forall ops s A s' xs, Inv s A -> run hash s ops = Some (s', xs) ->
  exists A', spec_run (maxc s) A ops xs A' /\ Inv s' A'.
Proof using hash_int.
  induction ops as [|o ops IH]; intros s A s' xs I; cbn [run].
  - intros H; injection H as <- <-. exists A. split; [constructor|exact I].
  - destruct (step hash s o) as [[s1 x]|] eqn:E; [|discriminate].
    destruct (run hash s1 ops) as [[s2 ys]|] eqn:R; [|discriminate]. intros H; injection H as <- <-.
    apply (step_ok _ A) in E as (A1 & S1 & I1 & M1); [|exact I]. rewrite <- M1 in *.
    destruct (IH _ _ _ _ I1 R) as (A2 & S2 & I2). exists A2. split; [|exact I2].
    econstructor; [apply I|exact S1|exact S2].
Qed.
End H.
