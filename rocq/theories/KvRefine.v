(* Every step of the key-value engine model (KvModel.v) is a step of the map
   specification (KvSpec.v). *)
From Verif Require Import Base UtilModel UtilSpec UtilProofs KvModel KvSpec KvProofs.
Open Scope Z_scope.
Set Default Proof Using "Type".

Definition entry_of (it : item) : entry :=
  mkEntry (if icoll it then [] else strip (idata it)) (iflags it) (iexp it) (icas it) (icoll it).

Definition eview (s : state) (k : bytes) : option entry :=
  match tfind k (table s) with
  | Some i => match items s i with
              | Some it => if isvalid s it then Some (entry_of it) else None
              | None => None
              end
  | None => None
  end.

(* the first ':' of the key (not counting position 0) is among the first 256 bytes *)
Definition short (k : bytes) : Prop :=
  match index_of 58 (tl k) 1 with Some i => (i < 256)%nat | None => True end.

Definition gone_keys (f : bytes -> option entry) (ev : list (bytes * nat)) : bytes -> option entry :=
  fun k => if existsb (beqb k) (map fst ev) then None else f k.

Lemma entry_content a b : content a = content b -> entry_of a = entry_of b.
Proof. intro E. apply content_eq in E as (A1 & A2 & A3 & A4 & A5 & A6). unfold entry_of. rewrite A2, A3, A4, A5, A6. reflexivity. Qed.
Lemma key_content a b : content a = content b -> ikey a = ikey b.
Proof. intro E. apply content_eq in E. tauto. Qed.

Lemma ref_one s s' refs refs' i it' : RefInv s refs -> items s' i = Some it' ->
  (forall j, j <> i -> items s' j = items s j) -> iref it' = count_occ Nat.eq_dec refs' i ->
  (forall j, j <> i -> count_occ Nat.eq_dec refs' j = count_occ Nat.eq_dec refs j) ->
  (iref it' = 0%nat -> ilinked it' = true /\ inlru it' = true) -> RefInv s' refs'.
Proof.
  intros R Hi Ho Hc Hoc Hz. destruct R. split.
  - intros j x H. destruct (Nat.eq_dec j i) as [->|N]; [congruence|].
    rewrite Ho in H by exact N. rewrite Hoc by exact N. auto.
  - intros j x H Z. destruct (Nat.eq_dec j i) as [->|N].
    + assert (x = it') by congruence. subst x. auto.
    + rewrite Ho in H by exact N. eauto.
  - intros j H. destruct (Nat.eq_dec j i) as [->|N]; [congruence|]. rewrite Ho by exact N. apply r_in.
    apply count_occ_In with (eq_dec := Nat.eq_dec) in H. rewrite Hoc in H by exact N.
    apply count_occ_In with (eq_dec := Nat.eq_dec). exact H.
Qed.

Lemma ref_gone s s' refs refs' i : RefInv s refs -> items s' i = None ->
  (forall j, j <> i -> items s' j = items s j) -> count_occ Nat.eq_dec refs' i = 0%nat ->
  (forall j, j <> i -> count_occ Nat.eq_dec refs' j = count_occ Nat.eq_dec refs j) -> RefInv s' refs'.
Proof.
  intros R Hi Ho Hc Hoc. destruct R. split.
  - intros j x H. destruct (Nat.eq_dec j i) as [->|N]; [congruence|].
    rewrite Ho in H by exact N. rewrite Hoc by exact N. auto.
  - intros j x H Z. destruct (Nat.eq_dec j i) as [->|N]; [congruence|].
    rewrite Ho in H by exact N. eauto.
  - intros j H. apply count_occ_In with (eq_dec := Nat.eq_dec) in H.
    destruct (Nat.eq_dec j i) as [->|N]; [lia|]. rewrite Ho by exact N. apply r_in.
    rewrite Hoc in H by exact N. apply count_occ_In with (eq_dec := Nat.eq_dec). exact H.
Qed.

Lemma count_cons_ne i j (l : list nat) : j <> i -> count_occ Nat.eq_dec (i :: l) j = count_occ Nat.eq_dec l j.
Proof. intro N. cbn. destruct (Nat.eq_dec i j); [congruence|reflexivity]. Qed.
Lemma count_cons_eq i (l : list nat) : count_occ Nat.eq_dec (i :: l) i = S (count_occ Nat.eq_dec l i).
Proof. cbn. destruct (Nat.eq_dec i i); [reflexivity|congruence]. Qed.

Lemma isvalid_env s s' it : now s' = now s -> oldest s' = oldest s -> pold s' = pold s -> isvalid s' it = isvalid s it.
Proof. intros A B D. unfold isvalid. rewrite A, B, D. reflexivity. Qed.

Lemma valid_now' s it : notflushed s it = true -> itime it <= now s -> isvalid s (set_time it (now s)) = isvalid s it.
Proof.
  rewrite !isvalid_split. intros H T. rewrite H. unfold notflushed in *. cbn.
  apply andb_prop in H as [H2 H3]. apply negb_true_iff in H2, H3.
  rewrite !(flushed_now _ _ it) by (auto; reflexivity). reflexivity.
Qed.
Lemma valid_notflushed s it : isvalid s it = true -> notflushed s it = true.
Proof. rewrite isvalid_split. intro H. apply andb_prop in H. apply H. Qed.
Lemma valid_now s it : isvalid s it = true -> itime it <= now s -> isvalid s (set_time it (now s)) = true.
Proof. intros V T. rewrite valid_now'; auto. apply valid_notflushed. exact V. Qed.

(* the entry seen under a key right after it was stored *)
Definition live (t : Z) (e : entry) : option entry := if alive t e then Some e else None.

Lemma index_of_split c l : forall n i, index_of c l n = Some i ->
  exists a r, l = a ++ c :: r /\ ~ In c a /\ i = (n + length a)%nat.
Proof.
  induction l as [|x l IH]; intros n i; cbn [index_of]; [discriminate|].
  destruct (N.eqb_spec x c) as [->|N].
  - injection 1 as <-. exists [], l. repeat split; auto; cbn; lia.
  - intro H. apply IH in H as (a & r & -> & H1 & ->). exists (x :: a), r. repeat split; [|cbn; lia].
    cbn. intros [?|?]; auto.
Qed.
Lemma index_of_none c l : forall n, index_of c l n = None -> ~ In c l.
Proof.
  induction l as [|x l IH]; intros n; cbn [index_of]; [auto|]. destruct (N.eqb_spec x c); [discriminate|].
  intros H [E|E]; [auto|]. eapply IH; eassumption.
Qed.

Lemma pfx_has k p : short k -> (pfx k = p <-> has_prefix k p).
Proof.
  unfold short, pfx, has_prefix. destruct k as [|c r]; cbn [tl].
  - intros _. destruct p as [q|]; split; try discriminate; auto.
    intros (c & q' & r & -> & H & _). discriminate.
  - destruct (index_of 58 r 1) as [i|] eqn:E.
    + intro H. apply index_of_split in E as (a & b & -> & Na & ->). rewrite Nat.mod_small by exact H.
      assert (F : firstn (1 + length a) (c :: a ++ 58%N :: b) = c :: a).
      { cbn. f_equal. rewrite firstn_app, Nat.sub_diag, firstn_all. cbn. apply app_nil_r. }
      rewrite F. destruct p as [q|]; split.
      * injection 1 as <-. exists c, a, b. auto.
      * intros (c' & q' & r' & -> & E & Nq). injection E as <- E. f_equal. f_equal.
        clear - E Na Nq. revert q' E Nq. induction a as [|x a IH]; intros [|y q'] E Nq; cbn in E; try reflexivity.
        -- injection E as <- _. exfalso. apply Nq. left. reflexivity.
        -- injection E as -> _. exfalso. apply Na. left. reflexivity.
        -- injection E as <- E. f_equal. apply IH; [intro; apply Na; right; assumption|exact E|intro; apply Nq; right; assumption].
      * discriminate.
      * intro G. exfalso. apply (G c _ eq_refl). apply in_or_app. right. left. reflexivity.
    + intros _. apply index_of_none in E. destruct p as [q|]; split; try discriminate.
      * intros (c' & q' & r' & -> & G & _). injection G as <- ->. exfalso. apply E. apply in_or_app. right. left. reflexivity.
      * intros _ c' r' G. injection G as <- <-. exact E.
      * auto.
Qed.

Section R.
Variable lru_class : bool -> bytes -> bytes -> nat.
Variable maxcls : nat.
Notation cls := (cls lru_class maxcls).
Notation link_q := (link_q lru_class maxcls).
Notation unlink_q := (unlink_q lru_class maxcls).
Notation unlink := (unlink lru_class maxcls).
Notation attach := (attach lru_class maxcls).
Notation link := (link lru_class maxcls).
Notation replace := (replace lru_class maxcls).
Notation update := (update lru_class maxcls).
Notation do_get := (do_get lru_class maxcls).
Notation release := (release lru_class maxcls).
Notation Core := (Core lru_class maxcls).

Lemma find_linked s k i : Core s -> (tfind k (table s) = Some i <->
  exists it, items s i = Some it /\ ilinked it = true /\ ikey it = k).
Proof.
  intro C. rewrite <- (c_tab _ _ _ C). split; [apply tfind_In|apply In_tfind, C].
Qed.

Lemma eview_some s k e : Core s -> (eview s k = Some e <->
  exists i it, items s i = Some it /\ ilinked it = true /\ ikey it = k /\ isvalid s it = true /\ e = entry_of it).
Proof.
  intro C. unfold eview. split.
  - destruct (tfind k (table s)) as [i|] eqn:F; [|discriminate]. apply find_linked in F as [it (A & B & D)]; [|exact C].
    rewrite A. destruct (isvalid s it) eqn:V; [|discriminate]. injection 1 as <-. exists i, it. auto.
  - intros (i & it & A & B & D & V & ->).
    assert (F : tfind k (table s) = Some i) by (apply find_linked; [exact C|exists it; auto]).
    rewrite F, A, V. reflexivity.
Qed.

Lemma linked_uniq s i j a b : Core s -> items s i = Some a -> items s j = Some b -> ilinked a = true ->
  ilinked b = true -> ikey a = ikey b -> i = j.
Proof.
  intros C A B La Lb E.
  assert (tfind (ikey a) (table s) = Some i) by (apply find_linked; [exact C|exists a; auto]).
  assert (tfind (ikey a) (table s) = Some j) by (apply find_linked; [exact C|exists b; auto]).
  congruence.
Qed.

Lemma eview_ext s s' : Core s -> Core s' -> 
  (forall i it, items s i = Some it -> ilinked it = true -> isvalid s it = true ->
     exists it', items s' i = Some it' /\ ilinked it' = true /\ isvalid s' it' = true /\ content it' = content it) ->
  (forall i it', items s' i = Some it' -> ilinked it' = true -> isvalid s' it' = true ->
     exists it, items s i = Some it /\ ilinked it = true /\ isvalid s it = true /\ content it' = content it) ->
  forall k, eview s' k = eview s k.
Proof.
  intros C C' F B k.
  assert (X : forall a b, content a = content b -> ikey a = ikey b /\ entry_of a = entry_of b).
  { intros a b E. apply content_eq in E as (A1 & A2 & A3 & A4 & A5 & A6). unfold entry_of.
    split; [exact A1|]. rewrite A2, A3, A4, A5, A6. reflexivity. }
  destruct (eview s k) as [e|] eqn:E.
  - apply eview_some in E as (i & it & H1 & H2 & H3 & H4 & ->); [|exact C].
    destruct (F _ _ H1 H2 H4) as (it' & G1 & G2 & G3 & G4). apply X in G4 as [G4 G5].
    apply eview_some; [exact C'|]. exists i, it'. repeat split; congruence.
  - destruct (eview s' k) as [e|] eqn:E'; [|reflexivity].
    apply eview_some in E' as (i & it' & H1 & H2 & H3 & H4 & ->); [|exact C'].
    destruct (B _ _ H1 H2 H4) as (it & G1 & G2 & G3 & G4). apply X in G4 as [G4 G5].
    rewrite <- E. symmetry. apply eview_some; [exact C|]. exists i, it. repeat split; congruence.
Qed.

Lemma existsb_key k (ev : list (bytes * nat)) : existsb (beqb k) (map fst ev) = true <-> exists j, In (k, j) ev.
Proof.
  rewrite existsb_exists. split.
  - intros [x [H E]]. apply beqb_eq in E. subst x. apply in_map_iff in H as [[a j] [E H]]. cbn in E. subst a. eauto.
  - intros [j H]. exists k. split; [apply in_map_iff; exists (k, j); auto|apply beqb_refl].
Qed.

Lemma keep_valid' s s' j it it' : Core s -> Dn s s' -> items s j = Some it -> items s' j = Some it' ->
  ilinked it = true -> content it' = content it -> ilinked it' = true ->
  (ilinked it = true -> itime it' = itime it \/ itime it' = now s /\ notflushed s it = true) ->
  isvalid s' it' = isvalid s it.
Proof.
  intros. rewrite !isvalid_split. destruct (keep_valid lru_class maxcls s s' j it it') as [-> ->]; auto.
Qed.

Lemma dn_view s s' k : Core s -> Core s' -> Dn s s' -> evicted s = [] ->
  eview s' k = gone_keys (eview s) (evicted s') k.
Proof.
  intros C C' D E0. unfold gone_keys. destruct (existsb (beqb k) (map fst (evicted s'))) eqn:X.
  - apply existsb_key in X as [j H]. apply (d_ev' _ _ D) in H as [H|H]; [rewrite E0 in H; contradiction|].
    destruct H as (it & H1 & H2 & H3 & H4 & H5 & H6 & H7).
    destruct (eview s' k) as [e|] eqn:V; [|reflexivity].
    apply eview_some in V as (i & it' & V1 & V2 & V3 & _); [|exact C'].
    destruct (items s i) as [it0|] eqn:I0; [|exfalso; eapply (d_bwd _ _ D); eassumption].
    destruct (d_fwd _ _ D _ _ I0) as [x K1 K2 K3 K4 K5 K6|K1 [[K2 K3]|[K2 [x (X1 & X2 & X3 & X4)]]] K4|K1 K2 K3]; try congruence.
    apply content_eq in K2 as (K2 & _).
    assert (i = j) as -> by (apply (linked_uniq s i j it0 it); congruence). congruence.
  - destruct (eview s k) as [e|] eqn:V.
    + apply eview_some in V as (i & it & V1 & V2 & V3 & V4 & ->); [|exact C].
      destruct (d_fwd _ _ D _ _ V1) as [x K1 K2 K3 K4 K5 K6|K1 K2 [K4|[_ [K4 _]]]|K1 K2 K3]; try congruence.
      * assert (isvalid s' x = isvalid s it) by (eapply keep_valid'; eauto; congruence).
        pose proof (key_content _ _ K2). pose proof (entry_content _ _ K2).
        apply eview_some; [exact C'|]. exists i, x. repeat split; congruence.
      * exfalso. rewrite V3 in K4. assert (Q : existsb (beqb k) (map fst (evicted s')) = true) by (apply existsb_key; eauto). congruence.
    + destruct (eview s' k) as [e|] eqn:V'; [|reflexivity].
      apply eview_some in V' as (i & it' & V1 & V2 & V3 & V4 & ->); [|exact C'].
      destruct (items s i) as [it0|] eqn:I0; [|exfalso; eapply (d_bwd _ _ D); eassumption].
      destruct (d_fwd _ _ D _ _ I0) as [x K1 K2 K3 K4 K5 K6|K1 [[K2 K3]|[K2 [x (X1 & X2 & X3 & X4)]]] K4|K1 K2 K3]; try congruence.
      assert (x = it') by congruence. subst x.
      assert (isvalid s' it' = isvalid s it0) by (eapply keep_valid'; eauto; congruence).
      rewrite <- V. symmetry. pose proof (key_content _ _ K2). pose proof (entry_content _ _ K2).
      apply eview_some; [exact C|]. exists i, it0. repeat split; congruence.
Qed.

Lemma dn_evicted s s' k j : Core s -> Dn s s' -> evicted s = [] -> In (k, j) (evicted s') ->
  exists e, eview s k = Some e /\ e_exp e <> sticky_time.
Proof.
  intros C D E0 H. apply (d_ev' _ _ D) in H as [H|H]; [rewrite E0 in H; contradiction|].
  destruct H as (it & H1 & H2 & H3 & H4 & H5 & H6 & H7). exists (entry_of it). split.
  - apply eview_some; [exact C|]. exists j, it. auto.
  - unfold is_sticky in H6. cbn. lia.
Qed.

(* an item held by somebody stays, linked and valid *)
Lemma dn_ref_keep s s' i it : Core s -> Dn s s' -> items s i = Some it -> ilinked it = true ->
  isvalid s it = true -> iref it <> 0%nat ->
  exists it', items s' i = Some it' /\ ilinked it' = true /\ isvalid s' it' = true /\ content it' = content it /\
    iref it' = iref it.
Proof.
  intros C D Hi Hl V R.
  destruct (d_fwd _ _ D _ _ Hi) as [x K1 K2 K3 K4 K5 K6|K1 K2 [K4|[_ [_ [K4 _]]]]|K1 K2 K3]; try congruence.
  assert (isvalid s' x = isvalid s it) by (eapply keep_valid'; eauto; congruence).
  exists x. repeat split; congruence.
Qed.

Lemma dn_pend s s' i it : Dn s s' -> items s i = Some it -> ilinked it = false -> iref it <> 0%nat ->
  exists it', items s' i = Some it' /\ ilinked it' = false /\ content it' = content it.
Proof.
  intros D Hi Hl R.
  destruct (d_fwd _ _ D _ _ Hi) as [x K1 K2 K3 K4 K5 K6|K1 K2 K4|K1 K2 K3]; try congruence.
  exists x. repeat split; congruence.
Qed.

Lemma dn_short s s' : Dn s s' -> (forall i it, items s i = Some it -> short (ikey it)) ->
  forall i it, items s' i = Some it -> short (ikey it).
Proof.
  intros D H i it' E. destruct (items s i) as [it|] eqn:I0; [|exfalso; eapply (d_bwd _ _ D); eassumption].
  specialize (H _ _ I0).
  destruct (d_fwd _ _ D _ _ I0) as [x K1 K2 K3 K4 K5 K6|K1 [[K2 K3]|[K2 [x (X1 & X2 & X3 & X4)]]] K4|K1 K2 K3]; try congruence.
  - apply content_eq in K2 as (K2 & _). congruence.
  - apply content_eq in X2 as (X2 & _). congruence.
Qed.

Lemma update_spec s i it f : Core s -> items s i = Some it -> ilinked it = true -> notflushed s it = true ->
  Core (update s i f) /\ exists it', items (update s i f) i = Some it' /\ content it' = content it /\
    ilinked it' = true /\ iref it' = iref it /\ isvalid (update s i f) it' = isvalid s it /\
    (inlru it = true -> inlru it' = true) /\
    (forall j, j <> i -> items (update s i f) j = items s j) /\
    env_same s (update s i f) /\ pold (update s i f) = pold s /\ evicted (update s i f) = evicted s /\
    table (update s i f) = table s.
Proof.
  intros C Hi Hl V. unfold KvModel.update. rewrite Hi, Hl. cbn [negb].
  destruct (f || (itime it <? (now s - 60) mod 2 ^ 32)).
  2:{ split; [exact C|]. exists it. repeat split; auto. }
  destruct (unlink_q_spec lru_class maxcls s i it C Hi) as (C1 & EI & EL).
  destruct (unlink_q_env lru_class maxcls s i) as (A & B & D & F). set (s1 := unlink_q s i) in *.
  set (it1 := set_inlru it false).
  assert (H1 : items s1 i = Some it1).
  { rewrite EI. destruct (inlru it) eqn:Q; [apply fset_same|]. subst it1.
    rewrite Hi. f_equal. destruct it; cbn in *. subst. reflexivity. }
  rewrite H1. destruct A as (A1 & A2 & A3 & A4 & A5 & A6 & A7).
  set (it2 := set_time it1 (now s1)). set (s2 := set_item s1 i it2).
  assert (C2 : Core s2).
  { apply (core_upd _ _ s1 i it1); auto. right. split; [reflexivity|cbn; lia]. }
  assert (H2 : items s2 i = Some it2) by apply fset_same.
  destruct (link_q_spec lru_class maxcls s2 i it2 C2 H2 eq_refl Hl eq_refl) as [C3 EI3].
  destruct (link_q_env lru_class maxcls s2 i) as (G & G1 & G2 & G3). set (s3 := link_q s2 i) in *.
  split; [exact C3|]. exists (set_inlru it2 true).
  assert (ES : env_same s s3) by (apply (env_trans s s2); [repeat split; assumption|exact G]).
  destruct ES as (E1 & E2 & E3 & E4 & E5 & E6 & E7).
  split; [rewrite EI3; apply fset_same|]. split; [reflexivity|]. split; [exact Hl|]. split; [reflexivity|].
  assert (EP : pold s3 = pold s) by (rewrite G2; exact D).
  split.
  { rewrite (isvalid_env s) by assumption. subst it2 it1. rewrite A2.
    change (isvalid s (set_time it (now s)) = isvalid s it).
    apply valid_now'; [exact V|]. eapply c_tm; eassumption. }
  split; [auto|]. split.
  { intros j N. rewrite EI3, fset_other by exact N. cbn. rewrite fset_other by exact N. rewrite EI.
    destruct (inlru it); [apply fset_other; exact N|reflexivity]. }
  repeat split; try assumption; try (rewrite G3; exact F); try (rewrite G1; exact B).
Qed.

Lemma core_new s key d fl ex cas coll : Core s -> (coll = false -> exists v, d = v ++ [13; 10]%N) ->
  Core (w_next (set_item s (next_id s) (mkItem key d fl ex cas 0 false 1 false coll)) (S (next_id s))).
Proof.
  intros C Hd. set (i := next_id s). set (n := mkItem _ _ _ _ _ _ _ _ _ _). set (s' := w_next _ _).
  assert (Hn : items s i = None) by (apply (c_next _ _ _ C); subst i; lia).
  assert (EI : items s' = fset (items s) i (Some n)) by reflexivity.
  assert (Ne : forall j x, items s j = Some x -> j <> i) by congruence.
  assert (O : forall j x, items s' j = Some x -> j = i /\ x = n \/ j <> i /\ items s j = Some x).
  { intros j x H. rewrite EI in H. unfold fset in H. destruct (Nat.eqb_spec j i); [left; split; congruence|right; auto]. }
  assert (O2 : forall j x, items s j = Some x -> items s' j = Some x).
  { intros j x H. rewrite EI, fset_other by eauto. exact H. }
  destruct C. split; cbn [s' w_next set_item w_items bad next_id table lru lowmk curmk smk now casid]; try assumption.
  - intros j H. rewrite EI, fset_other by lia. apply c_next. subst i. lia.
  - intros k j. rewrite c_tab. split; intros (x & A & B & D).
    + exists x. auto.
    + apply O in A as [[-> ->]|[_ A]]; [discriminate|eauto].
  - intros b c j. rewrite c_lru. split; intros (x & A & B & D).
    + exists x. auto.
    + apply O in A as [[-> ->]|[_ A]]; [discriminate|eauto].
  - intros j x A Q. apply O in A as [[-> ->]|[_ A]]; [discriminate|eauto].
  - intros b c. eapply SSorted_ext; [apply c_srt|]. intros x y Hx Hy. unfold time_of. fold s'.
    apply c_lru in Hx as (a & Hx & _). apply c_lru in Hy as (e & Hy & _).
    rewrite (O2 _ _ Hx), (O2 _ _ Hy), Hx, Hy. auto.
  - intros j x A Q. apply O in A as [[-> ->]|[_ A]]; [discriminate|eauto].
  - intros j x A Q. apply O in A as [[-> ->]|[_ A]]; [auto|eauto].
  - intros j x A Q. apply O in A as [[-> ->]|[_ A]]; [discriminate|eauto].
  - intros j l x y A B La Lb. apply O in A as [[-> ->]|[_ A]]; [discriminate|].
    apply O in B as [[-> ->]|[_ B]]; [discriminate|]. eauto.
Qed.

Lemma core_cas s c : Core s -> (casid s <= c)%N -> Core (w_casid s c).
Proof.
  intros C H. destruct C. split; cbn [w_casid bad next_id items table lru lowmk curmk smk now casid]; try assumption.
  intros i it A B. specialize (c_casb i it A B). lia.
Qed.

(* ---- progress of one operation from state [base]; [X] are items it is allowed to change ---- *)
Section Op.
Variable base : state.
Variable X : list nat.

Record Sim (s : state) (refs : list nat) (f : bytes -> option entry) (ev : list (bytes * nat)) (ci : N) : Prop := {
  S_core : Core s;
  S_ref : RefInv s refs;
  S_view : forall k, eview s k = f k;
  S_pend : forall j it, ~ In j X -> items base j = Some it -> ilinked it = false ->
             (items s j = None /\ ~ In j refs) \/
             exists it', items s j = Some it' /\ ilinked it' = false /\ content it' = content it;
  S_new : forall j, items base j <> None -> (j < next_id s)%nat;
  S_short : forall i it, items s i = Some it -> short (ikey it);
  S_now : now s = now base;
  S_old : oldest s = oldest base;
  S_pold : forall q, pold s q = pold base q \/ pold s q = 0;
  S_held : held s = held base;
  S_lost : lost s = lost base;
  S_rep : repaired s = repaired base;
  S_cas : casid s = ci;
  S_ev : evicted s = ev;
  S_evg : forall k j, In (k, j) ev -> items s j = None }.

Lemma sim_dn_gen s s' refs f f' ev ci : Sim s refs f ev ci -> Core s' -> Dn s s' ->
  (forall k, eview s' k = f' k) -> (forall k j, In (k, j) (evicted s') -> items s' j = None) ->
  Sim s' refs f' (evicted s') ci.
Proof.
  intros S C' D Vw Eg. destruct S. destruct (d_env _ _ D) as (E1 & E2 & E3 & E4 & E5 & E6 & E7).
  split; try congruence.
  - eapply RefInv_Dn; eassumption.
  - intros j it NX B L. destruct (S_pend0 _ _ NX B L) as [[A1 A2]|(it1 & A1 & A2 & A3)].
    { left. split; [|exact A2]. destruct (items s' j) eqn:F; [|reflexivity].
      exfalso. eapply (d_bwd _ _ D); eassumption. }
    destruct (dn_pend s s' j it1 D A1 A2) as (it2 & B1 & B2 & B3).
    { intro Z. destruct (r_zero _ _ S_ref0 _ _ A1 Z). congruence. }
    right. exists it2. repeat split; congruence.
  - intros j H. rewrite E1. auto.
  - eapply dn_short; eassumption.
  - intro q. destruct (d_pold' _ _ D q) as [->| ->]; auto.
  - exact Eg.
Qed.

Lemma sim_dn s s' refs f ev ci : Sim s refs f ev ci -> Core s' -> Dn s s' -> evicted s' = evicted s ->
  Sim s' refs f ev ci.
Proof.
  intros S C' D E. pose proof S as S0. destruct S0. rewrite <- S_ev0, <- E.
  eapply sim_dn_gen; [exact S|exact C'|exact D| |].
  - intro k. rewrite <- S_view0. apply eview_ext; try assumption.
    + intros i it H L V. destruct (d_fwd _ _ D _ _ H) as [x K1 K2 K3 K4 K5 K6|K1 K2 [K4|[_ [K4 [K5 _]]]]|K1 K2 K3]; try congruence.
      * exists x. repeat split; try congruence.
        assert (isvalid s' x = isvalid s it) by (eapply keep_valid'; eauto; congruence). congruence.
      * exfalso. rewrite E, S_ev0 in K4. apply S_evg0 in K4. congruence.
    + intros i it' H L V. destruct (items s i) as [it0|] eqn:I0; [|exfalso; eapply (d_bwd _ _ D); eassumption].
      destruct (d_fwd _ _ D _ _ I0) as [x K1 K2 K3 K4 K5 K6|K1 [[K2 K3]|[K2 [x (X1 & X2 & X3 & X4)]]] K4|K1 K2 K3]; try congruence.
      assert (x = it') by congruence. subst x. exists it0. repeat split; try congruence.
      assert (isvalid s' it' = isvalid s it0) by (eapply keep_valid'; eauto; congruence). congruence.
  - intros k j H. rewrite E, S_ev0 in H. apply S_evg0 in H. destruct (items s' j) eqn:F; [|reflexivity].
    exfalso. eapply (d_bwd _ _ D); eassumption.
Qed.

(* a change to one item that keeps its content, link state and validity *)
Lemma sim_one s s' refs refs' f ev ci i it it' : Sim s refs f ev ci -> Core s' ->
  items s i = Some it -> items s' i = Some it' -> (forall j, j <> i -> items s' j = items s j) ->
  env_same s s' -> pold s' = pold s -> evicted s' = evicted s ->
  content it' = content it -> ilinked it' = ilinked it ->
  (ilinked it = true -> isvalid s' it' = isvalid s it) ->
  RefInv s' refs' -> incl refs' (i :: refs) -> Sim s' refs' f ev ci.
Proof.
  intros S C' Hi Hi' Ho (E1 & E2 & E3 & E4 & E5 & E6 & E7) EP EV EC EL EVd RI IN.
  pose proof S as S0. destruct S.
  assert (VO : forall x, isvalid s' x = isvalid s x).
  { intro x. unfold isvalid. rewrite E2, E3, EP. reflexivity. }
  assert (B1 : forall j x, items s j = Some x -> exists y, items s' j = Some y /\ ilinked y = ilinked x /\ content y = content x /\
             (ilinked x = true -> isvalid s' y = isvalid s x)).
  { intros j x H. destruct (Nat.eq_dec j i) as [->|N].
    - assert (x = it) by congruence. subst x. exists it'. auto.
    - exists x. rewrite Ho by exact N. auto. }
  assert (B2 : forall j y, items s' j = Some y -> exists x, items s j = Some x /\ ilinked y = ilinked x /\ content y = content x /\
             (ilinked x = true -> isvalid s' y = isvalid s x)).
  { intros j y H. destruct (items s j) as [x|] eqn:Hj.
    - destruct (B1 _ _ Hj) as (z & Z1 & Z2). assert (z = y) by congruence. subst z. exists x. auto.
    - destruct (Nat.eq_dec j i) as [->|N]; [congruence|]. rewrite Ho in H by exact N. congruence. }
  split; try congruence.
  - intro k. rewrite <- S_view0. apply eview_ext; try assumption.
    + intros j x H L V. destruct (B1 _ _ H) as (y & Y1 & Y2 & Y3 & Y4). exists y. rewrite Y4 by exact L. repeat split; congruence.
    + intros j y H L V. destruct (B2 _ _ H) as (x & Y1 & Y2 & Y3 & Y4). exists x.
      rewrite <- Y4 by congruence. repeat split; congruence.
  - intros j x NX B L. destruct (S_pend0 _ _ NX B L) as [[A1 A2]|(y & Y1 & Y2 & Y3)].
    { left. destruct (Nat.eq_dec j i) as [->|N]; [congruence|]. rewrite Ho by exact N. split; [exact A1|].
      intro H. apply IN in H as [H|H]; congruence. }
    destruct (B1 _ _ Y1) as (z & Z1 & Z2 & Z3 & _). right. exists z. repeat split; congruence.
  - intros j H. rewrite E1. auto.
  - intros j y H. destruct (B2 _ _ H) as (x & Y1 & Y2 & Y3 & Y4). apply content_eq in Y3 as (Y3 & _).
    rewrite Y3. eauto.
  - intro q. rewrite EP. auto.
  - intros k j H. apply S_evg0 in H. destruct (items s' j) eqn:F; [|reflexivity].
    destruct (B2 _ _ F) as (x & Y & _). congruence.
Qed.
Lemma sim_get s refs f ev ci k upd s' o : Sim s refs f ev ci -> do_get s k upd = (s', o) ->
  match o with
  | None => f k = None /\ Sim s' refs f ev ci /\ tfind k (table s') = None
  | Some i => exists it', items s' i = Some it' /\ ilinked it' = true /\ ikey it' = k /\ isvalid s' it' = true /\
      f k = Some (entry_of it') /\ Sim s' (i :: refs) f ev ci /\
      (exists it, items s i = Some it /\ ilinked it = true /\ content it' = content it)
  end.
Proof.
  intros S. pose proof (S_core _ _ _ _ _ S) as C. unfold KvModel.do_get.
  destruct (tfind k (table s)) as [i|] eqn:T.
  2:{ injection 1 as <- <-. split; [|auto]. rewrite <- (S_view _ _ _ _ _ S). unfold eview. rewrite T. reflexivity. }
  pose proof T as T0. apply find_linked in T as (it & Hi & Hl & Hk); [|exact C]. rewrite Hi.
  destruct (isvalid s it) eqn:V.
  - set (it1 := set_ref it (Datatypes.S (iref it))). set (s1 := set_item s i it1).
    assert (C1 : Core s1) by (apply (core_upd _ _ s i it); auto).
    assert (H1 : items s1 i = Some it1) by apply fset_same.
    assert (Ho1 : forall j, j <> i -> items s1 j = items s j) by (intros j N; apply fset_other; exact N).
    assert (K : f k = Some (entry_of it)).
    { rewrite <- (S_view _ _ _ _ _ S). unfold eview. rewrite T0, Hi, V. reflexivity. }
    assert (S1 : Sim s1 (i :: refs) f ev ci).
    { eapply sim_one; [exact S|exact C1|exact Hi|exact H1|exact Ho1|repeat split|reflexivity|reflexivity|reflexivity|reflexivity|intros _; reflexivity| |].
      - eapply ref_one; [apply S|exact H1|exact Ho1| | |].
        + rewrite count_cons_eq. cbn. f_equal. apply (r_cnt _ _ (S_ref _ _ _ _ _ S)). exact Hi.
        + intros j N. apply count_cons_ne. exact N.
        + discriminate.
      - apply incl_refl. }
    destruct upd; injection 1 as <- <-.
    + destruct (update_spec s1 i it1 false C1 H1 Hl (valid_notflushed s1 it1 V)) as (C2 & it2 & U1 & U2 & U3 & U4 & U5 & U6 & U7 & U8 & U9 & U10 & U11).
      exists it2. split; [exact U1|]. split; [exact U3|]. split; [apply key_content in U2; rewrite U2; exact Hk|].
      split; [rewrite U5; exact V|]. split; [rewrite (entry_content _ _ U2); exact K|].
      split; [|exists it; auto].
      eapply sim_one; [exact S1|exact C2|exact H1|exact U1|exact U7|exact U8|exact U9|exact U10|exact U2| | | |].
      * rewrite U3. symmetry. exact Hl.
      * intros _. exact U5.
      * eapply ref_one; [apply S1|exact U1|exact U7| |reflexivity|].
        -- rewrite U4. apply (r_cnt _ _ (S_ref _ _ _ _ _ S1)). exact H1.
        -- rewrite U4. discriminate.
      * apply incl_tl, incl_refl.
    + exists it1. repeat (split; [assumption|]). exists it. auto.
  - injection 1 as <- <-. destruct (unlink_dn lru_class maxcls s i it C Hi V) as [C1 D1].
    destruct (unlink_spec lru_class maxcls s i it C Hi Hl) as (_ & _ & _ & UT & _ & _ & UE & _).
    split; [rewrite <- (S_view _ _ _ _ _ S); unfold eview; rewrite T0, Hi, V; reflexivity|].
    split; [eapply sim_dn; eassumption|].
    rewrite UT, Hk. destruct (tfind k (tdel k (table s))) eqn:F; [|reflexivity].
    apply tfind_In, In_tdel in F as [_ F]. cbn in F. congruence.
Qed.

Lemma sim_release s i refs f ev ci : Sim s (i :: refs) f ev ci -> Sim (release s i) refs f ev ci.
Proof.
  intro S. pose proof (S_core _ _ _ _ _ S) as C. unfold KvModel.release.
  destruct (items s i) as [it|] eqn:Hi.
  2:{ exfalso. apply (r_in _ _ (S_ref _ _ _ _ _ S) i); [left; reflexivity|exact Hi]. }
  pose proof (r_cnt _ _ (S_ref _ _ _ _ _ S) _ _ Hi) as RC. rewrite count_cons_eq in RC.
  set (it1 := set_ref it (Nat.pred (iref it))). set (s1 := set_item s i it1).
  assert (C1 : Core s1) by (apply (core_upd _ _ s i it); auto).
  assert (H1 : items s1 i = Some it1) by apply fset_same.
  assert (Ho1 : forall j, j <> i -> items s1 j = items s j) by (intros j N; apply fset_other; exact N).
  assert (Rc1 : iref it1 = count_occ Nat.eq_dec refs i) by (cbn; rewrite RC; reflexivity).
  assert (Oc : forall j, j <> i -> count_occ Nat.eq_dec refs j = count_occ Nat.eq_dec (i :: refs) j).
  { intros j N. symmetry. apply count_cons_ne. exact N. }
  assert (IN : incl refs (i :: i :: refs)) by (do 2 apply incl_tl; apply incl_refl).
  (* when the last reference goes: facts about the next state that give the invariant *)
  destruct (Nat.eqb_spec (iref it1) 0) as [Z|NZ].
  2:{ eapply sim_one; [exact S|exact C1|exact Hi|exact H1|exact Ho1|repeat split|reflexivity|reflexivity|reflexivity|reflexivity|intros _; reflexivity| |exact IN].
      eapply ref_one; [apply S|exact H1|exact Ho1|exact Rc1|exact Oc|]. intro; contradiction. }
  assert (NI : ~ In i refs) by (apply count_occ_not_In with (eq_dec := Nat.eq_dec); congruence).
  change (ilinked it1) with (ilinked it). change (inlru it1) with (inlru it).
  destruct (ilinked it) eqn:Hl; cbn [negb].
  - destruct (inlru it) eqn:Hq; cbn [negb].
    + eapply sim_one; [exact S|exact C1|exact Hi|exact H1|exact Ho1|repeat split|reflexivity|reflexivity|reflexivity|reflexivity|intros _; reflexivity| |exact IN].
      eapply ref_one; [apply S|exact H1|exact Ho1|exact Rc1|exact Oc|]. intros _. split; assumption.
    + destruct (isvalid s1 it1) eqn:V.
      * set (it2 := set_time it1 (now s1)). set (s2 := set_item s1 i it2).
        assert (C2 : Core s2).
        { apply (core_upd _ _ s1 i it1); auto. right. split; [exact Hq|cbn; lia]. }
        assert (H2 : items s2 i = Some it2) by apply fset_same.
        destruct (link_q_spec lru_class maxcls s2 i it2 C2 H2 Hq Hl eq_refl) as [C3 EI3].
        destruct (link_q_env lru_class maxcls s2 i) as (G & G1 & G2 & G3). set (s3 := link_q s2 i) in *.
        assert (H3 : items s3 i = Some (set_inlru it2 true)) by (rewrite EI3; apply fset_same).
        assert (Ho3 : forall j, j <> i -> items s3 j = items s j).
        { intros j N. rewrite EI3, fset_other by exact N. cbn. rewrite !fset_other by exact N. reflexivity. }
        assert (ES : env_same s s3) by exact G.
        eapply sim_one; [exact S|exact C3|exact Hi|exact H3|exact Ho3|exact ES|exact G2|exact G3|reflexivity|reflexivity| | |exact IN].
        -- intros _. destruct ES as (E1 & E2 & E3 & _). rewrite (isvalid_env s) by assumption.
           change (isvalid s (set_time it (now s)) = isvalid s it).
           assert (Vs : isvalid s it = true) by exact V. rewrite Vs.
           apply valid_now; [exact Vs|]. eapply c_tm; eassumption.
        -- eapply ref_one; [apply S|exact H3|exact Ho3|exact Rc1|exact Oc|]. intros _. split; [exact Hl|reflexivity].
      * destruct (unlink_dn lru_class maxcls s1 i it1 C1 H1 V) as [C2 D2].
        destruct (unlink_spec lru_class maxcls s1 i it1 C1 H1 Hl) as (_ & U & Uo & UT & UL & UE & UV & UP).
        rewrite Z in U. cbn [Nat.eqb] in U.
        assert (Ho2 : forall j, j <> i -> items (unlink s1 i) j = items s j).
        { intros j N. rewrite Uo by exact N. apply Ho1; exact N. }
        destruct UE as (E1 & E2 & E3 & E4 & E5 & E6 & E7). pose proof S as S0. destruct S0.
        split; try congruence.
        -- eapply ref_gone; [exact S_ref0|exact U|exact Ho2|congruence|exact Oc].
        -- intro k. rewrite <- S_view0. apply eview_ext; try assumption.
           ++ intros j x H L Vx. destruct (Nat.eq_dec j i) as [->|N].
              { assert (x = it) by congruence. subst x. change (isvalid s1 it1) with (isvalid s it) in V. congruence. }
              exists x. rewrite Ho2 by exact N. repeat split; auto.
              assert (Hx : items (unlink s1 i) j = Some x) by (rewrite Ho2 by exact N; exact H).
              pose proof (pold_linked lru_class maxcls s1 _ C2 UP _ _ Hx L) as PP.
              unfold isvalid in *. rewrite E2, E3, PP. exact Vx.
           ++ intros j x H L Vx. destruct (Nat.eq_dec j i) as [->|N]; [congruence|].
              pose proof (pold_linked lru_class maxcls s1 _ C2 UP _ _ H L) as PP.
              rewrite Ho2 in H by exact N. exists x. repeat split; auto.
              unfold isvalid in *. rewrite E2, E3, PP in Vx. exact Vx.
        -- intros j x NX B L. destruct (S_pend0 _ _ NX B L) as [[A1 A2]|(y & A1 & A2 & A3)].
           ++ left. assert (j <> i) by congruence. rewrite Ho2 by assumption. split; [exact A1|].
              intro; apply A2; right; assumption.
           ++ right. exists y. rewrite Ho2 by congruence. auto.
        -- intros j H. rewrite E1. apply S_new0. exact H.
        -- intros j x H. destruct (Nat.eq_dec j i) as [->|N]; [congruence|]. rewrite Ho2 in H by exact N. eauto.
        -- rewrite E2. exact S_now0.
        -- rewrite E3. exact S_old0.
        -- intro q. destruct (UP q) as [->|[-> _]]; [apply S_pold0|auto].
        -- rewrite E5. exact S_held0.
        -- rewrite E6. exact S_lost0.
        -- rewrite E7. exact S_rep0.
        -- rewrite E4. exact S_cas0.
        -- rewrite UV. exact S_ev0.
        -- intros k j H. pose proof (S_evg0 _ _ H). destruct (Nat.eq_dec j i) as [->|N]; [congruence|].
           rewrite Ho2 by exact N. assumption.
  - rewrite (free_spec lru_class maxcls s1 i it1 C1 H1 Hl Z).
    pose proof (core_free lru_class maxcls s1 i it1 C1 H1 Hl) as C2.
    set (s2 := w_items s1 _) in *.
    assert (Hi2 : items s2 i = None) by apply fset_same.
    assert (Ho2 : forall j, j <> i -> items s2 j = items s j).
    { intros j N. cbn. rewrite !fset_other by exact N. reflexivity. }
    pose proof S as S0. destruct S0. split; try assumption.
    + eapply ref_gone; [exact S_ref0|exact Hi2|exact Ho2|congruence|exact Oc].
    + intro k. rewrite <- S_view0. apply eview_ext; try assumption.
      * intros j x H L Vx. exists x. rewrite Ho2 by congruence. auto.
      * intros j x H L Vx. destruct (Nat.eq_dec j i) as [->|N]; [congruence|]. rewrite Ho2 in H by exact N. exists x. auto.
    + intros j x NX B L. destruct (Nat.eq_dec j i) as [->|N]; [left; auto|].
      destruct (S_pend0 _ _ NX B L) as [[A1 A2]|(y & A1 & A2 & A3)].
      * left. rewrite Ho2 by assumption. split; [exact A1|]. intro; apply A2; right; assumption.
      * right. exists y. rewrite Ho2 by assumption. auto.
    + intros j x H. destruct (Nat.eq_dec j i) as [->|N]; [congruence|]. rewrite Ho2 in H by exact N. eauto.
    + intros k j H. pose proof (S_evg0 _ _ H). destruct (Nat.eq_dec j i) as [->|N]; [congruence|].
      rewrite Ho2 by exact N. assumption.
Qed.
Lemma sim_casid s refs f ev ci c : Sim s refs f ev ci -> (ci <= c)%N -> Sim (w_casid s c) refs f ev c.
Proof.
  intros S H. destruct S. split; try assumption; try reflexivity.
  - apply core_cas; [assumption|]. rewrite S_cas0. exact H.
  - destruct S_ref0. split; assumption.
Qed.

(* item [i] stays linked under its key but its entry may change *)
Lemma sim_chg s s' refs f ev ci i it it' : Sim s refs f ev ci -> Core s' ->
  items s i = Some it -> ilinked it = true -> items s' i = Some it' -> ilinked it' = true -> ikey it' = ikey it ->
  iref it' = iref it -> (inlru it = true -> inlru it' = true) -> (forall j, j <> i -> items s' j = items s j) ->
  env_same s s' -> pold s' = pold s -> evicted s' = evicted s ->
  Sim s' refs (put f (ikey it) (if isvalid s' it' then Some (entry_of it') else None)) ev ci.
Proof.
  intros S C' Hi Hl Hi' Hl' Hk Hr Hq Ho (E1 & E2 & E3 & E4 & E5 & E6 & E7) EP EV.
  pose proof S as S0. destruct S0.
  split; try congruence.
  - eapply ref_one; [exact S_ref0|exact Hi'|exact Ho| |reflexivity|].
    + rewrite Hr. apply (r_cnt _ _ S_ref0). exact Hi.
    + rewrite Hr. intro Z. destruct (r_zero _ _ S_ref0 _ _ Hi Z). auto.
  - intro k. unfold put. destruct (beqb k (ikey it)) eqn:B.
    + apply beqb_eq in B. subst k. unfold eview.
      assert (T : tfind (ikey it) (table s') = Some i) by (apply find_linked; [exact C'|exists it'; auto]).
      rewrite T, Hi'. reflexivity.
    + apply beqb_neq in B. rewrite <- S_view0.
      destruct (eview s k) as [e|] eqn:V.
      * apply eview_some in V as (j & x & V1 & V2 & V3 & V4 & ->); [|exact S_core0].
        apply eview_some; [exact C'|]. exists j, x. rewrite Ho by congruence. rewrite (isvalid_env s) by assumption. auto.
      * destruct (eview s' k) as [e|] eqn:V'; [|reflexivity].
        apply eview_some in V' as (j & x & V1 & V2 & V3 & V4 & ->); [|exact C'].
        assert (j <> i) by (intros ->; congruence). rewrite Ho in V1 by assumption. rewrite (isvalid_env s) in V4 by assumption.
        rewrite <- V. symmetry. apply eview_some; [exact S_core0|]. exists j, x. auto.
  - intros j x NX B L. destruct (S_pend0 _ _ NX B L) as [[A1 A2]|(y & Y1 & Y2 & Y3)].
    + left. rewrite Ho by congruence. auto.
    + right. exists y. rewrite Ho by congruence. auto.
  - intros j H. rewrite E1. auto.
  - intros j y H. destruct (Nat.eq_dec j i) as [->|N].
    + assert (y = it') by congruence. subst y. rewrite Hk. eauto.
    + rewrite Ho in H by exact N. eauto.
  - intro q. rewrite EP. auto.
  - intros k j H. apply S_evg0 in H. rewrite Ho by congruence. exact H.
Qed.

(* item [i], held by the caller, leaves the cache *)
Lemma sim_out s s' refs f ev ci i it it' : Sim s refs f ev ci -> Core s' ->
  items s i = Some it -> ilinked it = true -> iref it <> 0%nat -> items s' i = Some it' -> ilinked it' = false ->
  content it' = content it ->
  iref it' = iref it -> (forall j, j <> i -> items s' j = items s j) ->
  env_same s s' -> 
  (forall j x, items s' j = Some x -> ilinked x = true -> pold s' (pfx (ikey x)) = pold s (pfx (ikey x))) ->
  (forall q, pold s' q = pold s q \/ pold s' q = 0) -> evicted s' = evicted s ->
  Sim s' refs (put f (ikey it) None) ev ci.
Proof.
  intros S C' Hi Hl Hz Hi' Hl' Hk Hr Ho (E1 & E2 & E3 & E4 & E5 & E6 & E7) EP EP2 EV.
  pose proof S as S0. destruct S0. apply key_content in Hk.
  assert (VO : forall j x, items s' j = Some x -> ilinked x = true -> isvalid s' x = isvalid s x).
  { intros j x H L. unfold isvalid. rewrite E2, E3, (EP _ _ H L). reflexivity. }
  split; try congruence.
  - eapply ref_one; [exact S_ref0|exact Hi'|exact Ho| |reflexivity|].
    + rewrite Hr. apply (r_cnt _ _ S_ref0). exact Hi.
    + rewrite Hr. intro Z. contradiction.
  - intro k. unfold put. destruct (beqb k (ikey it)) eqn:B.
    + apply beqb_eq in B. subst k. destruct (eview s' (ikey it)) as [e|] eqn:V; [|reflexivity].
      apply eview_some in V as (j & x & V1 & V2 & V3 & _); [|exact C'].
      assert (N : j <> i) by (intros ->; congruence). rewrite Ho in V1 by exact N. exfalso. apply N.
      apply (linked_uniq s j i x it); auto.
    + apply beqb_neq in B. rewrite <- S_view0.
      destruct (eview s k) as [e|] eqn:V.
      * apply eview_some in V as (j & x & V1 & V2 & V3 & V4 & ->); [|exact S_core0].
        assert (Hx : items s' j = Some x) by (rewrite Ho by congruence; exact V1).
        apply eview_some; [exact C'|]. exists j, x. rewrite (VO j) by assumption. auto.
      * destruct (eview s' k) as [e|] eqn:V'; [|reflexivity].
        apply eview_some in V' as (j & x & V1 & V2 & V3 & V4 & ->); [|exact C'].
        rewrite (VO j) in V4 by assumption.
        assert (j <> i) by (intros ->; congruence). rewrite Ho in V1 by assumption.
        rewrite <- V. symmetry. apply eview_some; [exact S_core0|]. exists j, x. auto.
  - intros j x NX B L. destruct (S_pend0 _ _ NX B L) as [[A1 A2]|(y & Y1 & Y2 & Y3)].
    + left. rewrite Ho by congruence. auto.
    + right. exists y. rewrite Ho by congruence. auto.
  - intros j H. rewrite E1. auto.
  - intros j y H. destruct (Nat.eq_dec j i) as [->|N].
    + assert (y = it') by congruence. subst y. rewrite Hk. eauto.
    + rewrite Ho in H by exact N. eauto.
  - intro q. destruct (EP2 q) as [->| ->]; auto.
  - intros k j H. apply S_evg0 in H. rewrite Ho by congruence. exact H.
Qed.

Definition flush_past : Prop := 2 <= now base /\ oldest base < now base /\ forall q, pold base q < now base.

Lemma fresh_valid s refs f ev ci it : flush_past -> Sim s refs f ev ci -> itime it = now s ->
  (if isvalid s it then Some (entry_of it) else None) = live (now base) (entry_of it).
Proof.
  intros (F0 & F1 & F2) S T. unfold live, alive. cbn [entry_of e_exp].
  assert (NF : notflushed s it = true).
  { unfold notflushed, flushed_by. rewrite T, (S_now _ _ _ _ _ S), (S_old _ _ _ _ _ S).
    destruct (S_pold _ _ _ _ _ S (pfx (ikey it))) as [-> | ->]; specialize (F2 (pfx (ikey it))); lia. }
  rewrite isvalid_split, NF. unfold notexpired. rewrite (S_now _ _ _ _ _ S).
  destruct (iexp it =? 0) eqn:Z; cbn; [reflexivity|].
  destruct (iexp it <=? now base) eqn:Q; destruct (now base <? iexp it) eqn:Q'; try lia; reflexivity.
Qed.

Lemma sim_attach s refs f ev ci i it : flush_past -> Sim s refs f ev ci -> items s i = Some it -> ilinked it = false ->
  (In i X \/ items base i = None) -> tfind (ikey it) (table s) = None -> (0 < ci)%N ->
  (forall j x, items s j = Some x -> ilinked x = true -> (icas x < ci)%N) ->
  Sim (attach s i ci) refs (put f (ikey it) (live (now base) (entry_of (set_cas it ci)))) ev ci /\
  cas_of (attach s i ci) i = ci /\
  (forall j, j <> i -> items (attach s i ci) j = items s j).
Proof.
  intros FP S Hi Hl HX T Hc Hnew. pose proof S as S0. destruct S0.
  destruct (attach_spec lru_class maxcls s i it ci S_core0 Hi Hl T ltac:(lia) Hnew)
    as (C' & Hi' & Ho & ET & (E1 & E2 & E3 & E4 & E5 & E6 & E7) & EP & EV).
  set (s' := attach s i ci) in *. set (it' := set_inlru _ true) in Hi'.
  split; [|split; [unfold cas_of; rewrite Hi'; reflexivity|exact Ho]].
  assert (S' : Sim s' refs (eview s') ev ci).
  { split; try congruence.
    - eapply ref_one; [exact S_ref0|exact Hi'|exact Ho| |reflexivity|].
      + cbn. apply (r_cnt _ _ S_ref0). exact Hi.
      + intros _. split; reflexivity.
    - intros j x NX B L. destruct (S_pend0 _ _ NX B L) as [[A1 A2]|(y & Y1 & Y2 & Y3)].
      + left. rewrite Ho by congruence. auto.
      + right. exists y. rewrite Ho; [auto|]. intros ->. destruct HX; [contradiction|congruence].
    - intros j H. rewrite E1. auto.
    - intros j y H. destruct (Nat.eq_dec j i) as [->|N].
      + assert (y = it') by congruence. subst y. cbn. eapply S_short0. exact Hi.
      + rewrite Ho in H by exact N. eauto.
    - intro q. rewrite EP. auto.
    - intros k j H. apply S_evg0 in H. rewrite Ho by congruence. exact H. }
  pose proof (fresh_valid s' refs _ ev ci it' FP S' (eq_sym E2)) as FV.
  destruct S'. split; try assumption.
  intro k. unfold put. destruct (beqb k (ikey it)) eqn:B.
  - apply beqb_eq in B. subst k. unfold eview.
    assert (T' : tfind (ikey it) (table s') = Some i) by (apply find_linked; [exact C'|exists it'; auto]).
    rewrite T', Hi'. exact FV.
  - apply beqb_neq in B. rewrite <- S_view0.
    destruct (eview s k) as [e|] eqn:V.
    + apply eview_some in V as (j & x & V1 & V2 & V3 & V4 & ->); [|exact S_core0].
      apply eview_some; [exact C'|]. exists j, x. rewrite Ho by congruence. rewrite (isvalid_env s) by assumption. auto.
    + destruct (eview s' k) as [e|] eqn:V'; [|reflexivity].
      apply eview_some in V' as (j & x & V1 & V2 & V3 & V4 & ->); [|exact C'].
      assert (N : j <> i).
      { intros ->. assert (x = it') by congruence. subst x. cbn in V3. congruence. }
      rewrite Ho in V1 by exact N. rewrite (isvalid_env s) in V4 by assumption.
      rewrite <- V. symmetry. apply eview_some; [exact S_core0|]. exists j, x. auto.
Qed.

Lemma sim_link s refs f ev ci i it s' c : flush_past -> Sim s refs f ev ci -> items s i = Some it -> ilinked it = false ->
  (In i X \/ items base i = None) -> tfind (ikey it) (table s) = None -> link s i = (s', c) ->
  (c = SUCCESS /\ cas_of s' i = N.succ ci /\
     Sim s' refs (put f (ikey it) (live (now base) (entry_of (set_cas it (N.succ ci))))) ev (N.succ ci)) \/
  (c = ENAME /\ bad_prefix_name (ikey it) /\ Sim s' refs f ev (N.succ ci)).
Proof.
  intros FP S Hi Hl HX T. unfold KvModel.link. rewrite Hi, Hl, (S_cas _ _ _ _ _ S).
  assert (S1 : Sim (w_casid s (N.succ ci)) refs f ev (N.succ ci)) by (apply (sim_casid s refs f ev ci); [exact S|lia]).
  destruct (match pfx (ikey it) with Some p => _ | None => true end) eqn:B; cbn [negb]; injection 1 as <- <-.
  - left. split; [reflexivity|].
    destruct (sim_attach (w_casid s (N.succ ci)) refs f ev (N.succ ci) i it FP S1 Hi Hl HX T) as (A1 & A2 & _); [lia| |auto].
    intros j x H L. pose proof (c_casb _ _ _ (S_core _ _ _ _ _ S) j x H L). rewrite (S_cas _ _ _ _ _ S) in *. lia.
  - right. split; [reflexivity|]. split.
    + destruct (pfx (ikey it)) as [p|] eqn:P; [|discriminate]. apply orb_false_elim in B as [_ B].
      exists p. split; [|exact B]. apply pfx_has; [eapply (S_short _ _ _ _ _ S); exact Hi|exact P].
    + set (s1 := w_casid s (N.succ ci)) in *. set (it' := set_cas it (N.succ ci)).
      assert (Hi' : items (set_item s1 i it') i = Some it') by apply fset_same.
      assert (Ho : forall j, j <> i -> items (set_item s1 i it') j = items s j) by (intros j N; apply fset_other; exact N).
      assert (C1 : Core (set_item s1 i it')).
      { apply (core_upd _ _ s1 i it); auto; [apply S1|]. congruence. }
      pose proof S1 as S0. destruct S0. split; try assumption.
      * eapply ref_one; [exact S_ref0|exact Hi'|exact Ho| |reflexivity|].
        -- cbn. apply (r_cnt _ _ S_ref0). exact Hi.
        -- cbn. intro Z. exact (r_zero _ _ S_ref0 _ _ Hi Z).
      * intro k. rewrite <- S_view0. apply eview_ext; try assumption.
        -- intros j x H L V. exists x. assert (j <> i) by (intros ->; cbn in H; congruence). rewrite Ho by assumption. auto.
        -- intros j x H L V. assert (N : j <> i).
           { intros ->. assert (x = it') by congruence. subst x. cbn in L. congruence. }
           rewrite Ho in H by exact N. exists x. auto.
      * intros j x NX B' L. destruct (S_pend0 _ _ NX B' L) as [[A1 A2]|(y & Y1 & Y2 & Y3)].
        -- left. cbn in A1. rewrite Ho by congruence. auto.
        -- right. exists y. rewrite Ho; [auto|]. intros ->. destruct HX; [contradiction|congruence].
      * intros j y H. destruct (Nat.eq_dec j i) as [->|N].
        -- assert (y = it') by congruence. subst y. cbn. eapply S_short0. exact Hi.
        -- rewrite Ho in H by exact N. eapply S_short0. exact H.
      * intros k j H. apply S_evg0 in H. cbn in H. rewrite Ho by congruence. exact H.
Qed.

Lemma sim_replace s refs f ev ci old o i it : flush_past -> Sim s refs f ev ci ->
  items s old = Some o -> ilinked o = true -> In old refs ->
  items s i = Some it -> ilinked it = false -> ikey it = ikey o -> (In i X \/ items base i = None) ->
  Sim (replace s old i) refs (put f (ikey it) (live (now base) (entry_of (set_cas it (N.succ ci))))) ev (N.succ ci) /\
  cas_of (replace s old i) i = N.succ ci.
Proof.
  intros FP S Ho Hlo Hin Hi Hl Hk HX. unfold KvModel.replace. rewrite Ho, Hi, Hlo, Hl, Hk, beqb_refl. cbn [negb orb].
  pose proof S as S0. destruct S0.
  destruct (unlink_q_spec lru_class maxcls s old o S_core0 Ho) as (C1 & EI & EL).
  destruct (unlink_q_env lru_class maxcls s old) as (A & B & D & F). set (s1 := unlink_q s old) in *.
  set (o1 := set_inlru o false).
  assert (H1 : items s1 old = Some o1).
  { rewrite EI. destruct (inlru o) eqn:Q; [apply fset_same|]. subst o1.
    rewrite Ho. f_equal. destruct o; cbn in *. subst. reflexivity. }
  assert (Hz : iref o <> 0%nat).
  { rewrite (r_cnt _ _ S_ref0 _ _ Ho). apply count_occ_In with (eq_dec := Nat.eq_dec) in Hin. lia. }
  assert (S1 : Sim s1 refs f ev ci).
  { eapply sim_dn; [exact S|exact C1| |exact F]. eapply unlink_q_dn; eassumption. }
  rewrite (S_cas _ _ _ _ _ S1).
  set (s1c := w_casid s1 (N.succ ci)).
  assert (S1c : Sim s1c refs f ev (N.succ ci)) by (apply (sim_casid s1 refs f ev ci); [exact S1|lia]).
  change (items (w_table s1c (tdel (ikey o) (table s1))) old) with (items s1 old). rewrite H1.
  set (s3 := set_item _ old _).
  assert (C3 : Core s3) by (apply (core_detach lru_class maxcls s1c old o1); [apply S1c|exact H1|exact Hlo|reflexivity]).
  destruct (Nat.eqb_spec (iref o) 0) as [Z|_]; [contradiction|].
  assert (H3 : items s3 old = Some (set_linked o1 false)) by apply fset_same.
  assert (Ho3 : forall j, j <> old -> items s3 j = items s1c j) by (intros j N; apply fset_other; exact N).
  assert (S3 : Sim s3 refs (put f (ikey o1) None) ev (N.succ ci)).
  { eapply sim_out; [exact S1c|exact C3|exact H1|exact Hlo|exact Hz|exact H3|reflexivity|reflexivity|reflexivity|exact Ho3|repeat split|reflexivity|auto|reflexivity]. }
  assert (N : i <> old) by congruence.
  assert (Hi3 : items s3 i = Some it).
  { rewrite Ho3 by exact N. cbn. rewrite EI. destruct (inlru o); [rewrite fset_other by exact N|]; exact Hi. }
  assert (T3 : tfind (ikey it) (table s3) = None).
  { rewrite Hk. cbn. destruct (tfind (ikey o) (tdel (ikey o) (table s1))) eqn:Q; [|reflexivity].
    apply tfind_In, In_tdel in Q as [_ Q]. cbn in Q. congruence. }
  destruct (sim_attach s3 refs _ ev (N.succ ci) i it FP S3 Hi3 Hl HX T3) as (S4 & A2 & _); [lia| |].
  { intros j x H L. assert (Nj : j <> old) by (intros ->; assert (x = set_linked o1 false) by congruence; subst x; discriminate).
    rewrite Ho3 in H by exact Nj. pose proof (c_casb _ _ _ (S_core _ _ _ _ _ S1) j x H L) as Q.
    rewrite (S_cas _ _ _ _ _ S1) in Q. lia. }
  split; [|exact A2]. destruct S4. split; try assumption.
  intro k. rewrite S_view1. unfold put. cbn. rewrite Hk. destruct (beqb k (ikey o)); reflexivity.
Qed.

Lemma sim_unlink s refs f ev ci i it : Sim s refs f ev ci -> items s i = Some it -> ilinked it = true -> In i refs ->
  Sim (unlink s i) refs (put f (ikey it) None) ev ci.
Proof.
  intros S Hi Hl Hin. pose proof S as S0. destruct S0.
  assert (Hz : iref it <> 0%nat).
  { rewrite (r_cnt _ _ S_ref0 _ _ Hi). apply count_occ_In with (eq_dec := Nat.eq_dec) in Hin. lia. }
  destruct (unlink_spec lru_class maxcls s i it S_core0 Hi Hl) as (C1 & U & Uo & UT & UL & UE & UV & UP).
  destruct (Nat.eqb_spec (iref it) 0); [contradiction|].
  eapply sim_out; [exact S|exact C1|exact Hi|exact Hl|exact Hz|exact U|reflexivity|reflexivity|reflexivity|exact Uo|exact UE| | |exact UV].
  - apply (pold_linked lru_class maxcls); assumption.
  - intro q. destruct (UP q) as [?|[? _]]; auto.
Qed.

Variable evict_on : bool.
Notation alloc := (alloc lru_class maxcls evict_on).
Lemma sim_alloc s refs f ci coll key fl ex d cas orc s' o : Sim s refs f [] ci -> repaired base = false -> short key ->
  (coll = false -> exists v, d = v ++ [13; 10]%N) ->
  alloc s coll key fl ex d cas orc = (s', o) -> repaired s' = false ->
  (forall k j, In (k, j) (evicted s') -> exists e, f k = Some e /\ e_exp e <> sticky_time) /\
  (forall i it, items s i = Some it -> ilinked it = true -> isvalid s it = true -> In i refs ->
     (forall j, ~ In (ikey it, j) (evicted s')) /\
     exists it', items s' i = Some it' /\ ilinked it' = true /\ isvalid s' it' = true /\ content it' = content it) /\
  (forall i it, items s i = Some it -> ilinked it = false ->
     exists it', items s' i = Some it' /\ ilinked it' = false /\ content it' = content it) /\
  (forall k, tfind k (table s) = None -> tfind k (table s') = None) /\
  match o with
  | None => Sim s' refs (gone_keys f (evicted s')) (evicted s') ci
  | Some i => items s i = None /\ items base i = None /\ items s' i = Some (mkItem key d fl ex cas 0 false 1 false coll) /\
              Sim s' (i :: refs) (gone_keys f (evicted s')) (evicted s') ci
  end.
Proof.
  intros S RF SK Hd. pose proof S as S0. destruct S0. unfold KvModel.alloc.
  destruct (o_fail orc).
  { injection 1 as <- <-. intros _. rewrite S_ev0. split; [intros k j []|]. split.
    { intros i it Hi Hl V _. split; [intros j []|]. exists it. auto. }
    split; [intros i it Hi Hl; exists it; auto|]. split; [auto|]. exact S. }
  destruct (KvModel.mem_alloc lru_class maxcls evict_on s _ orc) as [s1 got] eqn:M. intros E RF'.
  assert (RF1 : repaired s1 = false) by (destruct got; injection E as <- <-; exact RF').
  assert (EV1 : evicted s' = evicted s1) by (destruct got; injection E as <- <-; reflexivity).
  destruct (mem_alloc_good lru_class maxcls evict_on s _ orc s1 got S_core0 ltac:(congruence) M RF1) as [C1 D1].
  assert (EVs : forall k j, In (k, j) (evicted s1) -> exists it, items s j = Some it /\ ikey it = k /\ ilinked it = true /\
              isvalid s it = true /\ iref it = 0%nat /\ is_sticky it = false /\ items s1 j = None).
  { intros k j H. destruct (d_ev' _ _ D1 _ _ H) as [Q|Q]; [rewrite S_ev0 in Q; contradiction|exact Q]. }
  assert (S1 : Sim s1 refs (gone_keys f (evicted s1)) (evicted s1) ci).
  { eapply sim_dn_gen; [exact S|exact C1|exact D1| |].
    - intro k. rewrite (dn_view s s1 k S_core0 C1 D1 S_ev0). unfold gone_keys. rewrite S_view0. reflexivity.
    - intros k j H. apply EVs in H as (it & H). apply H. }
  assert (P1 : forall k j, In (k, j) (evicted s') -> exists e, f k = Some e /\ e_exp e <> sticky_time).
  { intros k j H. rewrite EV1 in H. destruct (dn_evicted s s1 k j S_core0 D1 S_ev0 H) as (e & A1 & A2).
    exists e. rewrite <- S_view0. auto. }
  assert (T1 : forall k, tfind k (table s) = None -> tfind k (table s1) = None).
  { intros k H. destruct (tfind k (table s1)) as [j|] eqn:T; [|reflexivity].
    apply find_linked in T as (x & A1 & A2 & A3); [|exact C1].
    destruct (items s j) as [x0|] eqn:I0; [|exfalso; eapply (d_bwd _ _ D1); eassumption].
    destruct (d_fwd _ _ D1 _ _ I0) as [y K1 K2 K3 K4 K5 K6|K1 [[K2 K3]|[K2 [y (X1 & X2 & X3 & X4)]]] K4|K1 K2 K3]; try congruence.
    apply key_content in K2.
    assert (T0 : tfind k (table s) = Some j) by (apply find_linked; [exact S_core0|exists x0; repeat split; congruence]).
    congruence. }
  assert (KR : forall i it, items s i = Some it -> ilinked it = true -> isvalid s it = true -> In i refs ->
     (forall j, ~ In (ikey it, j) (evicted s')) /\
     exists it', items s1 i = Some it' /\ ilinked it' = true /\ isvalid s1 it' = true /\ content it' = content it).
  { intros i it Hi Hl V Hin.
    assert (Hz : iref it <> 0%nat).
    { rewrite (r_cnt _ _ S_ref0 _ _ Hi). apply count_occ_In with (eq_dec := Nat.eq_dec) in Hin. lia. }
    split.
    - intros j H. rewrite EV1 in H. apply EVs in H as (x & A1 & A2 & A3 & A4 & A5 & _).
      assert (j = i) by (apply (linked_uniq s j i x it); auto). congruence.
    - destruct (dn_ref_keep s s1 i it S_core0 D1 Hi Hl V Hz) as (it' & A1 & A2 & A3 & A4 & _). exists it'. auto. }
  assert (KP : forall i it, items s i = Some it -> ilinked it = false ->
     exists it', items s1 i = Some it' /\ ilinked it' = false /\ content it' = content it).
  { intros i it Hi Hl. apply (dn_pend s); auto. intro Z. destruct (r_zero _ _ S_ref0 _ _ Hi Z). congruence. }
  destruct got; injection E as <- <-.
  2:{ repeat (split; [assumption|]). exact S1. }
  set (i := next_id s1). set (n := mkItem _ _ _ _ _ _ _ _ _ _). set (s2 := w_next _ _).
  pose proof (core_new s1 key d fl ex cas coll C1 Hd) as C2. fold i n s2 in C2.
  assert (Hn : items s1 i = None) by (apply (c_next _ _ _ C1); subst i; lia).
  assert (Hi2 : items s2 i = Some n) by apply fset_same.
  assert (Ho2 : forall j, j <> i -> items s2 j = items s1 j) by (intros j N; apply fset_other; exact N).
  assert (Nref : ~ In i refs).
  { intro H. apply (r_in _ _ (S_ref _ _ _ _ _ S1)) in H. contradiction. }
  assert (Nb : items base i = None).
  { destruct (items base i) eqn:Q; [|reflexivity]. pose proof (S_new _ _ _ _ _ S1 i) as H. rewrite Q in H.
    specialize (H ltac:(discriminate)). subst i. lia. }
  assert (Ns : items s i = None).
  { destruct (d_env _ _ D1) as (E1 & _). apply (c_next _ _ _ S_core0). subst i. lia. }
  split; [exact P1|]. split.
  { intros j it Hj Hl V Hin. destruct (KR _ _ Hj Hl V Hin) as (K1 & it' & K2 & K3 & K4 & K5). split; [exact K1|].
    exists it'. rewrite Ho2 by congruence. auto. }
  split.
  { intros j it Hj Hl. destruct (KP _ _ Hj Hl) as (it' & K2 & K3 & K5). exists it'. rewrite Ho2 by congruence. auto. }
  split; [exact T1|]. split; [exact Ns|]. split; [exact Nb|]. split; [exact Hi2|].
  destruct S1. split; try assumption; try reflexivity.
  - eapply ref_one; [exact S_ref1|exact Hi2|exact Ho2| | |].
    + rewrite count_cons_eq. cbn. f_equal. symmetry. apply count_occ_not_In. exact Nref.
    + intros j N. apply count_cons_ne. exact N.
    + discriminate.
  - intro k. rewrite <- S_view1. apply eview_ext; try assumption.
    + intros j x H L V. exists x. rewrite Ho2 by congruence. auto.
    + intros j x H L V. destruct (Nat.eq_dec j i) as [->|N].
      * assert (x = n) by congruence. subst x. discriminate.
      * rewrite Ho2 in H by exact N. exists x. auto.
  - intros j x NX B L. assert (N : j <> i) by congruence. rewrite Ho2 by exact N.
    destruct (S_pend1 _ _ NX B L) as [[A1 A2]|A]; [left; split; [exact A1|]|right; exact A].
    intros [?|?]; [congruence|contradiction].
  - intros j H. cbn. specialize (S_new1 j H). subst i. lia.
  - intros j y H. destruct (Nat.eq_dec j i) as [->|N].
    + assert (y = n) by congruence. subst y. exact SK.
    + rewrite Ho2 in H by exact N. eauto.
  - intros k j H. pose proof (S_evg1 _ _ H). rewrite Ho2; [assumption|]. intros ->.
    apply EVs in H as (x & A1 & _). congruence.
Qed.
End Op.
End R.
