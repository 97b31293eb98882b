(* Histories of reconfigurations. *)
From Coq Require Import String Ascii.
From Verif Require Import Base UtilModel KtModel KtSpec KtProofs KtRing KtInv.
From Coq Require Import List Permutation Sorted.
Local Open Scope nat_scope.
Local Open Scope list_scope.

Lemma until_name n h : ~ In 45%N n -> until (n ++ 45%N :: h) = n /\ until n = n.
Proof.
  induction n as [|a n IH]; intros N; [split; reflexivity|]. cbn [app until].
  destruct (N.eqb_spec a 45) as [->|_]; [elim N; now left|]. destruct IH as [-> ->]; [intros Q; apply N; now right|split; reflexivity].
Qed.
Lemma strip_entry n raw : n <> [] -> ~ In 45%N n -> entry n raw -> strip raw = Some n.
Proof.
  intros NE N E. destruct n as [|a n]; [congruence|]. assert (Na : (a =? 45)%N = false) by (apply N.eqb_neq; intros ->; apply N; now left).
  assert (Nn : ~ In 45%N n) by (intros Q; apply N; now right).
  inversion E; subst; cbn [app strip]; rewrite Na; f_equal; f_equal; [apply (until_name n []); auto|now apply until_name].
Qed.
Lemma strips_entries M raws : Forall (fun n => n <> [] /\ length n <= 127 /\ ~ In 45%N n) M -> Forall2 entry M raws -> strips raws = Some M.
Proof.
  intros F E. induction E as [|n r M raws E1 E IH]; [reflexivity|]. inversion F as [|? ? (H1 & _ & H2) F2]; subst. cbn [strips].
  rewrite (strip_entry n r H1 H2 E1), (IH F2). reflexivity.
Qed.

Section Reach.
Variable md5 : bytes -> bytes.
Hypothesis D : digest_ok md5.
Notation build := (build md5).
Notation begin := (begin md5).

(* ---------- numbering ---------- *)
Lemma number_ok a : forall f i x, n_name (number f i a x) = n_name (f x) /\ n_hs (number f i a x) = n_hs (f x) /\ n_ref (number f i a x) = n_ref (f x) /\
  (~ In x a -> n_idx (number f i a x) = n_idx (f x)).
Proof.
  induction a as [|y r IH]; intros f i x; cbn [number]; [auto|].
  destruct (IH (put f y (with_idx (f y) (i mod 65536)%N)) (i + 1)%N x) as (A & B & C & E). rewrite A, B, C.
  assert (U : forall (P : Type) (g : node -> P), (g (with_idx (f y) (i mod 65536)%N) = g (f y)) -> g (put f y (with_idx (f y) (i mod 65536)%N) x) = g (f x)).
  { intros P g G. unfold put. destruct (Nat.eqb_spec x y) as [->|NE]; auto. }
  split; [now apply U|]. split; [now apply U|]. split; [now apply U|].
  intros Q. rewrite E by (intros Z; apply Q; now right). unfold put. destruct (Nat.eqb_spec x y) as [->|NE]; [|reflexivity]. elim Q. now left.
Qed.
Lemma number_idx a : NoDup a -> forall f i k, k < length a -> n_idx (number f i a (nth k a 0)) = ((i + N.of_nat k) mod 65536)%N.
Proof.
  induction 1 as [|y r NI ND IH]; intros f i k K; cbn in K; [lia|]. cbn [number]. destruct k as [|k]; cbn [nth].
  - destruct (number_ok r (put f y (with_idx (f y) (i mod 65536)%N)) (i + 1)%N y) as (_ & _ & _ & E). rewrite E by auto.
    unfold put. rewrite Nat.eqb_refl. cbn. now rewrite N.add_0_r.
  - rewrite IH by lia. f_equal. lia.
Qed.

(* ---------- a sorted array ---------- *)
Lemma name_le_iff c i j : name_le c i j = true <-> before (name c i) (name c j).
Proof. unfold name_le. rewrite <- strcmp_before. destruct (strcmp (name c i) (name c j)); split; congruence. Qed.
Lemma sorted_array c l : NoDup (map (name c) l) ->
  StronglySorted (fun x y => strcmp (name c x) (name c y) = Lt) (isort (name_le c) l).
Proof.
  intros ND.
  assert (S : StronglySorted (fun x y => name_le c x y = true) (isort (name_le c) l)).
  { apply isort_sorted.
    - intros a b H. rewrite name_le_iff. destruct (before_total (name c a) (name c b)) as [Q|Q]; auto. apply name_le_iff in Q. congruence.
    - intros a b d. rewrite !name_le_iff. apply before_trans. }
  assert (ND2 : NoDup (map (name c) (isort (name_le c) l))) by (eapply Permutation_NoDup; [apply Permutation_map, isort_perm|exact ND]).
  induction S as [|x r S IH F]; [constructor|]. cbn [map] in ND2. inversion ND2 as [|? ? NI ND3]; subst. constructor; auto.
  rewrite Forall_forall in *. intros y Y. specialize (F y Y). unfold name_le in F. destruct (strcmp (name c x) (name c y)) eqn:Q; auto; try discriminate.
  apply strcmp_eq in Q. elim NI. rewrite Q. now apply in_map.
Qed.
Lemma sorted_nodup f a : core md5 f a -> NoDup a.
Proof.
  intros [S _]. induction S as [|x r S IH F]; constructor; auto. intros Q. rewrite Forall_forall in F. specialize (F x Q). now rewrite strcmp_refl in F.
Qed.

Lemma full_same f g r self : (forall i, In i (r_arr r) -> same f g i) -> full md5 f r self -> full md5 g r self.
Proof.
  intros Sm (C & X & S & P & Z). split; [now apply (core_same md5 f g)|]. split; [|split; [|split]]; auto.
  - intros k K. rewrite <- (proj2 (proj2 (Sm _ (nth_In _ 0 K)))). now apply X.
  - assert (I : forall p, In p (r_cont r) -> In (fst p) (r_arr r)).
    { intros [x j] I. apply (Permutation_in _ (Permutation_sym P)) in I. now apply pointers_in in I. }
    clear P. induction S as [|p l S IH F]; constructor.
    + apply IH. intros q Q. apply I. now right.
    + rewrite Forall_forall in *. intros q Q. specialize (F q Q). destruct (Sm (fst p) (I p (or_introl eq_refl))) as (_ & A & B).
      destruct (Sm (fst q) (I q (or_intror Q))) as (_ & A' & B'). revert F. unfold cont_le, hpoint. now rewrite A, A', B, B'.
  - intros k K. rewrite Z by auto. unfold nm. now rewrite (proj1 (Sm _ (nth_In _ 0 K))).
Qed.

(* ---------- the invariant ---------- *)
Definition parr (c : cfg) : list nat := match k_pend c with Some r => r_arr r | None => [] end.
Definition inv (self : bytes) (c : cfg) (L : list bytes) (M : option (list bytes)) : Prop :=
  name c 0 = self /\ hs_ok md5 (k_node c) 0 /\ acc c (parr c ++ arr c) /\ core md5 (k_node c) (arr c) /\ Permutation (map (name c) (arr c)) L /\
  match k_pend c, M with
  | None, None => match k_ring c with None => True | Some r => full md5 (k_node c) r self end
  | Some r, Some Mn => full md5 (k_node c) r self /\ Permutation (map (name c) (r_arr r)) Mn
  | _, _ => False
  end.

Lemma inv_init self : length self <= 127 -> inv self (init md5 self) [] None.
Proof.
  intros H. assert (F : firstn 127 self = self) by now apply firstn_all2.
  split; [|split; [|split; [|split; [|split]]]].
  - unfold name, init, node_init, with_ref. cbn -[firstn gen_node]. exact F.
  - unfold hs_ok, init, node_init, with_ref. cbn -[firstn gen_node]. reflexivity.
  - unfold acc, init. cbn -[firstn gen_node node_init with_ref In]. split; [|split; [|split; [|split; [|split]]]].
    + intros i L N. destruct (Nat.eqb_spec i 0); [reflexivity|]. elim N. cbn. lia.
    + repeat constructor; cbn; lia.
    + intros i I. split; [cbn in I; lia|tauto].
    + intros i I. left. cbn. lia.
    + intros i I. destruct I.
    + lia.
  - split; [constructor|intros x []].
  - constructor.
  - exact I.
Qed.

Lemma nodup_app (a b : list nat) : NoDup a -> NoDup b -> (forall x, In x a -> ~ In x b) -> NoDup (a ++ b).
Proof.
  induction 1 as [|x r NI ND IH]; intros B Dj; cbn; auto. constructor.
  - rewrite in_app_iff. intros [Q|Q]; [auto|]. apply (Dj x); [now left|auto].
  - apply IH; auto. intros y Y. apply Dj. now right.
Qed.
Lemma prepare_ok c n m A : acc c A -> acc (fst (prepare c n m)) A.
Proof.
  intros (A1 & A2 & A3 & A4 & A5 & A6). unfold prepare. set (k := Nat.min _ m). cbn [fst]. unfold acc. cbn.
  assert (S : forall i, In i (rev (seq (k_next c) k)) <-> k_next c <= i < k_next c + k) by (intros i; rewrite <- in_rev; apply in_seq).
  split; [|split; [|split; [|split; [|split]]]].
  - intros i L N. rewrite in_app_iff, S in N. apply A1; lia || tauto.
  - apply nodup_app; auto.
    + apply NoDup_rev, seq_NoDup.
    + intros x X Q. apply S in X. apply A3 in Q. lia.
  - intros i I. rewrite in_app_iff, S in I. destruct I as [I|I].
    + split; [lia|]. intros Q. apply A5 in Q. lia.
    + apply A3 in I. split; [lia|tauto].
  - intros i I. rewrite in_app_iff, S. destruct (Nat.lt_ge_cases i (k_next c)) as [Q|Q]; [|left; left; lia].
    destruct (A4 i ltac:(lia)); tauto.
  - intros i I. apply A5 in I. lia.
  - lia.
Qed.
Lemma prepare_free c n m c1 : prepare c n m = (c1, true) ->
  n <= length (k_free c1) + length (arr c) /\ length (k_free c) <= length (k_free c1) /\ k_node c1 = k_node c /\ k_ring c1 = k_ring c /\ k_valid c1 = k_valid c /\ k_pend c1 = k_pend c.
Proof.
  unfold prepare. intros E. injection E as <- L. apply Nat.leb_le in L. cbn. rewrite app_length, rev_length, seq_length. rewrite Nat.min_l by auto. repeat split; lia.
Qed.

Lemma core_ext f g a : (forall i, In i a -> n_name (f i) = n_name (g i) /\ n_hs (f i) = n_hs (g i)) -> core md5 f a -> core md5 g a.
Proof.
  intros Sm [S H]. split.
  - clear H. revert Sm. induction S as [|x r S IH F]; intros Sm; [constructor|]. constructor.
    + apply IH. intros y Y. apply Sm. now right.
    + rewrite Forall_forall in *. intros y Y. unfold nm. rewrite <- (proj1 (Sm x (or_introl eq_refl))), <- (proj1 (Sm y (or_intror Y))). now apply F.
  - intros x X. destruct (Sm x X) as [E1 E2]. unfold nm. rewrite <- E1, <- E2. now apply H.
Qed.
Lemma acc_ref c c' A : (forall i, n_ref (k_node c' i) = n_ref (k_node c i)) -> k_next c' = k_next c -> k_free c' = k_free c -> acc c A -> acc c' A.
Proof. intros R N F (A1 & A2 & A3 & A4 & A5 & A6). unfold acc. rewrite N, F. split; [|auto 10]. intros i. rewrite R. apply A1. Qed.

Lemma filter_perm {T} (p : T -> bool) l : Permutation l (filter p l ++ filter (fun x => negb (p x)) l).
Proof.
  induction l as [|a l IH]; cbn; [constructor|]. destruct (p a); cbn [negb app]; [now constructor|].
  eapply perm_trans; [apply perm_skip, IH|]. apply Permutation_middle.
Qed.
Definition isin (l : list bytes) (s : bytes) : bool := existsb (beqb s) l.
Lemma isin_in l s : isin l s = true <-> In s l.
Proof.
  unfold isin. rewrite existsb_exists. split; [intros (x & X & E); apply beqb_eq in E; now subst|]. intros H. exists s. split; auto. apply beqb_refl.
Qed.
Lemma change_ok L M : NoDup L -> NoDup M ->
  change L M (length M - length (filter (isin L) M)) (length L - length (filter (isin L) M)).
Proof.
  intros NL NM. exists (filter (isin L) M), (filter (fun x => negb (isin L x)) M), (filter (fun x => negb (isin M x)) L).
  assert (P : Permutation (filter (isin L) M) (filter (isin M) L)).
  { apply NoDup_Permutation; try now apply NoDup_filter. intros x. rewrite !filter_In, !isin_in. tauto. }
  split; [apply filter_perm|]. split; [rewrite P; apply filter_perm|]. split; [|split; [|split]].
  - intros x X. apply filter_In in X. destruct X as [_ X]. intros Q. apply isin_in in Q. now rewrite Q in X.
  - intros x X. apply filter_In in X. destruct X as [_ X]. intros Q. apply isin_in in Q. now rewrite Q in X.
  - rewrite (Permutation_length (filter_perm (isin L) M)) at 1. rewrite app_length. lia.
  - rewrite (Permutation_length P). rewrite (Permutation_length (filter_perm (isin M) L)) at 1. rewrite app_length. lia.
Qed.

Lemma inv_nodup self c L M : inv self c L M -> NoDup L.
Proof.
  intros (_ & _ & _ & Co & P & _). eapply Permutation_NoDup; [exact P|]. destruct Co as [S _]. clear P.
  induction S as [|x r S IH F]; cbn; constructor; auto. intros Q. apply in_map_iff in Q. destruct Q as (y & E & Y).
  rewrite Forall_forall in F. specialize (F y Y). unfold nm in F. unfold name in E. rewrite E, strcmp_refl in F. discriminate.
Qed.
Lemma known_isin c L s : Permutation (map (name c) (arr c)) L -> known c s = isin L s.
Proof.
  intros P. destruct (known c s) eqn:K, (isin L s) eqn:I; auto.
  - apply known_in in K. apply (Permutation_in _ P) in K. apply isin_in in K. congruence.
  - apply isin_in in I. apply (Permutation_in _ (Permutation_sym P)) in I. apply known_in in I. congruence.
Qed.

Theorem begin_ok self c L M raw m ok : inv self c L None -> proper M -> Forall2 entry M raw ->
  match begin c raw m ok with
  | None => exists k, k = length (filter (fun s => negb (isin L s) && negb (beqb s self)) M) /\ length (k_free c) < k /\ length M < k + length L
  | Some (c', RInvalid) => False
  | Some (c', RFail) => inv self c' L None /\ k_valid c' = false /\ k_ring c' = k_ring c
  | Some (c', RSame a r) => inv self c' L None /\ Permutation M L /\ a = 0 /\ r = 0 /\ k_valid c' = k_valid c
  | Some (c', RNew a r) => inv self c' L (Some M) /\ change L M a r /\ (M <> [] -> ~ Permutation M L) /\ k_valid c' = k_valid c
  end.
Proof.
  intros I (ND & FM & LM) E. pose proof (inv_nodup _ _ _ _ I) as NDL.
  destruct I as (I0 & Ih & Ia & Ic & Ip & If). destruct (k_pend c) as [pr|] eqn:Pe; [destruct If|].
  assert (Pn : parr c = []) by (unfold parr; now rewrite Pe). rewrite Pn in Ia. cbn [app] in Ia.
  assert (Ll : length L = length (arr c)) by (rewrite <- (Permutation_length Ip); apply map_length).
  destruct raw as [|r0 rs].
  - inversion E; subst. cbn [KtModel.begin].
    assert (Ch : change L [] 0 (length (arr c))).
    { rewrite <- Ll. pose proof (change_ok L [] NDL ND) as Q. cbn in Q. now rewrite Nat.sub_0_r in Q. }
    split; [|split; [exact Ch|split; [congruence|reflexivity]]].
    unfold inv, parr, arr, name. cbn. fold (arr c). fold (name c). do 5 (split; auto).
    split; [|constructor]. unfold full. cbn. split; [split; [constructor|intros x []]|]. split; [intros; lia|]. split; [constructor|]. split; [constructor|intros; lia].
  - assert (NM : M <> []) by (intros ->; inversion E). unfold KtModel.begin. rewrite (strips_entries M _ FM E).
    destruct (prepare c (length M) m) as [c1 pk] eqn:Pp.
    assert (Ia1 : acc c1 (arr c)).
    { pose proof (prepare_ok c (length M) m _ Ia) as Q. now rewrite Pp in Q. }
    assert (Fe : k_node c1 = k_node c /\ k_ring c1 = k_ring c /\ k_valid c1 = k_valid c /\ k_pend c1 = k_pend c).
    { unfold prepare in Pp. injection Pp as <- _. cbn. auto. }
    destruct Fe as (Fn & Fr & Fv & Fp).
    assert (Fa : arr c1 = arr c) by (unfold arr; now rewrite Fr).
    assert (Fail : inv self (mkK (k_node c1) (k_next c1) (k_free c1) (k_ring c1) false (k_pend c1)) L None).
    { unfold inv, parr, arr, name. cbn. rewrite Fp, Pe, Fr, Fn. fold (arr c). cbn [app]. do 2 (split; auto).
      split; [apply (acc_ref c1); auto; cbn; now rewrite Fn|]. auto. }
    destruct pk; cbn [negb].
    2: { split; [exact Fail|]. split; [reflexivity|]. exact Fr. }
    destruct ok; cbn [negb].
    2: { split; [exact Fail|]. split; [reflexivity|]. exact Fr. }
    assert (Ln : forall s, In s M -> length s <= 127) by (intros s S; rewrite Forall_forall in FM; now apply FM in S).
    pose proof (prepare_free _ _ _ _ Pp) as (Fc & Fg & _).
    assert (Kn : forall s, known c1 s = isin L s).
    { intros s. apply known_isin. unfold name. rewrite Fa, Fn. exact Ip. }
    pose proof (build_ok md5 M c1 (arr c) Ia1) as B. rewrite Fa in B. specialize (B (fun i H => H)). rewrite Fn in B.
    specialize (B Ic Ih Ln).
    assert (Fk : filter (known c1) M = filter (isin L) M) by (apply filter_ext; intros; apply Kn).
    assert (Fu : filter (fun s => negb (known c1 s) && negb (beqb s (name c1 0))) M = filter (fun s => negb (isin L s) && negb (beqb s self)) M).
    { apply filter_ext. intros s. rewrite Kn. unfold name. rewrite Fn. fold (name c 0). now rewrite I0. }
    rewrite Fk, Fu in B. destruct (build c1 M) as [[[c2 l] nf]|] eqn:Bd.
    2: { eexists. split; [reflexivity|]. split; [lia|]. lia. }
    destruct B as (Ba & Bs & Bn & Br & Bv & Bp & Bm & Bh & Bf & Bi & Bc).
    assert (Nf : forall i, In i (arr c) -> ~ In i (k_free c1)) by (intros i X Q; now apply (proj1 (proj2 (proj2 Ia1))) in Q).
    assert (N0 : ~ In 0 (k_free c1)) by (intros Q; apply (proj1 (proj2 (proj2 Ia1))) in Q; lia).
    assert (Ba2 : arr c2 = arr c) by (unfold arr; now rewrite Br, Fr).
    assert (Nm0 : name c2 0 = self) by (rewrite <- I0; unfold name; symmetry; apply (Bs 0 N0)).
    assert (Nma : map (name c2) (arr c) = map (name c) (arr c)).
    { apply map_ext_in. intros i X. unfold name. symmetry. apply (Bs i (Nf i X)). }
    destruct (Nat.eqb (length M) (length (arr c)) && Nat.eqb (length M) nf) eqn:Sa.
    + apply andb_true_iff in Sa. destruct Sa as [S1 S2]. apply Nat.eqb_eq in S1, S2.
      destruct (release_ok l c2 (arr c) Ba) as (Ra & Rs & Rn & Rr & Rv & Rp).
      assert (PM : Permutation M L).
      { apply NoDup_Permutation_bis; auto; [lia|]. intros x X.
        assert (Q : filter (isin L) M = M).
        { pose proof (Permutation_length (filter_perm (isin L) M)) as Q. rewrite app_length in Q.
          assert (Z : filter (fun x => negb (isin L x)) M = []) by (apply length_zero_iff_nil; lia).
          clear -Z. induction M as [|y r IH]; [reflexivity|]. cbn in *. destruct (isin L y); cbn in Z; [f_equal; auto|discriminate]. }
        rewrite <- Q in X. apply filter_In in X. now apply isin_in. }
      assert (Sm : forall i, ~ In i (k_free c1) -> same (k_node c) (k_node (release c2 l)) i).
      { intros i X. specialize (Bs i X). specialize (Rs i). unfold same in *. destruct Bs as (X1 & X2 & X3), Rs as (Y1 & Y2 & Y3). repeat split; congruence. }
      split; [|split; [exact PM|split; [lia|split; [lia|congruence]]]].
      assert (Ra2 : arr (release c2 l) = arr c) by (unfold arr at 1; rewrite Rr, Br, Fr; reflexivity).
      unfold inv. unfold parr. rewrite Rp, Bp, Fp, Pe, Ra2. cbn [app].
      split; [unfold name; rewrite <- I0; symmetry; apply (Sm 0 N0)|]. split; [apply (same_hs md5 _ _ 0 (Sm 0 N0) Ih)|]. split; [exact Ra|].
      split; [eapply core_same; [|exact Ic]; intros i X; apply Sm; auto|].
      split; [rewrite (map_ext_in _ (name c)); [exact Ip|]; intros i X; unfold name; symmetry; apply (Sm i (Nf i X))|].
      rewrite Rr, Br, Fr. destruct (k_ring c) as [r|] eqn:Kr; auto. eapply full_same; [|exact If]. intros i X. apply Sm, Nf. unfold arr. now rewrite Kr.
    + set (a := isort (name_le c2) l). set (f := number (k_node c2) 0 a).
      assert (Pa : Permutation l a) by apply isort_perm.
      assert (NDm : NoDup (map (name c2) l)) by now rewrite Bm.
      assert (Nu : forall i, n_name (f i) = n_name (k_node c2 i) /\ n_hs (f i) = n_hs (k_node c2 i) /\ n_ref (f i) = n_ref (k_node c2 i)).
      { intros i. destruct (number_ok a (k_node c2) 0 i) as (X1 & X2 & X3 & _). auto. }
      assert (Ca2 : core md5 (k_node c2) a).
      { split; [apply (sorted_array c2 l NDm)|]. intros x X. apply (Bh x). eapply Permutation_in; [symmetry; exact Pa|exact X]. }
      assert (Ca : core md5 f a) by (eapply core_ext; [|exact Ca2]; intros i _; destruct (Nu i) as (X1 & X2 & _); auto).
      assert (La : length a = length M) by (rewrite <- (Permutation_length Pa), <- Bm, map_length; reflexivity).
      split; [|split; [|split; [|cbn; congruence]]].
      * unfold inv, parr, arr, name. cbn. rewrite Br, Fr. fold (arr c).
        split; [rewrite (proj1 (Nu 0)); exact Nm0|].
        split; [unfold hs_ok; destruct (Nu 0) as (X1 & X2 & _); rewrite X1, X2; exact (same_hs md5 _ _ 0 (Bs 0 N0) Ih)|].
        split; [apply (acc_ref c2); cbn; auto; [intros i; apply Nu|]; eapply acc_perm; [|exact Ba]; now apply Permutation_app_tail|].
        split; [eapply core_ext; [|exact Ic]; intros i X; destruct (Nu i) as (X1 & X2 & _), (Bs i (Nf i X)) as (Y1 & Y2 & _); split; congruence|].
        split; [rewrite (map_ext_in _ (name c)); [exact Ip|]; intros i X; rewrite (proj1 (Nu i)); symmetry; apply (Bs i (Nf i X))|].
        split.
        -- unfold full. cbn [r_arr r_cont r_self]. split; [exact Ca|]. split; [|split; [|split]].
           ++ intros k K. unfold f. rewrite number_idx by (auto; eapply sorted_nodup; exact Ca2).
              rewrite N.add_0_l. apply N.mod_small. clear -K La LM. lia.
           ++ apply isort_sorted; [apply cont_le_total|intros p q r; apply cont_le_trans].
           ++ apply isort_perm.
           ++ intros k K. unfold nm. rewrite (proj1 (Nu _)). fold (name c2 (nth k a 0)). fold (name c2 0).
              destruct (array_find_ok c2 a (name c2 0) (proj1 Ca2)) as [[Q1 Q2]|(k' & Q1 & Q2 & Q3)]; rewrite Q1, <- Nm0.
              ** split; [lia|]. intros Q. elim Q2. rewrite <- Q. apply in_map. now apply nth_In.
              ** split; [intros Q; assert (k = k') by lia; now subst|]. intros Q. f_equal. destruct (Nat.lt_trichotomy k k') as [Z|[Z|Z]]; auto; exfalso.
                 --- pose proof (ss_nth _ a 0 (proj1 Ca2) k k' Z Q2) as W. unfold nm in W. fold (name c2 (nth k a 0)) (name c2 (nth k' a 0)) in W. rewrite Q, Q3, strcmp_refl in W. discriminate.
                 --- pose proof (ss_nth _ a 0 (proj1 Ca2) k' k Z K) as W. unfold nm in W. fold (name c2 (nth k a 0)) (name c2 (nth k' a 0)) in W. rewrite Q, Q3, strcmp_refl in W. discriminate.
        -- rewrite (map_ext_in _ (name c2)); [|intros i _; apply (Nu i)]. rewrite <- Bm. apply Permutation_map. now symmetry.
      * rewrite Bf, <- Ll. now apply change_ok.
      * intros _ PM. apply andb_false_iff in Sa. pose proof (Permutation_length PM) as PL.
        assert (Q : filter (isin L) M = M).
        { clear -PM. assert (H : forall x, In x M -> isin L x = true) by (intros x X; apply isin_in; eapply Permutation_in; eauto).
          clear PM. induction M as [|y r IH]; [reflexivity|]. cbn. rewrite (H y (or_introl eq_refl)). f_equal. apply IH. intros x X. apply H. now right. }
        rewrite Q in Bf. destruct Sa as [Sa|Sa]; apply Nat.eqb_neq in Sa; lia.
Qed.

Theorem finish_ok self c L M : inv self c L (Some M) -> inv self (finish c) M None /\ k_valid (finish c) = true /\ k_ring (finish c) <> None.
Proof.
  intros (I0 & Ih & Ia & Ic & Ip & If). unfold finish. unfold parr in Ia. destruct (k_pend c) as [r|] eqn:Pe; [|destruct If].
  destruct If as [If Im]. set (c0 := mkK (k_node c) (k_next c) (k_free c) (Some r) true None).
  assert (Ac : acc c0 (arr c ++ r_arr r)).
  { apply (acc_ref c); auto. eapply acc_perm; [|exact Ia]. apply Permutation_app_comm. }
  destruct (release_ok (arr c) c0 (r_arr r) Ac) as (Ra & Rs & Rn & Rr & Rv & Rp).
  assert (Ra2 : arr (release c0 (arr c)) = r_arr r) by (unfold arr at 1; now rewrite Rr).
  split; [|split; [exact Rv|rewrite Rr; discriminate]].
  unfold inv, parr. rewrite Rp, Ra2, Rr. cbn [k_pend k_ring c0 app].
  split; [rewrite <- I0; symmetry; apply (Rs 0)|]. split; [apply (same_hs md5 _ _ 0 (Rs 0) Ih)|]. split; [exact Ra|].
  split; [eapply core_same; [|exact (proj1 If)]; intros; apply Rs|].
  split; [rewrite (map_ext_in _ (name c)); [exact Im|]; intros i X; symmetry; apply (Rs i)|].
  eapply full_same; [|exact If]. intros; apply Rs.
Qed.

(* ---------- histories ---------- *)
(* L: the servers of the ring in use; M: of the ring that is being built *)
Inductive reach (self : bytes) : cfg -> list bytes -> option (list bytes) -> Prop :=
| r_init : reach self (init md5 self) [] None
| r_begin c L raw M m ok c' res : reach self c L None -> proper M -> Forall2 entry M raw -> begin c raw m ok = Some (c', res) ->
    reach self c' L (match res with RNew _ _ => Some M | _ => None end)
| r_bad c L raw m ok c' : reach self c L None -> begin c raw m ok = Some (c', RInvalid) -> reach self c' L None
| r_end c L M : reach self c L (Some M) -> reach self (finish c) M None.

Theorem reach_inv self c L M : length self <= 127 -> reach self c L M -> inv self c L M.
Proof.
  intros Ls R. induction R as [|c L raw M m ok c' res R IH Pr E B|c L raw m ok c' R IH B|c L M R IH].
  - now apply inv_init.
  - pose proof (begin_ok self c L M raw m ok IH Pr E) as Q. rewrite B in Q. destruct res; [destruct Q|apply Q..].
  - replace c' with c; auto. unfold KtModel.begin in B. destruct raw as [|r0 rs]; [discriminate|].
    destruct (strips (r0 :: rs)) as [strs|]; [|congruence]. exfalso. revert B. destruct (prepare c (length strs) m) as [c1 []]; [|discriminate].
    destruct ok; cbn [negb]; [|discriminate]. destruct (build c1 strs) as [[[c2 l] nf]|]; [|discriminate]. destruct (_ && _); discriminate.
  - now apply finish_ok in IH.
Qed.
End Reach.
