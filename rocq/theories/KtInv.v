(* Reconfiguration: reference counts, free list, arrays. *)
From Coq Require Import String Ascii.
From Verif Require Import Base UtilModel KtModel KtSpec KtProofs KtRing.
From Coq Require Import List Permutation Sorted.
Local Open Scope nat_scope.
Local Open Scope list_scope.

Notation cnt := (count_occ Nat.eq_dec).
Section Inv.
Variable md5 : bytes -> bytes.
Hypothesis D : digest_ok md5.
Notation build := (build md5).
Notation begin := (begin md5).

(* A: the nodes that are referenced, with repetitions *)
Definition acc (c : cfg) (A : list nat) : Prop :=
  (forall i, i < k_next c -> ~ In i (k_free c) -> n_ref (k_node c i) = (if Nat.eqb i 0 then 1 else 0) + cnt A i) /\
  NoDup (k_free c) /\
  (forall i, In i (k_free c) -> 0 < i < k_next c /\ ~ In i A) /\
  (forall i, 0 < i < k_next c -> In i (k_free c) \/ In i A) /\
  (forall i, In i A -> i < k_next c) /\ 0 < k_next c.
(* what a node is, but for its reference count *)
Definition same (f g : nat -> node) (i : nat) : Prop := n_name (f i) = n_name (g i) /\ n_hs (f i) = n_hs (g i) /\ n_idx (f i) = n_idx (g i).

Lemma acc_perm c A B : Permutation A B -> acc c A -> acc c B.
Proof.
  intros P (H1 & H2 & H3 & H4 & H5 & H6).
  assert (PI : forall i, In i A <-> In i B) by (intros i; split; apply Permutation_in; [exact P|symmetry; exact P]).
  split; [|split; [|split; [|split; [|split]]]]; auto.
  - intros i L N. rewrite (H1 i L N). f_equal. now apply (Permutation_count_occ Nat.eq_dec).
  - intros i I. rewrite <- PI. auto.
  - intros i I. rewrite <- PI. auto.
  - intros i I. rewrite <- PI in I. auto.
Qed.

Lemma release_ok a : forall c A, acc c (a ++ A) ->
  acc (release c a) A /\ (forall i, same (k_node c) (k_node (release c a)) i) /\
  k_next (release c a) = k_next c /\ k_ring (release c a) = k_ring c /\ k_valid (release c a) = k_valid c /\ k_pend (release c a) = k_pend c.
Proof.
  induction a as [|i r IH]; intros c A H; cbn [release].
  - split; [exact H|]. unfold same. auto 10.
  - destruct H as (H1 & H2 & H3 & H4 & H5 & H6).
    assert (Li : i < k_next c) by (apply H5; now left).
    assert (Ni : ~ In i (k_free c)) by (intros Q; apply H3 in Q; apply Q; now left).
    pose proof (H1 i Li Ni) as R. cbn [app] in R. rewrite count_occ_cons_eq in R by auto.
    set (n := n_ref (k_node c i) - 1). assert (En : n = (if Nat.eqb i 0 then 1 else 0) + cnt (r ++ A) i) by (unfold n; rewrite R; lia).
    set (c1 := with_node c (put (k_node c) i (with_ref (k_node c i) n))).
    set (c2 := if Nat.eqb n 0 then with_free c1 (k_next c1) (i :: k_free c1) else c1).
    assert (Sm : forall j, same (k_node c) (k_node c2) j).
    { intros j. unfold c2. destruct (Nat.eqb n 0); cbn; unfold put, same; destruct (Nat.eqb_spec j i) as [->|]; auto. }
    assert (Fe : k_next c2 = k_next c /\ k_ring c2 = k_ring c /\ k_valid c2 = k_valid c /\ k_pend c2 = k_pend c).
    { unfold c2. destruct (Nat.eqb n 0); cbn; auto. }
    assert (Ac : acc c2 (r ++ A)).
    { destruct (Nat.eqb_spec n 0) as [Z|Z].
      - assert (Zi : i <> 0 /\ cnt (r ++ A) i = 0) by (destruct (Nat.eqb_spec i 0); lia). destruct Zi as [Zi Zc].
        assert (NI : ~ In i (r ++ A)) by (now apply (count_occ_not_In Nat.eq_dec)).
        unfold c2, acc. cbn. split; [|split; [|split; [|split; [|split]]]]; auto.
        + intros j L N. unfold put. destruct (Nat.eqb_spec j i) as [->|NE]; [tauto|].
          rewrite H1 by tauto. cbn [app]. rewrite count_occ_cons_neq by auto. reflexivity.
        + now constructor.
        + intros j [<-|J]; [split; auto; lia|]. destruct (H3 j J) as [X Y]. split; auto. intros Q. apply Y. now right.
        + intros j J. destruct (H4 j J) as [X|[<-|X]]; auto.
        + intros j J. apply H5. now right.
      - unfold c2, acc. cbn. split; [|split; [|split; [|split; [|split]]]]; auto.
        + intros j L N. unfold put. destruct (Nat.eqb_spec j i) as [->|NE]; [exact En|].
          rewrite H1 by tauto. cbn [app]. rewrite count_occ_cons_neq by auto. reflexivity.
        + intros j J. destruct (H3 j J) as [X Y]. split; auto. intros Q. apply Y. now right.
        + intros j J. destruct (H4 j J) as [X|[<-|X]]; auto. right. apply (count_occ_In Nat.eq_dec).
          destruct (Nat.eqb_spec i 0); lia.
        + intros j J. apply H5. now right. }
    destruct (IH c2 A Ac) as (B1 & B2 & B3 & B4 & B5 & B6). destruct Fe as (F1 & F2 & F3 & F4).
    split; [exact B1|]. split; [|split; [congruence|split; [congruence|split; congruence]]].
    intros j. destruct (Sm j) as (S1 & S2 & S3), (B2 j) as (T1 & T2 & T3). repeat split; congruence.
Qed.

(* ---------- finding ---------- *)
Lemma array_find_ok c a s : StronglySorted (fun x y => strcmp (name c x) (name c y) = Lt) a ->
  (array_find c a s = (-1)%Z /\ ~ In s (map (name c) a)) \/
  exists k, array_find c a s = Z.of_nat k /\ k < length a /\ name c (nth k a 0) = s.
Proof.
  intros S. unfold array_find. set (cmp := fun mid => strcmp s (name c (nth (Z.to_nat mid) a 0))).
  pose proof (bsearch_ok cmp (length a)) as B.
  assert (T : forall i j, (0 <= i <= j)%Z -> (j < Z.of_nat (length a))%Z -> i = j \/ strcmp (name c (nth (Z.to_nat i) a 0)) (name c (nth (Z.to_nat j) a 0)) = Lt).
  { intros i j I J. destruct (Z.eq_dec i j); auto. right. apply (ss_nth _ a 0 S); lia. }
  assert (H1 : forall i j, (0 <= i <= j)%Z -> (j < Z.of_nat (length a))%Z -> cmp i = Lt -> cmp j = Lt).
  { unfold cmp. intros i j I J H. destruct (T i j I J) as [<-|Q]; auto. eapply strcmp_lt_trans; eauto. }
  assert (H2 : forall i j, (0 <= i <= j)%Z -> (j < Z.of_nat (length a))%Z -> cmp j = Gt -> cmp i = Gt).
  { unfold cmp. intros i j I J H. destruct (T i j I J) as [<-|Q]; auto. rewrite (strcmp_sym (name c (nth (Z.to_nat j) a 0))) in H.
    rewrite (strcmp_sym (name c (nth (Z.to_nat i) a 0))).
    assert (X : strcmp (name c (nth (Z.to_nat j) a 0)) s = Lt) by (destruct (strcmp (name c (nth (Z.to_nat j) a 0)) s); cbn in H; congruence).
    now rewrite (strcmp_lt_trans _ _ _ Q X). }
  specialize (B H1 H2). destruct (bsearch (length a) cmp) as [[m|m]|]; [| |tauto].
  - destruct B as [B E]. right. exists (Z.to_nat m). split; [lia|]. split; [lia|]. unfold cmp in E. apply strcmp_eq in E. auto.
  - destruct B as (B & G & L). left. split; auto. intros Q. apply in_map_iff in Q. destruct Q as (x & Q & X).
    destruct (In_nth a x 0 X) as (k & K & <-). destruct (Z_lt_le_dec (Z.of_nat k) m) as [Z|Z].
    + specialize (G (Z.of_nat k) ltac:(lia)). unfold cmp in G. rewrite Nat2Z.id, Q, strcmp_refl in G. discriminate.
    + specialize (L (Z.of_nat k) ltac:(lia)). unfold cmp in L. rewrite Nat2Z.id, Q, strcmp_refl in L. discriminate.
Qed.

Definition hs_ok (f : nat -> node) (i : nat) : Prop := n_hs (f i) = gen_node md5 (n_name (f i)).
Lemma same_hs f g i : same f g i -> hs_ok f i -> hs_ok g i.
Proof. unfold same, hs_ok. intros (A & B & _) H. congruence. Qed.
Lemma core_same f g a : (forall i, In i a -> same f g i) -> core md5 f a -> core md5 g a.
Proof.
  intros Sm [S H]. split.
  - revert Sm. induction S as [|x r S IH F]; intros Sm; [constructor|]. constructor.
    + apply IH; [intros y Y; apply H; now right|intros y Y; apply Sm; now right].
    + rewrite Forall_forall in *. intros y Y. unfold nm. rewrite <- (proj1 (Sm x (or_introl eq_refl))), <- (proj1 (Sm y (or_intror Y))). now apply F.
  - intros x X. apply (same_hs f g x (Sm x X)). now apply H.
Qed.
Definition known (c : cfg) (s : bytes) : bool := existsb (beqb s) (map (name c) (arr c)).
Lemma known_in c s : known c s = true <-> In s (map (name c) (arr c)).
Proof.
  unfold known. rewrite existsb_exists. split.
  - intros (x & X & E). apply beqb_eq in E. now subst.
  - intros H. exists s. split; auto. apply beqb_refl.
Qed.
Lemma known_same c c' s : k_ring c' = k_ring c -> (forall i, In i (arr c) -> same (k_node c) (k_node c') i) -> known c' s = known c s.
Proof.
  intros E Sm. unfold known, arr. rewrite E. fold (arr c). f_equal. apply map_ext_in. intros i I. symmetry. apply (Sm i I).
Qed.

Lemma build_ok strs : forall c A, acc c A -> (forall i, In i (arr c) -> In i A) -> core md5 (k_node c) (arr c) -> hs_ok (k_node c) 0 ->
  (forall s, In s strs -> length s <= 127) ->
  match build c strs with
  | None => length (k_free c) < length (filter (fun s => negb (known c s) && negb (beqb s (name c 0))) strs)
  | Some (c', l, nf) =>
      acc c' (l ++ A) /\ (forall i, ~ In i (k_free c) -> same (k_node c) (k_node c') i) /\
      k_next c' = k_next c /\ k_ring c' = k_ring c /\ k_valid c' = k_valid c /\ k_pend c' = k_pend c /\
      map (name c') l = strs /\ (forall i, In i l -> hs_ok (k_node c') i) /\
      nf = length (filter (known c) strs) /\ (forall i, In i (k_free c') -> In i (k_free c)) /\
      length (k_free c') + length (filter (fun s => negb (known c s) && negb (beqb s (name c 0))) strs) = length (k_free c)
  end.
Proof.
  induction strs as [|s r IH]; intros c A Ac Sub Co H0 Ln; cbn [KtModel.build].
  - split; [exact Ac|]. unfold same. cbn. do 9 (split; [auto; try tauto|]). lia.
  - assert (Fr : forall i, In i A -> ~ In i (k_free c)) by (intros i I Q; now apply (proj1 (proj2 (proj2 Ac)) i) in Q).
    set (id := if Nat.ltb 0 (length (arr c)) then array_find c (arr c) s else (-1)%Z).
    assert (Fi : (id = (-1)%Z /\ known c s = false) \/ exists k, id = Z.of_nat k /\ k < length (arr c) /\ name c (nth k (arr c) 0) = s /\ known c s = true).
    { unfold id. destruct (Nat.ltb_spec 0 (length (arr c))) as [L|L].
      - destruct (array_find_ok c (arr c) s (proj1 Co)) as [[E N]|(k & E & K & N)].
        + left. split; auto. apply not_true_iff_false. now rewrite known_in.
        + right. exists k. repeat split; auto. apply known_in. apply in_map_iff. exists (nth k (arr c) 0). split; auto. now apply nth_In.
      - left. split; auto. unfold known. destruct (arr c); [reflexivity|cbn in L; lia]. }
    set (got := if (0 <=? id)%Z then Some (c, nth (Z.to_nat id) (arr c) 0, 1) else _).
    (* what the choice of a node gives *)
    assert (G : match got with
                | None => k_free c = [] /\ known c s = false /\ beqb s (name c 0) = false
                | Some (c1, i, k) =>
                    let c2 := with_node c1 (put (k_node c1) i (with_ref (k_node c1 i) (n_ref (k_node c1 i) + 1))) in
                    acc c2 (i :: A) /\ (forall j, ~ In j (k_free c) -> same (k_node c) (k_node c2) j) /\
                    k_next c2 = k_next c /\ k_ring c2 = k_ring c /\ k_valid c2 = k_valid c /\ k_pend c2 = k_pend c /\
                    name c2 i = s /\ hs_ok (k_node c2) i /\ k = (if known c s then 1 else 0) /\ (forall j, In j (k_free c2) -> In j (k_free c)) /\
                    length (k_free c2) + (if negb (known c s) && negb (beqb s (name c 0)) then 1 else 0) = length (k_free c)
                end).
    { assert (Old : forall i, i < k_next c -> ~ In i (k_free c) -> hs_ok (k_node c) i ->
                let c2 := with_node c (put (k_node c) i (with_ref (k_node c i) (n_ref (k_node c i) + 1))) in
                acc c2 (i :: A) /\ (forall j, ~ In j (k_free c) -> same (k_node c) (k_node c2) j) /\ name c2 i = name c i /\ hs_ok (k_node c2) i).
      { intros i L N Hi. destruct Ac as (A1 & A2 & A3 & A4 & A5 & A6). cbn. split; [|split; [|split]].
        - unfold acc. cbn. split; [|split; [|split; [|split; [|split]]]]; auto.
          + intros j J Q. unfold put. destruct (Nat.eqb_spec j i) as [->|NE].
            * destruct (Nat.eq_dec i i); [|congruence]. cbn [with_ref n_ref]. rewrite (A1 i L N). lia.
            * destruct (Nat.eq_dec i j); [congruence|]. now apply A1.
          + intros j J. destruct (A3 j J) as [X Y]. split; auto. intros [<-|Q]; tauto.
          + intros j J. destruct (A4 j J); cbn; auto.
          + intros j [<-|J]; auto.
        - intros j _. unfold put, same. destruct (Nat.eqb_spec j i) as [->|]; auto.
        - unfold name, put. cbn. now rewrite Nat.eqb_refl.
        - unfold hs_ok, put. rewrite Nat.eqb_refl. exact Hi. }
      unfold got. destruct Fi as [[E K]|(k & E & K1 & K2 & K3)].
      - rewrite E. cbn [Z.leb Z.compare]. change ((0 <=? -1)%Z) with false. cbv iota. destruct (beqb s (name c 0)) eqn:B.
        + apply beqb_eq in B. assert (Z0 : ~ In 0 (k_free c)) by (intros Q; apply (proj1 (proj2 (proj2 Ac))) in Q; lia).
          assert (L0 : 0 < k_next c) by apply Ac.
          destruct (Old 0 L0 Z0 H0) as (O1 & O2 & O3 & O4). cbv zeta. repeat (split; [assumption || reflexivity || congruence|]).
          split; [now rewrite K|]. split; [auto|]. rewrite K. cbn [negb andb]. cbn. lia.
        + destruct (k_free c) as [|i fr] eqn:F; [auto|]. destruct Ac as (A1 & A2 & A3 & A4 & A5 & A6). rewrite F in *.
          inversion A2 as [|? ? NI ND]; subst. destruct (A3 i (or_introl eq_refl)) as [Li NA]. cbv zeta.
          assert (Ci : cnt A i = 0) by (now apply count_occ_not_In).
          split; [|split; [|do 4 (split; [reflexivity|])]].
          * unfold acc. cbn. split; [|split; [|split; [|split; [|split]]]]; auto.
            -- intros j J Q. unfold put. destruct (Nat.eqb_spec j i) as [->|NE].
               ++ destruct (Nat.eqb_spec i 0) as [->|_]; [lia|]. rewrite Nat.eqb_refl. cbn [with_ref n_ref node_init].
                  destruct (Nat.eq_dec i i); [|congruence]. rewrite Ci. reflexivity.
               ++ destruct (Nat.eq_dec i j); [congruence|]. apply A1; auto. intros [X|X]; congruence.
            -- intros j J. destruct (A3 j (or_intror J)) as [X Y]. split; auto. intros [<-|Q]; tauto.
            -- intros j J. destruct (A4 j J) as [[<-|X]|X]; auto.
            -- intros j [<-|J]; auto; lia.
          * intros j J. unfold same. cbn. unfold put. destruct (Nat.eqb_spec j i) as [->|]; auto. elim J. now left.
          * assert (F127 : firstn 127 s = s) by (apply firstn_all2; apply Ln; now left).
            unfold name, hs_ok. cbn -[firstn gen_node]. unfold put. rewrite !Nat.eqb_refl. unfold node_init, with_ref.
            cbn -[firstn gen_node]. rewrite F127. do 2 (split; [reflexivity|]). rewrite K. split; [reflexivity|]. split; [intros j J; now right|].
            cbn. lia.
      - rewrite E. replace (0 <=? Z.of_nat k)%Z with true by (symmetry; apply Z.leb_le; lia). rewrite Nat2Z.id.
        assert (Ia : In (nth k (arr c) 0) (arr c)) by (now apply nth_In).
        destruct (Old (nth k (arr c) 0)) as (O1 & O2 & O3 & O4); auto.
        { apply Ac. auto. }
        { now apply (proj2 Co). }
        cbv zeta. repeat (split; [assumption || reflexivity || congruence|]). split; [now rewrite K3|]. split; [auto|]. rewrite K3. cbn [negb andb]. cbn. lia. }
    destruct got as [[[c1 i] k]|]; [|destruct G as (G1 & G2 & G3); rewrite G1; cbn [filter]; rewrite G2, G3; cbn; lia]. cbv zeta in G. set (c2 := with_node c1 _) in *.
    destruct G as (G1 & G2 & G3 & G4 & G5 & G6 & G7 & G8 & G9 & G10 & G11).
    assert (Ea : arr c2 = arr c) by (unfold arr; now rewrite G4).
    assert (Sa : forall j, In j (arr c) -> same (k_node c) (k_node c2) j) by (intros j J; apply G2; auto).
    assert (Z0 : ~ In 0 (k_free c)) by (intros Q; apply (proj1 (proj2 (proj2 Ac))) in Q; lia).
    specialize (IH c2 (i :: A) G1). rewrite Ea in IH. specialize (IH (fun j J => or_intror (Sub j J)) (core_same _ _ _ Sa Co) (same_hs _ _ _ (G2 0 Z0) H0) (fun x X => Ln x (or_intror X))).
    assert (Kn : forall x, known c2 x = known c x) by (intros x; now apply known_same).
    assert (N0 : name c2 0 = name c 0) by (symmetry; apply (G2 0 Z0)).
    assert (Fe : filter (fun s0 => negb (known c2 s0) && negb (beqb s0 (name c2 0))) r = filter (fun s0 => negb (known c s0) && negb (beqb s0 (name c 0))) r)
      by (apply filter_ext; intros x; now rewrite Kn, N0).
    rewrite Fe in IH.
    destruct (build c2 r) as [[[c3 l] nf]|].
    2:{ cbn [filter]. destruct (negb (known c s) && negb (beqb s (name c 0))); cbn [length]; lia. }
    destruct IH as (I1 & I2 & I3 & I4 & I5 & I6 & I7 & I8 & I9 & I10 & I11).
    assert (Fi2 : ~ In i (k_free c2)) by (intros Q; apply (proj1 (proj2 (proj2 G1)) i) in Q; apply Q; now left).
    split; [|split; [|split; [congruence|split; [congruence|split; [congruence|split; [congruence|split; [|split; [|split; [|split]]]]]]]]].
    + eapply acc_perm; [|exact I1]. cbn [app]. symmetry. apply Permutation_middle.
    + intros j J. assert (J2 : ~ In j (k_free c2)) by (intros Q; apply J; auto).
      destruct (G2 j J) as (X1 & X2 & X3), (I2 j J2) as (Y1 & Y2 & Y3). repeat split; congruence.
    + cbn [map]. f_equal; auto. rewrite <- G7. symmetry. apply (I2 i Fi2).
    + intros j [<-|J]; auto. apply (same_hs _ _ _ (I2 i Fi2)). exact G8.
    + cbn [filter]. rewrite I9, G9. rewrite (filter_ext _ _ Kn). destruct (known c s); reflexivity.
    + auto.
    + cbn [filter]. rewrite <- G11, <- I11. destruct (negb (known c s) && negb (beqb s (name c 0))); cbn [length]; lia.
Qed.
End Inv.
