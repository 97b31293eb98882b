(* Allocation and release of a slot, on the blocks. *)
From Verif Require Import Base SlbModel SlbCls SlbSum SlbList SlbBlk.
Open Scope Z_scope.

(* ---- the used slots *)
Definition U (l : list gs) : list gs := filter g_u l.

Lemma U_app a b : U (a ++ b) = U a ++ U b.
Proof. apply filter_app. Qed.
Lemma U_perm l l' : Permutation l l' -> Permutation (U l) (U l').
Proof.
  induction 1 as [|x l l' P IH|x y l|l l' l'' P1 IH1 P2 IH2]; unfold U in *; cbn [filter].
  - constructor.
  - destruct (g_u x); [constructor|]; exact IH.
  - destruct (g_u x), (g_u y); try apply Permutation_refl. apply perm_swap.
  - eapply Permutation_trans; eassumption.
Qed.
Lemma U_free x l : g_u x = false -> U (x :: l) = U l.
Proof. intro H. unfold U. cbn [filter]. rewrite H. reflexivity. Qed.
Lemma U_used x l : g_u x = true -> U (x :: l) = x :: U l.
Proof. intro H. unfold U. cbn [filter]. rewrite H. reflexivity. Qed.

Lemma wsum_U w l : (forall g, g_u g = false -> w g = 0) -> wsum w l = wsum w (U l).
Proof.
  intro H. induction l as [|x l IH]; [reflexivity|]. cbn [wsum]. unfold U. cbn [filter].
  destruct (g_u x) eqn:E; [cbn [wsum]; fold (U l); lia|]. fold (U l). rewrite (H x E). lia.
Qed.

Lemma wsum_same w l l' : (forall g, g_u g = false -> w g = 0) -> Permutation (U l) (U l') ->
  wsum w l = wsum w l'.
Proof. intros H P. rewrite (wsum_U w l H), (wsum_U w l' H). apply wsum_perm. exact P. Qed.

Ltac uz := let g := fresh in let H := fresh in intros g H; rewrite H; reflexivity.
Lemma uge_same c l l' : Permutation (U l) (U l') -> uge c l = uge c l'.
Proof. apply wsum_same. uz. Qed.
Lemma utot_same l l' : Permutation (U l) (U l') -> utot l = utot l'.
Proof. apply wsum_same. uz. Qed.
Lemma UInv_same u l l' : Permutation (U l) (U l') -> UInv u l -> UInv u l'.
Proof.
  intros P [A B C].
  assert (E1 : forall c, ucnt c l = ucnt c l') by (intro c; apply wsum_same; [uz|exact P]).
  assert (E2 : forall c, usp c l = usp c l') by (intro c; apply wsum_same; [uz|exact P]).
  split.
  - intro c. rewrite A, E1, E2. reflexivity.
  - rewrite B. apply utot_same. exact P.
  - eapply bnd_ext; [|exact C]. intro c. cbn beta. rewrite E1. reflexivity.
Qed.

(* ---- taking a part of a free slot *)
Lemma dj_sub g x a n u : dj g x -> g_a g <= a -> a + n <= g_a g + g_l g -> dj (mkG (g_b g) a n u) x.
Proof. intros [H|H] H1 H2; [left|right]; cbn [g_a g_l]; lia. Qed.

Lemma take_ok m f p FL B g slen :
  LInv m f p FL (slots B) -> Forall BI B -> In g (slots B) -> g_u g = false ->
  32 <= slen <= 49152 -> slen mod 8 = 0 -> slen <= g_l g -> p_cls p <> -1 ->
  m_w m (g_a g + 4) = (goff g / 8, g_l g / 8) /\
  exists m' f' p' FL' B' l,
    match free_slot_unlink m f p (g_a g) with
    | None => None
    | Some (m1, f1, p1) =>
        let m2 := used_slot_init m1 (g_a g) (goff g) slen in
        if g_l g >? slen
        then free_slot_link m2 f1 p1 (g_a g + slen) (goff g + slen) (g_l g - slen)
        else Some (m2, f1, p1)
    end = Some (m', f', p') /\
    LInv m' f' p' FL' (slots B') /\ Forall BI B' /\ map fst B' = map fst B /\
    p_cls p' = p_cls p /\ p_space p' = p_space p /\
    Permutation (slots B') (mkG (g_b g) (g_a g) slen true :: l) /\
    Permutation (U l) (U (slots B)) /\
    (forall x, x < g_a g \/ g_a g + g_l g <= x -> m_w m' x = m_w m x).
Proof.
  intros HL HB Hg Hu Hs1 Hs2 Hs3 Hp.
  pose proof (li_tag _ _ _ _ _ HL g Hg) as Tg. unfold tag in Tg. rewrite Hu in Tg.
  split; [apply Tg|]. clear Tg.
  pose proof (li_geo _ _ _ _ _ HL g Hg) as Gg. pose proof Gg as [G1 G2 G3 G4 G5 G6 G7].
  destruct (slots_split B g Hg) as (B1 & b & L1 & L2 & B2 & ->).
  set (rest := slots B1 ++ L1 ++ L2 ++ slots B2).
  assert (P0 : Permutation (slots (B1 ++ (b, L1 ++ g :: L2) :: B2)) (g :: rest)).
  { exact (slots_mid B1 b L1 [g] L2 B2). }
  pose proof (LInv_perm _ _ _ _ _ _ P0 HL) as HL0.
  destruct (unlink_ok m f p FL rest g HL0 Hu Hp) as (m1 & f1 & p1 & FL1 & E1 & HL1 & C1 & S1 & W1).
  rewrite E1. cbv zeta.
  pose proof (li_dj _ _ _ _ _ HL0) as D0. inversion D0 as [|? ? D1' D2]; subst.
  pose proof (proj1 (Forall_forall _ _) D1') as D1. clear D1'.
  apply Forall_app in HB as [HB1 HB]. inversion HB as [|? ? [Bt Bn Bu] HB2]; subst. cbn [fst snd] in Bt, Bn, Bu.
  assert (Eb : g_b g = b).
  { apply (tile_in _ _ g _ _ Bt). apply in_or_app. right. left. reflexivity. }
  set (ug := mkG (g_b g) (g_a g) slen true).
  assert (Gug : geo1 ug).
  { split; unfold goff, ug in *; cbn [g_a g_b g_l g_u] in *; auto; lia. }
  assert (HL2 : LInv (used_slot_init m1 (g_a g) (goff g) slen) f1 p1 FL1 (ug :: rest)).
  { apply (used_ok m1 f1 p1 FL1 rest ug HL1 Gug eq_refl).
    intros x Hx. apply dj_sub; [apply D1; exact Hx|lia|cbn [ug g_l]; lia]. }
  apply tile_app in Bt as (md & T1 & T2). cbn [tile] in T2. destruct T2 as (_ & Ea & _ & T2).
  apply noff_cat in Bn as (N1 & N2 & N3). cbn [fu] in N3. rewrite Hu in N3.
  assert (N3' : lu L1) by (destruct N3 as [N3|N3]; [exact N3|discriminate]).
  change (g :: L2) with ([g] ++ L2) in N2. apply noff_cat in N2 as (_ & N4 & N5).
  cbn [lu last] in N5. rewrite Hu in N5. assert (N5' : fu L2) by (destruct N5 as [N5|N5]; [discriminate|exact N5]).
  assert (Fr : forall x, x < g_a g \/ g_a g + g_l g <= x -> m_w (used_slot_init m1 (g_a g) (goff g) slen) x = m_w m x).
  { intros x Hx. rewrite used_init_frame by lia. rewrite W1. reflexivity. }
  destruct (Z.gtb_spec (g_l g) slen) as [Lg|Lg].
  - set (rg := mkG (g_b g) (g_a g + slen) (g_l g - slen) false).
    assert (Grg : geo1 rg).
    { split; unfold goff, rg in *; cbn [g_a g_b g_l g_u] in *; auto; try lia; discriminate. }
    destruct (link_ok _ _ _ _ _ rg HL2 Grg eq_refl) as (m3 & f3 & p3 & FL3 & E3 & HL3 & C3 & S3 & W3).
    { intros x [<-|Hx]; [right; cbn [ug rg g_a g_l]; lia|].
      apply dj_sub; [apply D1; exact Hx|lia|lia]. }
    { left. congruence. }
    replace (goff rg) with (goff g + slen) in E3 by (unfold goff, rg; cbn [g_a g_b]; lia).
    change (g_a rg) with (g_a g + slen) in E3. change (g_l rg) with (g_l g - slen) in E3.
    set (B' := B1 ++ (b, L1 ++ [ug; rg] ++ L2) :: B2).
    assert (P1 : Permutation (slots B') (ug :: rg :: rest)) by exact (slots_mid B1 b L1 [ug; rg] L2 B2).
    exists m3, f3, p3, FL3, B', (rg :: rest). split; [exact E3|]. split.
    { apply (LInv_perm _ _ _ _ (rg :: ug :: rest)); [|exact HL3].
      apply Permutation_sym. eapply Permutation_trans; [exact P1|apply perm_swap]. }
    split.
    { unfold B'. apply Forall_app. split; [exact HB1|]. constructor; [|exact HB2]. split; cbn [fst snd].
      - apply tile_app. exists md. split; [exact T1|]. cbn [app tile ug rg g_a g_b g_l].
        repeat split; try lia; try exact Eb. replace (md + slen + (g_l g - slen)) with (md + g_l g) by lia. exact T2.
      - apply noff_cat. split; [exact N1|]. split; [|left; exact N3'].
        apply noff_cat. split; [cbn [noff ug g_u]; auto|]. split; [exact N4|]. right. exact N5'.
      - exists ug. split; [apply in_or_app; right; left; reflexivity|reflexivity]. }
    split; [unfold B'; rewrite !map_app; reflexivity|].
    split; [congruence|]. split; [congruence|]. split; [exact P1|]. split.
    { rewrite (U_free rg rest eq_refl). apply U_perm in P0. rewrite (U_free g rest Hu) in P0.
      apply Permutation_sym. exact P0. }
    intros x Hx. rewrite W3; [apply Fr; exact Hx|]. cbn [rg g_a g_l]. lia.
  - assert (El : slen = g_l g) by lia.
    set (B' := B1 ++ (b, L1 ++ [ug] ++ L2) :: B2).
    assert (P1 : Permutation (slots B') (ug :: rest)) by exact (slots_mid B1 b L1 [ug] L2 B2).
    exists (used_slot_init m1 (g_a g) (goff g) slen), f1, p1, FL1, B', rest. split; [reflexivity|]. split.
    { apply (LInv_perm _ _ _ _ (ug :: rest)); [|exact HL2]. apply Permutation_sym. exact P1. }
    split.
    { unfold B'. apply Forall_app. split; [exact HB1|]. constructor; [|exact HB2]. split; cbn [fst snd].
      - apply tile_app. exists md. split; [exact T1|]. cbn [app tile ug g_a g_b g_l].
        repeat split; try lia; try exact Eb. rewrite El. exact T2.
      - apply noff_cat. split; [exact N1|]. split; [|left; exact N3'].
        apply noff_cat. split; [cbn [noff]; auto|]. split; [exact N4|]. right. exact N5'.
      - exists ug. split; [apply in_or_app; right; left; reflexivity|reflexivity]. }
    split; [unfold B'; rewrite !map_app; reflexivity|].
    split; [congruence|]. split; [congruence|]. split; [exact P1|]. split.
    { apply U_perm in P0. rewrite (U_free g rest Hu) in P0. apply Permutation_sym. exact P0. }
    exact Fr.
Qed.

(* ---- the first slot of a new block *)
Lemma fresh_ok m f p FL B b slen :
  LInv m f p FL (slots B) -> Forall BI B -> 0 < b -> 
  (forall x, In x (map fst B) -> b + 262144 <= x \/ x + 262144 <= b) ->
  32 <= slen <= 49152 -> slen mod 8 = 0 ->
  exists m' f' p' FL' B' l,
    free_slot_link (used_slot_init m (b + 32) 32 slen) f p (b + 32 + slen) (32 + slen) (262112 - slen)
      = Some (m', f', p') /\
    LInv m' f' p' FL' (slots B') /\ Forall BI B' /\ map fst B' = map fst B ++ [b] /\
    p_cls p' = p_cls p /\ p_space p' = p_space p /\
    Permutation (slots B') (mkG b (b + 32) slen true :: l) /\
    Permutation (U l) (U (slots B)) /\
    (forall x, In x l -> In x (slots B) \/ 49152 <= g_l x) /\
    (forall x, x < b + 32 \/ b + 262144 <= x -> m_w m' x = m_w m x).
Proof.
  intros HL HB Hb Hd Hs1 Hs2.
  assert (Hd2 : forall x, In x (slots B) -> g_a x + g_l x <= b \/ b + 262144 <= g_a x).
  { intros x Hx. destruct (slots_split B x Hx) as (B1 & b' & L1 & L2 & B2 & ->).
    apply Forall_app in HB as [_ HB]. inversion HB as [|? ? [Bt _ _] _]; subst. cbn [fst snd] in Bt.
    apply (tile_in _ _ x) in Bt; [|apply in_or_app; right; left; reflexivity].
    assert (In b' (map fst (B1 ++ (b', L1 ++ x :: L2) :: B2))).
    { rewrite map_app. apply in_or_app. right. left. reflexivity. }
    destruct (Hd b' H); lia. }
  set (ug := mkG b (b + 32) slen true). set (rg := mkG b (b + 32 + slen) (262112 - slen) false).
  assert (Gug : geo1 ug).
  { split; unfold goff, ug; cbn [g_a g_b g_l g_u]; auto; lia. }
  assert (Grg : geo1 rg).
  { split; unfold goff, rg; cbn [g_a g_b g_l g_u]; auto; try lia; discriminate. }
  assert (HL2 : LInv (used_slot_init m (b + 32) 32 slen) f p FL (ug :: slots B)).
  { replace 32 with (goff ug) at 2 by (unfold goff, ug; cbn [g_a g_b]; lia).
    apply (used_ok m f p FL (slots B) ug HL Gug eq_refl).
    intros x Hx. unfold dj, ug. cbn [g_a g_l]. destruct (Hd2 x Hx); lia. }
  destruct (link_ok _ _ _ _ _ rg HL2 Grg eq_refl) as (m3 & f3 & p3 & FL3 & E3 & HL3 & C3 & S3 & W3).
  { intros x [<-|Hx]; [right; cbn [ug rg g_a g_l]; lia|]. unfold dj, rg. cbn [g_a g_l]. destruct (Hd2 x Hx); lia. }
  { right. cbn [rg g_l]. lia. }
  replace (goff rg) with (32 + slen) in E3 by (unfold goff, rg; cbn [g_a g_b]; lia).
  change (g_a rg) with (b + 32 + slen) in E3. change (g_l rg) with (262112 - slen) in E3.
  set (B' := B ++ [(b, [ug; rg])]).
  assert (P1 : Permutation (slots B') (ug :: rg :: slots B)).
  { unfold B'. rewrite slots_app. cbn [slots map concat snd app]. 
    apply Permutation_sym, (Permutation_app_comm [ug; rg] (slots B)). }
  exists m3, f3, p3, FL3, B', (rg :: slots B). split; [exact E3|]. split.
  { apply (LInv_perm _ _ _ _ (rg :: ug :: slots B)); [|exact HL3].
    apply Permutation_sym. eapply Permutation_trans; [exact P1|apply perm_swap]. }
  split.
  { unfold B'. apply Forall_app. split; [exact HB|]. constructor; [|constructor]. split; cbn [fst snd].
    - cbn [tile ug rg g_a g_b g_l]. repeat split; lia.
    - cbn [noff ug g_u]. auto.
    - exists ug. split; [left; reflexivity|reflexivity]. }
  split; [unfold B'; rewrite map_app; reflexivity|].
  split; [congruence|]. split; [congruence|]. split; [exact P1|]. split.
  { rewrite (U_free rg (slots B) eq_refl). apply Permutation_refl. }
  split.
  { intros x [<-|Hx]; [right; cbn [rg g_l]; lia|left; exact Hx]. }
  intros x Hx. rewrite W3 by (cbn [rg g_a g_l]; lia). apply used_init_frame; lia.
Qed.

(* ---- release *)
Lemma FOP_head x l : ForallOrdPairs dj (x :: l) -> forall y, In y l -> dj x y.
Proof. intro H. inversion H as [|? ? A _]; subst. apply Forall_forall. exact A. Qed.

Lemma dj_merge z b a n1 n2 : 0 < g_l z ->
  dj z (mkG b a n1 false) -> dj z (mkG b (a + n1) n2 false) -> dj z (mkG b a (n1 + n2) false).
Proof. unfold dj. cbn [g_a g_l]. intros; lia. Qed.

Lemma prev_spec m x a b : geo1 x -> tag (m_w m) x -> g_b x = b -> g_a x + g_l x = a ->
  prev_free m a b = Some (if g_u x then 0 else g_a x).
Proof.
  intros [G1 G2 G3 G4 G5 G6 G7] T Eb Ea. unfold prev_free. rewrite <- Ea. unfold tag in T.
  destruct (g_u x) eqn:Ux.
  - destruct T as [T1 T2]. rewrite T1. unfold free_tail. cbn [fst snd].
    specialize (G7 eq_refl). destruct (Z.leb_spec (g_l x / 8) 1); [lia|reflexivity].
  - destruct T as (T1 & T2 & T3 & T4). unfold free_tail. destruct (Z.leb_spec (snd (m_w m (g_a x + g_l x - 4))) 1); [|lia].
    rewrite T1. unfold goff in *. replace (b + (g_a x - g_b x) / 8 * 8) with (g_a x) by lia.
    rewrite T3, T4. cbn [fst]. rewrite Z.eqb_refl. reflexivity.
Qed.

Lemma next_spec m y tl : geo1 y -> tag (m_w m) y -> g_a y = tl + 4 ->
  next_free m tl = Some (if g_u y then 0 else g_a y).
Proof.
  intros [G1 G2 G3 G4 G5 G6 G7] T Ea. unfold next_free. rewrite <- Ea. unfold tag in T.
  destruct (g_u y) eqn:Uy.
  - destruct T as [T1 T2]. rewrite T2. reflexivity.
  - destruct T as (T1 & T2 & T3 & T4). rewrite T3. cbn [free_slot fst snd Z.eqb andb].
    rewrite T4. cbn [fst snd]. replace (g_l y / 8 * 8) with (g_l y) by lia.
    rewrite T1, Z.eqb_refl. unfold free_tail. destruct (Z.leb_spec (snd (m_w m (g_a y + g_l y - 4))) 1); [|lia]. reflexivity.
Qed.

Lemma snoc_cases (A : Type) (l : list A) : l = [] \/ exists k x, l = k ++ [x].
Proof. destruct l as [|y l]; [left; reflexivity|]. right. destruct (exists_last (l := y :: l)) as (k & x & E); [discriminate|]. exists k, x. exact E. Qed.

Lemma merge_ok m f p FL S1 S2 b L1 L2 a n :
  let g := mkG b a n true in
  LInv m f p FL (S1 ++ L1 ++ L2 ++ S2) -> geo1 g ->
  (forall x, In x (S1 ++ L1 ++ L2 ++ S2) -> dj x g) ->
  tile b (b + 32) (b + 262144) (L1 ++ g :: L2) -> noff (L1 ++ g :: L2) -> p_cls p <> -1 ->
  exists m' f' p' FL' L1' L2' a1 off1 n1,
    merge m f p a (a - b) n = Some (m', f', p', (a1, off1, n1)) /\
    LInv m' f' p' FL' (S1 ++ L1' ++ L2' ++ S2) /\
    p_cls p' = p_cls p /\ p_space p' = p_space p /\ m_w m' = m_w m /\ off1 = a1 - b /\
    geo1 (mkG b a1 n1 false) /\
    (forall x, In x (S1 ++ L1' ++ L2' ++ S2) -> dj x (mkG b a1 n1 false)) /\
    tile b (b + 32) (b + 262144) (L1' ++ mkG b a1 n1 false :: L2') /\
    noff L1' /\ noff L2' /\ lu L1' /\ fu L2' /\ U L1' = U L1 /\ U L2' = U L2 /\
    a1 <= a /\ a + n <= a1 + n1.
Proof.
  intros g HL Gg Hd T N Hp. pose proof Gg as [G1 G2 G3 G4 G5 G6 G7]. unfold goff in *. cbn [g g_a g_b g_l g_u] in *.
  specialize (G7 eq_refl).
  apply tile_app in T as (md & T1 & T2). cbn [tile g g_a g_b g_l] in T2. destruct T2 as (_ & Ea & _ & T2). subst md.
  apply noff_cat in N as (N1 & N2 & _). change (g :: L2) with ([g] ++ L2) in N2.
  apply noff_cat in N2 as (_ & N2 & _).
  unfold merge. change BHEAD with 32. change BLK with 262144.
  (* left side *)
  assert (Left : exists m1 f1 p1 FL1 L1' a1 n1,
    (if a - b >? 32
     then match prev_free m a (a - (a - b)) with
          | None => None
          | Some x => if x =? 0 then Some (m, f, p, (a, a - b, n))
                      else match free_slot_unlink m f p x with
                           | None => None
                           | Some (m, f, p) => Some (m, f, p, (x, fst (m_w m (x + 4)) * 8, n + snd (m_w m (x + 4)) * 8))
                           end
          end
     else Some (m, f, p, (a, a - b, n))) = Some (m1, f1, p1, (a1, a1 - b, n1)) /\
    LInv m1 f1 p1 FL1 (S1 ++ L1' ++ L2 ++ S2) /\ p_cls p1 = p_cls p /\ p_space p1 = p_space p /\ m_w m1 = m_w m /\
    geo1 (mkG b a1 n1 false) /\ (forall x, In x (S1 ++ L1' ++ L2 ++ S2) -> dj x (mkG b a1 n1 false)) /\
    tile b (b + 32) a1 L1' /\ a1 + n1 = a + n /\ noff L1' /\ lu L1' /\ U L1' = U L1 /\ a1 <= a).
  { assert (Same : lu L1 -> exists m1 f1 p1 FL1 L1' a1 n1,
      Some (m, f, p, (a, a - b, n)) = Some (m1, f1, p1, (a1, a1 - b, n1)) /\
      LInv m1 f1 p1 FL1 (S1 ++ L1' ++ L2 ++ S2) /\ p_cls p1 = p_cls p /\ p_space p1 = p_space p /\ m_w m1 = m_w m /\
      geo1 (mkG b a1 n1 false) /\ (forall x, In x (S1 ++ L1' ++ L2 ++ S2) -> dj x (mkG b a1 n1 false)) /\
      tile b (b + 32) a1 L1' /\ a1 + n1 = a + n /\ noff L1' /\ lu L1' /\ U L1' = U L1 /\ a1 <= a).
    { intro Hl. exists m, f, p, FL, L1, a, n. do 5 (split; [solve [auto]|]). split.
      { split; unfold goff; cbn [g_a g_b g_l g_u]; auto; try lia; discriminate. }
      split; [exact Hd|]. do 5 (split; [solve [auto]|]). lia. }
    destruct (snoc_cases _ L1) as [->|(K & x & ->)].
    - cbn [tile] in T1. destruct (Z.gtb_spec (a - b) 32); [lia|]. apply Same. exact Logic.I.
    - apply tile_app in T1 as (mx & T1 & Tx). cbn [tile] in Tx. destruct Tx as (Xb & Xa & Xl & Tx).
      pose proof (tile_le _ _ _ _ T1) as Le.
      destruct (Z.gtb_spec (a - b) 32); [|lia]. replace (a - (a - b)) with b by lia.
      assert (Hx : In x (S1 ++ (K ++ [x]) ++ L2 ++ S2)).
      { apply in_or_app. right. apply in_or_app. left. apply in_or_app. right. left. reflexivity. }
      pose proof (li_geo _ _ _ _ _ HL x Hx) as Gx. pose proof (li_tag _ _ _ _ _ HL x Hx) as Tgx.
      rewrite (prev_spec m x a b Gx Tgx Xb) by lia. destruct (g_u x) eqn:Ux.
      + cbn [Z.eqb]. apply Same. apply lu_snoc. exact Ux.
      + pose proof (geo_nz _ Gx) as Nz. apply Z.eqb_neq in Nz. rewrite Nz.
        assert (PX : Permutation (S1 ++ (K ++ [x]) ++ L2 ++ S2) (x :: S1 ++ K ++ L2 ++ S2)).
        { rewrite <- app_assoc. cbn [app]. rewrite app_assoc. 
          eapply Permutation_trans; [apply Permutation_sym, Permutation_middle|]. rewrite <- app_assoc. apply Permutation_refl. }
        pose proof (LInv_perm _ _ _ _ _ _ PX HL) as HLx.
        destruct (unlink_ok _ _ _ _ _ _ HLx Ux Hp) as (m1 & f1 & p1 & FL1 & E1 & HL1 & C1 & Sp1 & W1).
        rewrite E1, W1. unfold tag in Tgx. rewrite Ux in Tgx. destruct Tgx as (_ & _ & _ & T4). rewrite T4. cbn [fst snd].
        pose proof Gx as [X1 X2 X3 X4 X5 X6 X7]. unfold goff in *.
        pose proof (FOP_head _ _ (li_dj _ _ _ _ _ HLx)) as Dx.
        apply noff_cat in N1 as (NK & _ & NL). cbn [fu] in NL. rewrite Ux in NL.
        exists m1, f1, p1, FL1, K, (g_a x), (n + g_l x). split.
        { replace ((g_a x - g_b x) / 8 * 8) with (g_a x - g_b x) by lia. replace (g_l x / 8 * 8) with (g_l x) by lia. rewrite Xb. reflexivity. }
        split; [exact HL1|]. split; [exact C1|]. split; [exact Sp1|]. split; [exact W1|].
        split.
        { split; unfold goff; cbn [g_a g_b g_l g_u]; auto; try lia; discriminate. }
        split.
        { intros y Hy. replace (n + g_l x) with (g_l x + n) by lia. apply dj_merge.
          - apply (ge_l _ (li_geo _ _ _ _ _ HL1 y Hy)).
          - specialize (Dx y Hy). unfold dj in *. cbn [g_a g_l]. lia.
          - replace (g_a x + g_l x) with a by lia. 
            assert (Hy' : In y (S1 ++ (K ++ [x]) ++ L2 ++ S2)) by (apply (Permutation_in _ (Permutation_sym PX)); right; exact Hy).
            specialize (Hd y Hy'). exact Hd. }
        split; [rewrite Xa; exact T1|]. split; [lia|]. split; [exact NK|].
        split; [destruct NL as [NL|NL]; [exact NL|discriminate]|].
        split; [rewrite U_app, (U_free x [] Ux), app_nil_r; reflexivity|]. lia. }
  destruct Left as (m1 & f1 & p1 & FL1 & L1' & a1 & n1 & EL & HL1 & C1 & Sp1 & W1 & Ga & Da & Ta & An & Na & Lu & Ua & Lea).
  match type of EL with ?t = _ => match goal with |- context [match ?t' with _ => _ end] => change t' with t end end.
  rewrite EL. clear EL.
  destruct L2 as [|y L2].
  { cbn [tile] in T2. destruct (Z.ltb_spec (a1 - b + n1) 262144); [lia|].
    exists m1, f1, p1, FL1, L1', [], a1, (a1 - b), n1. do 8 (split; [solve [auto]|]). split.
    { apply tile_app. exists a1. split; [exact Ta|]. cbn [tile g_a g_b g_l]. pose proof (ge_l _ Ga). cbn [g_l] in *. repeat split; lia. }
    do 6 (split; [solve [cbn; auto]|]). lia. }
  cbn [tile] in T2. destruct T2 as (Yb & Ya & Yl & T2). pose proof (tile_le _ _ _ _ T2) as Le.
  destruct (Z.ltb_spec (a1 - b + n1) 262144); [|lia].
  assert (Hy : In y (S1 ++ L1' ++ (y :: L2) ++ S2)).
  { apply in_or_app. right. apply in_or_app. right. left. reflexivity. }
  pose proof (li_geo _ _ _ _ _ HL1 y Hy) as Gy. pose proof (li_tag _ _ _ _ _ HL1 y Hy) as Tgy.
  rewrite (next_spec m1 y (a + n - 4) Gy Tgy) by lia.
  change (y :: L2) with ([y] ++ L2) in N2. apply noff_cat in N2 as (_ & N2 & N2').
  destruct (g_u y) eqn:Uy.
  - cbn [Z.eqb]. exists m1, f1, p1, FL1, L1', (y :: L2), a1, (a1 - b), n1.
    do 8 (split; [solve [auto]|]). split.
    { apply tile_app. exists a1. split; [exact Ta|]. cbn [tile g_a g_b g_l]. pose proof (ge_l _ Ga). cbn [g_l] in *.
      repeat split; try lia; try exact Yb. replace (a1 + n1 + g_l y) with (a + n + g_l y) by lia. exact T2. }
    split; [exact Na|]. split; [cbn [noff]; destruct L2; auto|].
    do 4 (split; [solve [auto]|]). lia.
  - pose proof (geo_nz _ Gy) as Nz. apply Z.eqb_neq in Nz. rewrite Nz.
    assert (PY : Permutation (S1 ++ L1' ++ (y :: L2) ++ S2) (y :: S1 ++ L1' ++ L2 ++ S2)).
    { cbn [app]. rewrite (app_assoc S1 L1' (y :: L2 ++ S2)), (app_assoc S1 L1' (L2 ++ S2)).
      apply Permutation_sym, Permutation_middle. }
    pose proof (LInv_perm _ _ _ _ _ _ PY HL1) as HLy.
    destruct (unlink_ok m1 f1 p1 FL1 _ _ HLy Uy) as (m2 & f2 & p2 & FL2 & E2 & HL2 & C2 & Sp2 & W2); [congruence|].
    rewrite E2, W2. unfold tag in Tgy. rewrite Uy in Tgy. destruct Tgy as (_ & _ & _ & T4). rewrite T4. cbn [fst snd].
    pose proof Gy as [Y1 Y2 Y3 Y4 Y5 Y6 Y7]. pose proof Ga as [A1 A2 A3 A4 A5 A6 A7]. unfold goff in *. cbn [g_a g_b g_l g_u] in *.
    pose proof (FOP_head _ _ (li_dj _ _ _ _ _ HLy)) as Dy.
    replace (g_l y / 8 * 8) with (g_l y) by lia.
    exists m2, f2, p2, FL2, L1', L2, a1, (a1 - b), (n1 + g_l y). split; [reflexivity|].
    split; [exact HL2|]. split; [congruence|]. split; [congruence|]. split; [congruence|]. split; [reflexivity|].
    split.
    { split; unfold goff; cbn [g_a g_b g_l g_u]; auto; try lia; discriminate. }
    split.
    { intros z Hz. apply dj_merge.
      - apply (ge_l _ (li_geo _ _ _ _ _ HL2 z Hz)).
      - apply Da. apply (Permutation_in _ (Permutation_sym PY)). right. exact Hz.
      - specialize (Dy z Hz). unfold dj in *. cbn [g_a g_l]. lia. }
    split.
    { apply tile_app. exists a1. split; [exact Ta|]. cbn [tile g_a g_b g_l]. repeat split; try lia.
      replace (a1 + (n1 + g_l y)) with (a + n + g_l y) by lia. exact T2. }
    split; [exact Na|]. split; [exact N2|]. split; [exact Lu|].
    split; [cbn [lu last] in N2'; rewrite Uy in N2'; destruct N2' as [X|X]; [discriminate|exact X]|].
    split; [exact Ua|]. split; [rewrite (U_free y L2 Uy); reflexivity|]. lia.
Qed.
