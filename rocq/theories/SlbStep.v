(* Every operation keeps the invariant, fails no assertion and leaves the words of the other
   areas in use alone. *)
From Verif Require Import Base SlbModel SlbCls SlbSum SlbList SlbBlk SlbOps SlbChunk SlbInv.
Open Scope Z_scope.

Definition in_area (x : Z * Z) (y : Z) : Prop := fst x <= y < fst x + snd x.

(* memory that agrees on the slots and on the list fields *)
Lemma LInv_mem m m' f p FL l : LInv m f p FL l ->
  (forall c a, In a (FL c) -> m_prev m' a = m_prev m a /\ m_next m' a = m_next m a) ->
  (forall g, In g l -> tag (m_w m) g -> tag (m_w m') g) -> LInv m' f p FL l.
Proof.
  intros [A B C D E] H1 H2. split; auto. apply (FInv_frame m); auto.
Qed.

Lemma write_tag m x w junk g : geo1 g ->
  (x < g_a g \/ g_a g + g_l g <= x \/
   (g_u g = true /\ x < g_a g + g_l g - 4 /\ (x = g_a g -> free_slot w = false))) ->
  tag (m_w m) g -> tag (m_w (write_mem m x w junk)) g.
Proof.
  intros [G1 G2 G3 G4 G5 G6 G7] H T. unfold tag in *. cbn [write_mem m_w]. unfold upd. destruct (g_u g).
  - specialize (G7 eq_refl). destruct T as [T1 T2].
    destruct (Z.eqb_spec (g_a g + g_l g - 4) x); [lia|]. split; [exact T1|].
    destruct (Z.eqb_spec (g_a g) x) as [E|]; [|exact T2]. destruct H as [H|[H|(_ & _ & H)]]; [lia|lia|]. apply H. auto.
  - assert (H' : x < g_a g \/ g_a g + g_l g <= x) by (destruct H as [H|[H|(H & _)]]; [lia|lia|discriminate]).
    destruct (Z.eqb_spec (g_a g + g_l g - 4) x); [lia|]. destruct (Z.eqb_spec (g_a g) x); [lia|].
    destruct (Z.eqb_spec (g_a g + 4) x); [lia|]. exact T.
Qed.

Lemma write_ok m f p FL l x w junk : LInv m f p FL l ->
  (forall g, In g l -> x < g_a g \/ g_a g + g_l g <= x \/
     (g_u g = true /\ x < g_a g + g_l g - 4 /\ (x = g_a g -> free_slot w = false))) ->
  LInv (write_mem m x w junk) f p FL l.
Proof.
  intros HL H. apply (LInv_mem m); [exact HL| |].
  - intros c a Ha. apply (fi_in _ _ _ _ (li_f _ _ _ _ _ HL)) in Ha as (g & Hg & K & _ & <-).
    apply lnk_true in K as [Ku K32]. specialize (H g Hg).
    assert (H' : x < g_a g \/ g_a g + g_l g <= x) by (destruct H as [H|[H|(H & _)]]; [lia|lia|congruence]).
    cbn [write_mem m_prev m_next]. unfold upd.
    repeat match goal with |- context [?a =? ?b] => destruct (Z.eqb_spec a b); [lia|] end. auto.
  - intros g Hg. apply write_tag; [apply (li_geo _ _ _ _ _ HL g Hg)|apply H; exact Hg].
Qed.

Section Step.
Variables csz cper : Z -> Z.
Variable lg : Z.
Hypothesis ST : static csz cper lg.
Notation Inv := (Inv csz cper lg).
Notation cid := (cid csz lg).
Notation out := (out csz lg).
Notation big := (big csz lg).

Lemma out_cons_small B B' b live x i : map fst B' = map fst B ++ [b] -> small x = true ->
  Permutation (upd (out B live) 0 (b :: out B live 0) i) (out B' (x :: live) i).
Proof.
  intros E Hs. unfold upd, SlbInv.out. destruct (Z.eqb_spec i 0) as [->|N].
  - cbn [Z.eqb]. rewrite E. apply Permutation_cons_append.
  - cbn [filter]. unfold SlbInv.big at 2. rewrite Hs. apply Permutation_refl.
Qed.

Lemma out_small B B' live x i : map fst B' = map fst B -> small x = true ->
  out B' (x :: live) i = out B live i.
Proof.
  intros E Hs. unfold SlbInv.out. rewrite E. destruct (Z.eqb_spec i 0) as [->|N]; [reflexivity|].
  cbn [filter]. unfold SlbInv.big at 1. rewrite Hs. reflexivity.
Qed.

Lemma slots_nil B : Forall BI B -> utot (slots B) = 0 -> posl (slots B) -> B = [].
Proof.
  intros HB H HP. destruct B as [|x B0] eqn:EB0; [reflexivity|]. exfalso.
  destruct (BI_used (x :: B0) HB ltac:(discriminate)) as (y & Hy & Uy).
  pose proof (utot_pos _ _ HP Hy Uy). lia.
Qed.

(* ---- writing *)
Lemma write_live s B live a size off w junk : Inv s B live -> In (a, size) live ->
  0 <= off < size -> (off = 0 -> free_slot w = false) -> off mod 4 = 0 ->
  Inv (set_mem s (write_mem (s_mem s) (a + off) w junk)) B live.
Proof.
  intros I Hx Ho Hw H4. destruct (v_s _ _ _ _ _ _ I) as [[FL HL] A1 A2 A3 A4 A5].
  assert (HL' : LInv (write_mem (s_mem s) (a + off) w junk) (s_f s) (s_p s) FL (slots B)).
  { apply write_ok; [exact HL|]. intros g Hg.
    destruct (Z_lt_dec (a + off) (g_a g)) as [|N1]; [left; assumption|].
    destruct (Z_le_dec (g_a g + g_l g) (a + off)) as [|N2]; [right; left; assumption|]. right. right.
    destruct (slot_vs_live _ _ _ ST s B live g (a, size) (a + off) I Hg Hx) as (_ & Q1 & Q2 & Q3 & Q4);
      cbn [fst snd] in *; try lia.
    split; [exact Q1|]. split; [exact Q4|]. intro E. apply Hw. lia. }
  destruct I as [_ V2 V3 V4 V5 V6]. split; auto.
  - cbn [set_mem s_mem s_u s_f s_p]. split; auto. exists FL. exact HL'.
  - apply (CInv_same _ _ _ ST s); [repeat split; reflexivity|exact V4].
Qed.

(* ---- release of small memory *)
Lemma sm_free_ok s B live a size w : Inv s B live -> In (a, size) live -> small (a, size) = true ->
  forall live', Permutation live ((a, size) :: live') ->
  exists s' B', sm_free (set_mem s (write_mem (s_mem s) a w 0)) a size = Some s' /\ Inv s' B' live' /\
    (forall x y, In x live' -> in_area x y -> m_w (s_mem s') y = m_w (s_mem s) y).
Proof.
  intros I Hx Hs live' PL.
  destruct (live_small _ _ _ s B live _ I Hx Hs) as (g & Hg & Hu & Ea & El & Le). cbn [fst snd] in Ea, El, Le.
  pose proof (v_s _ _ _ _ _ _ I) as [[FL HL] A1 A2 A3 A4 A5].
  pose proof (li_geo _ _ _ _ _ HL g Hg) as Gg. pose proof Gg as [G1 G2 G3 G4 G5 G6 G7]. specialize (G7 Hu).
  pose proof (li_tag _ _ _ _ _ HL g Hg) as Tg. unfold tag in Tg. rewrite Hu in Tg. destruct Tg as [Tt _].
  destruct (slots_split B g Hg) as (B1 & b & L1 & L2 & B2 & EB).
  set (rest := slots B1 ++ L1 ++ L2 ++ slots B2).
  assert (P0 : Permutation (slots B) (g :: rest)) by (rewrite EB; exact (slots_mid B1 b L1 [g] L2 B2)).
  pose proof (LInv_perm _ _ _ _ _ _ P0 HL) as HL0.
  pose proof (FOP_head _ _ (li_dj _ _ _ _ _ HL0)) as Dg.
  pose proof (LInv_drop _ _ _ _ _ _ HL0 Hu) as HLr.
  set (m1 := write_mem (s_mem s) a w 0).
  assert (HL1 : LInv m1 (s_f s) (s_p s) FL rest).
  { apply write_ok; [exact HLr|]. intros x Hxr. destruct (Dg x Hxr); lia. }
  assert (Tt1 : m_w m1 (a + g_l g - 4) = (goff g / 8, g_l g / 8)).
  { unfold m1. cbn [write_mem m_w]. unfold upd. destruct (Z.eqb_spec (a + g_l g - 4) a); [lia|]. rewrite <- Ea. exact Tt. }
  assert (NE : B <> []) by (intros ->; destruct B1; discriminate).
  destruct (A5 NE) as [Pc0 Psp]. assert (Pc : p_cls (s_p s) <> -1) by lia.
  pose proof A2 as A2'. rewrite EB in A2'. apply Forall_app in A2' as [HB1 HB]. inversion HB as [|? ? [Bt Bn Bu] HB2]; subst x l. cbn [fst snd] in Bt, Bn, Bu.
  assert (Eb : g_b g = b) by (apply (tile_in _ _ g _ _ Bt); apply in_or_app; right; left; reflexivity).
  assert (Eg : g = mkG b a (g_l g) true) by (destruct g; cbn in *; subst; reflexivity).
  destruct (merge_ok m1 (s_f s) (s_p s) FL (slots B1) (slots B2) b L1 L2 a (g_l g)) as
    (m2 & f2 & p2 & FL2 & L1' & L2' & a1 & off1 & n1 & EM & HL2 & C2 & Sp2 & W2 & Eo & Gn & Dn & Tn & N1 & N2 & Lu & Fu & U1 & U2 & Le1 & Le2).
  { exact HL1. }
  { rewrite <- Eg. exact Gg. }
  { rewrite <- Eg. intros x Hxr. specialize (Dg x Hxr). unfold dj in *. lia. }
  { rewrite <- Eg. exact Bt. }
  { rewrite <- Eg. exact Bn. }
  { exact Pc. }
  set (gn := mkG b a1 n1 false) in *.
  set (rest' := slots B1 ++ L1' ++ L2' ++ slots B2) in *.
  assert (PU0 : Permutation (U (slots B)) (g :: U rest')).
  { eapply Permutation_trans; [apply U_perm; exact P0|]. rewrite (U_used g rest Hu). constructor.
    unfold rest, rest'. rewrite !U_app, U1, U2. apply Permutation_refl. }
  set (targ := memid (g_l g) true). change targ with (ucls g) in *.
  (* the released slot *)
  assert (PUr : Permutation (U (slots B)) (U (g :: rest'))) by (rewrite (U_used g rest' Hu); exact PU0).
  pose proof (UInv_same _ _ _ PUr A1) as HU1.
  destruct (used_sub_ok _ _ rest' g HU1 Hu ltac:(lia) (Permutation_refl _)) as (u' & Eu' & HU').
  assert (Pl' : posl rest') by (intros x Hxr; apply (ge_l _ (li_geo _ _ _ _ _ HL2 x Hxr))).
  assert (Hspace : p_space p2 = iff (p_cls p2 <=? ucls g) (g_l g) + uge (p_cls p2) rest').
  { rewrite Sp2, C2, A3, (uge_same _ _ _ PUr), (uge_used _ _ _ Hu). reflexivity. }
  (* the common end *)
  assert (Fin : forall s1 B', s_mem s1 = s_mem s1 -> Forall BI B' ->
     (exists FL', LInv (s_mem s1) (s_f s1) (s_p s1) FL' (slots B')) ->
     Permutation (U (slots B')) (U rest') -> s_u s1 = s_u s -> p_cls (s_p s1) = p_cls p2 -> p_space (s_p s1) = p_space p2 ->
     s_blks s1 = map fst B' -> CInv csz cper lg s1 (out B' live') ->
     (forall i, 0 <= i <= lg -> c_req (s_cls s1 i) =
              if i =? 0 then 262144 * Z.of_nat (length B') else zsum (map snd (filter (big i) live'))) ->
     (forall y, y < b + 32 \/ b + 262144 <= y \/ (exists z, In z (U rest') /\ g_a z <= y < g_a z + g_l z) ->
        m_w (s_mem s1) y = m_w m1 y) ->
     exists s' B'', match used_sub (s_u s1) (g_l g) (ucls g) with
       | None => None
       | Some u => match p_after_free u (s_f s1) (s_p s1) (g_l g) (ucls g) with
                   | None => None
                   | Some p => Some (set_sm s1 (s_mem s1) u (s_f s1) p)
                   end
       end = Some s' /\ Inv s' B'' live' /\
       (forall x y, In x live' -> in_area x y -> m_w (s_mem s') y = m_w (s_mem s) y)).
  { intros s1 B' _ HB' (FL' & HL') PU Eus Ecl Esp Ebl HC HR HF. rewrite Eus, Eu'.
    destruct (after_free (s_mem s1) u' (s_f s1) (s_p s1) FL' B' g rest' HL' HB' Hu ltac:(lia) Pl') as (p' & Ep' & HS').
    - apply (UInv_same _ rest'); [apply Permutation_sym; exact PU|exact HU'].
    - intro c. apply uge_same. exact PU.
    - apply utot_same. exact PU.
    - rewrite Ecl, Esp. exact Hspace.
    - rewrite Ecl, C2. exact Pc0.
    - rewrite Esp, Sp2. exact Psp.
    - rewrite Ep'. exists (set_sm s1 (s_mem s1) u' (s_f s1) p'), B'. split; [reflexivity|].
      assert (IN : Inv (set_sm s1 (s_mem s1) u' (s_f s1) p') B' live').
      { split; cbn [set_sm s_mem s_u s_f s_p s_blks s_cls].
        - exact HS'.
        - exact Ebl.
        - eapply Permutation_trans; [apply Permutation_map; exact PU|].
          pose proof (v_use _ _ _ _ _ _ I) as VU.
          assert (X : Permutation (map ara (filter small ((a, size) :: live'))) (sla g :: map sla (U rest'))).
          { eapply Permutation_trans; [apply Permutation_sym, Permutation_map, filter_perm; exact PL|].
            eapply Permutation_trans; [apply Permutation_sym; exact VU|].
            change (sla g :: map sla (U rest')) with (map sla (g :: U rest')). apply Permutation_map. exact PU0. }
          cbn [filter] in X. rewrite Hs in X. cbn [map] in X. unfold ara at 1, sla at 1 in X. cbn [fst snd] in X. rewrite Ea, El in X.
          apply Permutation_cons_inv in X. apply Permutation_sym. exact X.
        - apply (CInv_same _ _ _ ST s1); [repeat split; reflexivity|exact HC].
        - intros x Hxl. apply (v_lv _ _ _ _ _ _ I). apply (Permutation_in _ (Permutation_sym PL)). right. exact Hxl.
        - exact HR. }
      split; [exact IN|].
      intros x y Hxl Hy. cbn [set_sm s_mem].
      assert (Hxl0 : In x live) by (apply (Permutation_in _ (Permutation_sym PL)); right; exact Hxl).
      rewrite HF.
      + unfold m1. cbn [write_mem m_w]. unfold upd. destruct (Z.eqb_spec y a) as [->|]; [|reflexivity]. exfalso.
        pose proof (live_dj _ _ _ ST _ _ _ I) as D. apply (FOPA_perm _ _ PL) in D. inversion D as [|? ? D1 _]; subst l.
        rewrite Forall_forall in D1. specialize (D1 x Hxl). unfold djA, in_area in *. cbn [fst snd] in D1.
        pose proof (v_lv _ _ _ _ _ _ I (a, size) Hx) as [Sz _]. cbn [snd] in Sz. lia.
      + destruct (small x) eqn:Sx.
        * assert (Hin : In (ara x) (map sla (U rest'))).
          { apply (Permutation_in (l := map sla (U (slots B')))); [apply Permutation_map; exact PU|].
            apply (Permutation_in _ (Permutation_sym (v_use _ _ _ _ _ _ IN))). apply in_map. apply filter_In. auto. }
          apply in_map_iff in Hin as (z & Ez & Hz). right. right. exists z. split; [exact Hz|].
          unfold sla, ara in Ez. injection Ez as Ez1 Ez2. rewrite Ez1, Ez2.
          unfold small in Sx. apply Z.leb_le in Sx. pose proof (v_lv _ _ _ _ _ _ I x Hxl0) as [Sz _].
          pose proof (slen_range (snd x)) as R. unfold MAX_SM_VALUE_LEN, MAXS in R. unfold in_area in Hy. lia.
        * destruct (live_large _ _ _ ST s B live x I Hxl0 Sx) as (Ho & Hr & Hc).
          assert (Hb : In b (out B live 0)).
          { unfold SlbInv.out. cbn [Z.eqb]. rewrite EB, map_app. apply in_or_app. right. left. reflexivity. }
          pose proof (out_dj _ _ _ ST s _ 0 (cid (snd x)) b (fst x) (v_c _ _ _ _ _ _ I) ltac:(lia) ltac:(lia) Hb Ho ltac:(lia)) as D.
          unfold djA, in_area in *. cbn [fst snd] in D. rewrite (st_0 _ _ _ ST) in D. lia. }
  (* run the code *)
  unfold sm_free. rewrite <- El.
  set (s0 := set_mem s m1).
  assert (Es0 : exists x, upd_ssl s0 = set_ssl s0 x).
  { unfold upd_ssl. destruct (s_lim s0 >? 0); [eexists; reflexivity|]. exists (s_ssl s0). destruct s; reflexivity. }
  destruct Es0 as [ssl Es0]. rewrite Es0. clear Es0. cbn [set_ssl s_mem s0 set_mem s_f s_p].
  fold (ucls g). rewrite Tt1. cbn [fst snd].
  replace (g_l g / 8 * 8) with (g_l g) by lia. rewrite Z.eqb_refl. cbn [negb].
  replace (goff g / 8 * 8) with (a - b) by (unfold goff in *; lia).
  rewrite EM. change BHEAD with 32. change BBODY with 262112.
  assert (OutS : forall i, Permutation (out B live i) (out B live' i)).
  { intro i. unfold SlbInv.out. destruct (i =? 0); [apply Permutation_refl|].
    apply Permutation_map. eapply Permutation_trans; [apply filter_perm; exact PL|]. cbn [filter].
    unfold SlbInv.big at 1. rewrite Hs. apply Permutation_refl. }
  assert (ReqS : forall i, 0 <= i <= lg -> i <> 0 -> c_req (s_cls s i) = zsum (map snd (filter (big i) live'))).
  { intros i Ri Ni. rewrite (v_req _ _ _ _ _ _ I i Ri). destruct (Z.eqb_spec i 0); [contradiction|].
    apply zsum_perm, Permutation_map. eapply Permutation_trans; [apply filter_perm; exact PL|]. cbn [filter].
    unfold SlbInv.big at 1. rewrite Hs. apply Permutation_refl. }
  destruct ((off1 >? 32) || (n1 <? 262112)) eqn:Ew.
  - (* the block keeps other slots *)
    destruct (link_ok m2 f2 p2 FL2 rest' gn HL2 Gn eq_refl) as (m3 & f3 & p3 & FL3 & E3 & HL3 & C3 & Sp3 & W3).
    { intros x Hxr. specialize (Dn x Hxr). unfold dj in *. lia. }
    { left. congruence. }
    change (g_a gn) with a1 in E3. change (g_l gn) with n1 in E3. replace (goff gn) with off1 in E3 by (rewrite Eo; reflexivity).
    rewrite E3. cbn [set_sm s_u].
    apply (Fin (set_sm (set_ssl s0 ssl) m3 (s_u s) f3 p3) (B1 ++ (b, L1' ++ [gn] ++ L2') :: B2)); cbn [set_sm s_mem s_u s_f s_p s_blks set_ssl s0 set_mem s_cls]; auto.
    + apply Forall_app. split; [exact HB1|]. constructor; [|exact HB2]. split; cbn [fst snd].
      * exact Tn.
      * apply noff_cat. split; [exact N1|]. split; [|left; exact Lu].
        apply noff_cat. split; [cbn [noff]; auto|]. split; [exact N2|]. right. exact Fu.
      * apply tile_app in Tn as (md & Tn1 & Tn2). cbn [tile gn g_a g_l g_b] in Tn2. destruct Tn2 as (_ & Ea1 & _ & Tn2).
        destruct (snoc_cases _ L1') as [->|(K & x & ->)].
        -- cbn [tile] in Tn1. destruct L2' as [|y L2'].
           ++ exfalso. cbn [tile] in Tn2. apply orb_true_iff in Ew as [Ew|Ew]; [apply Z.gtb_lt in Ew|apply Z.ltb_lt in Ew]; lia.
           ++ exists y. split; [right; left; reflexivity|exact Fu].
        -- exists x. split; [apply in_or_app; left; apply in_or_app; right; left; reflexivity|]. apply lu_snoc in Lu. exact Lu.
    + exists FL3. apply (LInv_perm _ _ _ _ (gn :: rest')); [|exact HL3].
      apply Permutation_sym. exact (slots_mid B1 b L1' [gn] L2' B2).
    + pose proof (U_perm _ _ (slots_mid B1 b L1' [gn] L2' B2)) as X. exact X.
    + rewrite (v_bl _ _ _ _ _ _ I), EB, !map_app. reflexivity.
    + apply (CInv_perm _ _ _ ST s) with (out := out B live); try reflexivity; [|apply (v_c _ _ _ _ _ _ I)].
      intros i Ri. split.
      * unfold held. cbn [s_cls]. apply Permutation_app_tail. eapply Permutation_trans; [apply OutS|].
        unfold SlbInv.out. destruct (i =? 0); [|apply Permutation_refl]. rewrite EB, !map_app. apply Permutation_refl.
      * repeat split; auto. apply (cc_end _ _ _ _ _ (v_c _ _ _ _ _ _ I) i Ri).
    + intros i Ri. destruct (Z.eqb_spec i 0) as [->|Ni]; [|apply ReqS; assumption].
      rewrite (v_req _ _ _ _ _ _ I 0 Ri). cbn [Z.eqb]. rewrite EB, !app_length. reflexivity.
    + intros y Hy. rewrite W3, W2; [reflexivity|]. cbn [gn g_a g_l].
      pose proof (tile_in _ _ gn _ _ Tn ltac:(apply in_or_app; right; left; reflexivity)) as (_ & T1 & T2 & _). cbn [gn g_a g_l] in T1, T2.
      destruct Hy as [Hy|[Hy|(z & Hz & Hy)]]; [lia|lia|].
      apply filter_In in Hz as [Hz _]. specialize (Dn z Hz). unfold dj in Dn. cbn [gn g_a g_l] in Dn. lia.
  - (* the block is empty *)
    apply orb_false_iff in Ew as [Ew1 Ew2]. rewrite Z.gtb_ltb in Ew1. apply Z.ltb_ge in Ew1. apply Z.ltb_ge in Ew2.
    pose proof (ge_off _ Gn) as Go. pose proof (ge_end _ Gn) as Ge. unfold goff in Go, Ge. cbn [gn g_a g_b g_l] in Go, Ge.
    apply tile_app in Tn as (md & Tn1 & Tn2). cbn [tile gn g_a g_l g_b] in Tn2. destruct Tn2 as (_ & Ea1 & _ & Tn2).
    assert (EL1 : L1' = []).
    { destruct L1' as [|x r]; [reflexivity|]. cbn [tile] in Tn1. destruct Tn1 as (_ & _ & X1 & X2). apply tile_le in X2. lia. }
    assert (EL2 : L2' = []).
    { destruct L2' as [|x r]; [reflexivity|]. cbn [tile] in Tn2. destruct Tn2 as (_ & _ & X1 & X2). apply tile_le in X2. lia. }
    subst L1' L2'. cbn [app] in rest'.
    replace (a - (a - b)) with b by lia.
    unfold blck_free, chunk_free. cbn [set_sm set_ssl s0 set_mem set_cls set_blks s_cls s_u s_blks s_lim s_chunk s_mem].
    assert (NDb : NoDup (map fst B)).
    { pose proof (st_lg _ _ _ ST). exact (out_nd _ _ _ ST s (out B live) 0 (v_c _ _ _ _ _ _ I) ltac:(lia)). }
    assert (Erm : remove_z b (s_blks s) = map fst (B1 ++ B2)).
    { rewrite (v_bl _ _ _ _ _ _ I), EB, !map_app. cbn [map fst]. rewrite EB, map_app in NDb. cbn [map fst] in NDb.
      apply NoDup_remove_2 in NDb. assert (N : ~ In b (map fst B1)) by (intro X; apply NDb, in_or_app; left; exact X).
      clear - N. induction (map fst B1) as [|x r IH]; cbn [app remove_z].
      - rewrite Z.eqb_refl. reflexivity.
      - destruct (Z.eqb_spec x b) as [->|]; [exfalso; apply N; left; reflexivity|]. f_equal. apply IH. intro X. apply N. right. exact X. }
    rewrite Erm.
    match goal with |- exists s' B', match used_sub _ _ _ with Some u => match p_after_free _ (s_f ?t) _ _ _ with _ => _ end | None => None end = _ /\ _ =>
      apply (Fin t (B1 ++ B2)) end; cbn [set_sm s_mem s_u s_f s_p s_blks set_ssl s0 set_mem s_cls set_blks set_cls]; auto.
    + apply Forall_app. split; assumption.
    + exists FL2. rewrite slots_app. exact HL2.
    + rewrite slots_app. apply Permutation_refl.
    + apply (CInv_same _ _ _ ST (chunk_free s b 262144 0)); [repeat split; reflexivity|].
      apply (CInv_out _ _ _ ST) with (out := upd (out B live) 0 (map fst (B1 ++ B2))).
      * intros i Ri. unfold upd, SlbInv.out at 2. destruct (Z.eqb_spec i 0) as [->|Ni]; [apply Permutation_refl|].
        eapply Permutation_trans; [apply OutS|]. unfold SlbInv.out. destruct (Z.eqb_spec i 0); [contradiction|]. apply Permutation_refl.
      * apply (chunk_free_ok _ _ _ ST); [apply (v_c _ _ _ _ _ _ I)|pose proof (st_lg _ _ _ ST); lia|].
        unfold SlbInv.out. cbn [Z.eqb]. rewrite EB, !map_app. cbn [map fst]. apply Permutation_sym, Permutation_middle.
    + intros i Ri. unfold upd. destruct (Z.eqb_spec i 0) as [->|Ni]; [|apply ReqS; assumption].
      cbn [c_req]. rewrite (v_req _ _ _ _ _ _ I 0 Ri). cbn [Z.eqb]. rewrite EB, !app_length. cbn [length]. change BLK with 262144. lia.
    + intros y Hy. rewrite W2. reflexivity.
Qed.

(* ---- release of a chunk *)
Lemma big_free_ok s B live a size w : Inv s B live -> In (a, size) live -> small (a, size) = false ->
  forall live', Permutation live ((a, size) :: live') ->
  Inv (chunk_free (set_mem s (write_mem (s_mem s) a w 0)) a size (cid size)) B live' /\
  (forall x y, In x live' -> in_area x y ->
     m_w (s_mem (chunk_free (set_mem s (write_mem (s_mem s) a w 0)) a size (cid size))) y = m_w (s_mem s) y).
Proof.
  intros I Hx Hs live' PL. pose proof (v_lv _ _ _ _ _ _ I _ Hx) as [Sz Rc]. cbn [snd] in Sz, Rc.
  assert (Hb : big (cid size) (a, size) = true) by (unfold SlbInv.big; rewrite Hs; cbn [snd]; rewrite Z.eqb_refl; reflexivity).
  split.
  - pose proof (v_s _ _ _ _ _ _ I) as [[FL HL] A1 A2 A3 A4 A5]. split.
    + cbn [chunk_free set_cls set_mem s_mem s_u s_f s_p]. split; auto. exists FL. apply write_ok; [exact HL|].
      intros g Hg. destruct (Z_lt_dec a (g_a g)) as [|N1]; [left; assumption|].
      destruct (Z_le_dec (g_a g + g_l g) a) as [|N2]; [right; left; assumption|]. exfalso.
      destruct (slot_vs_live _ _ _ ST s B live g (a, size) a I Hg Hx) as (Q & _); cbn [fst snd]; try lia. congruence.
    + apply (v_bl _ _ _ _ _ _ I).
    + eapply Permutation_trans; [apply (v_use _ _ _ _ _ _ I)|]. apply Permutation_map.
      eapply Permutation_trans; [apply filter_perm; exact PL|]. cbn [filter]. rewrite Hs. apply Permutation_refl.
    + set (s1 := set_mem s (write_mem (s_mem s) a w 0)).
      apply (CInv_out _ _ _ ST) with (out := upd (out B live) (cid size) (map fst (filter (big (cid size)) live'))).
      * intros i Ri. unfold upd, SlbInv.out. destruct (Z.eqb_spec i (cid size)) as [->|Ni].
        -- destruct (Z.eqb_spec (cid size) 0); [lia|]. apply Permutation_refl.
        -- destruct (Z.eqb_spec i 0); [apply Permutation_refl|]. apply Permutation_map.
           eapply Permutation_trans; [apply filter_perm; exact PL|]. cbn [filter]. unfold SlbInv.big at 1. rewrite Hs. cbn [negb andb snd].
           destruct (Z.eqb_spec (cid size) i); [congruence|]. apply Permutation_refl.
      * apply (chunk_free_ok _ _ _ ST).
        -- apply (CInv_same _ _ _ ST s); [repeat split; reflexivity|apply (v_c _ _ _ _ _ _ I)].
        -- lia.
        -- unfold SlbInv.out. destruct (Z.eqb_spec (cid size) 0); [lia|].
           change (a :: map fst (filter (big (cid size)) live')) with (map fst ((a, size) :: filter (big (cid size)) live')).
           apply Permutation_map. eapply Permutation_trans; [apply filter_perm; exact PL|]. cbn [filter]. rewrite Hb. apply Permutation_refl.
    + intros x Hxl. apply (v_lv _ _ _ _ _ _ I). apply (Permutation_in _ (Permutation_sym PL)). right. exact Hxl.
    + intros i Ri. cbn [chunk_free set_cls set_mem s_cls]. unfold upd.
      assert (E : forall j, zsum (map snd (filter (big j) live)) = (if j =? cid size then size else 0) + zsum (map snd (filter (big j) live'))).
      { intro j. rewrite (zsum_perm _ _ (Permutation_map snd (filter_perm _ (big j) _ _ PL))). cbn [filter].
        unfold SlbInv.big at 1. rewrite Hs. cbn [negb andb snd]. rewrite Z.eqb_sym. destruct (j =? cid size); reflexivity. }
      pose proof (v_req _ _ _ _ _ _ I i Ri) as R. destruct (Z.eqb_spec i (cid size)) as [->|Ni].
      * cbn [c_req]. rewrite R. destruct (Z.eqb_spec (cid size) 0); [lia|]. rewrite E, Z.eqb_refl. lia.
      * rewrite R. destruct (i =? 0); [reflexivity|]. rewrite E. destruct (Z.eqb_spec i (cid size)); [contradiction|]. lia.
  - intros x y Hxl Hy. cbn [chunk_free set_cls set_mem s_mem write_mem m_w]. unfold upd.
    destruct (Z.eqb_spec y a) as [->|]; [|reflexivity]. exfalso.
    pose proof (live_dj _ _ _ ST _ _ _ I) as D. apply (FOPA_perm _ _ PL) in D. inversion D as [|? ? D1 _]; subst l.
    rewrite Forall_forall in D1. specialize (D1 x Hxl). unfold djA, in_area in *. cbn [fst snd] in D1. lia.
Qed.

(* ---- the memory limit *)
Lemma limit_ok s B live n : Inv s B live -> Inv (set_memlimit s n) B live /\ s_mem (set_memlimit s n) = s_mem s.
Proof.
  intro I. unfold set_memlimit. destruct (s_arena s) eqn:Ea; [auto|].
  destruct (n <? s_malloced s + s_malloced s / 10); [auto|]. cbv zeta.
  match goal with |- context [if ?c then s else _] => destruct c end; [auto|]. split; [|reflexivity].
  destruct I as [V1 V2 V3 V4 V5 V6]. split; auto.
  - apply (CInv_sbl _ _ _ ST s); [|exact V4]. split.
    + intro i. cbn [s_cls]. unfold upd. destruct (Z.eqb_spec i 0) as [->|N]; repeat split; reflexivity.
    + cbn. repeat split; congruence.
  - intros i Ri. cbn [s_cls]. unfold upd. rewrite <- (V6 i Ri). destruct (Z.eqb_spec i 0) as [->|N]; reflexivity.
Qed.

Variable malloc : Z -> list (Z * Z) -> Z -> option Z.
Hypothesis malloc_ok : forall seed pages len a, malloc seed pages len = Some a -> 0 < len ->
  0 < a /\ a mod 8 = 0 /\ (forall x, In x pages -> djA (a, len) x).

(* ---- allocation of a chunk *)
Lemma held_live s B live x y : Inv s B live -> In x live -> in_area x y ->
  exists i c, 0 <= i <= lg /\ In c (held csz s (out B live) i) /\ c <= y < c + csz i.
Proof.
  intros I Hx Hy. pose proof (st_lg _ _ _ ST). destruct (small x) eqn:Sx.
  - destruct (live_small _ _ _ s B live x I Hx Sx) as (g & Hg & Hu & Ea & El & Le).
    destruct (slot_in_block _ _ _ s B live g I Hg) as (b & Hb & _ & R1 & R2).
    exists 0, b. split; [lia|]. split; [unfold held; apply in_or_app; left; exact Hb|]. rewrite (st_0 _ _ _ ST). unfold in_area in Hy. lia.
  - destruct (live_large _ _ _ ST s B live x I Hx Sx) as (Ho & Hr & Hc).
    exists (cid (snd x)), (fst x). split; [lia|]. split; [unfold held; apply in_or_app; left; exact Ho|]. unfold in_area in Hy. lia.
Qed.

Lemma SInv_chunk s s' B live : Inv s B live -> s_u s' = s_u s -> s_f s' = s_f s -> s_p s' = s_p s ->
  m_prev (s_mem s') = m_prev (s_mem s) -> m_next (s_mem s') = m_next (s_mem s) ->
  (forall i c x, 0 <= i <= lg -> In c (held csz s (out B live) i) -> c <= x < c + csz i ->
     m_w (s_mem s') x = m_w (s_mem s) x) ->
  SInv (s_mem s') (s_u s') (s_f s') (s_p s') B.
Proof.
  intros I E1 E2 E3 E4 E5 HF. rewrite E1, E2, E3.
  pose proof (v_s _ _ _ _ _ _ I) as [[FL HL] A1 A2 A3 A4 A5]. split; auto. exists FL.
  apply (LInv_mem (s_mem s)); [exact HL|intros c a _; rewrite E4, E5; auto|].
  intros g Hg. apply tag_frame; [apply (li_geo _ _ _ _ _ HL g Hg)|].
  intros x Hx. destruct (slot_in_block _ _ _ s B live g I Hg) as (b & Hb & _ & R1 & R2).
  pose proof (st_lg _ _ _ ST). apply (HF 0 b); [lia|unfold held; apply in_or_app; left; exact Hb|].
  rewrite (st_0 _ _ _ ST). lia.
Qed.

Lemma big_alloc_ok s B live size seed : Inv s B live -> 49148 < size -> 1 <= cid size <= lg ->
  exists s' a, chunk_alloc malloc s size (cid size) seed = Some (s', a) /\
    ((a = 0 /\ s' = s) \/ (a <> 0 /\ Inv s' B ((a, size) :: live))) /\
    (forall x y, In x live -> in_area x y -> m_w (s_mem s') y = m_w (s_mem s) y).
Proof.
  intros I Hs Hc.
  destruct (chunk_alloc_ok _ _ _ ST malloc malloc_ok s (out B live) size (cid size) seed (v_c _ _ _ _ _ _ I) ltac:(lia))
    as (s' & a & E & E1 & E2 & E3 & E4 & E5 & E6 & HF & R).
  exists s', a. split; [exact E|].
  assert (Sx : small (a, size) = false) by (unfold small; apply Z.leb_gt; exact Hs).
  split.
  - destruct R as [R|(Na & HC & HR)]; [left; exact R|]. right. split; [exact Na|]. split.
    + apply (SInv_chunk s s' B live I); auto.
    + rewrite E4. apply (v_bl _ _ _ _ _ _ I).
    + cbn [filter]. rewrite Sx. apply (v_use _ _ _ _ _ _ I).
    + apply (CInv_out _ _ _ ST) with (out := upd (out B live) (cid size) (a :: out B live (cid size))); [|exact HC].
      intros i Ri. unfold upd, SlbInv.out. destruct (Z.eqb_spec i (cid size)) as [->|Ni].
      * destruct (Z.eqb_spec (cid size) 0); [lia|]. cbn [filter]. unfold SlbInv.big at 2. rewrite Sx. cbn [negb andb snd].
        rewrite Z.eqb_refl. apply Permutation_refl.
      * destruct (Z.eqb_spec i 0); [apply Permutation_refl|]. cbn [filter]. unfold SlbInv.big at 2. rewrite Sx. cbn [negb andb snd].
        destruct (Z.eqb_spec (cid size) i); [congruence|]. apply Permutation_refl.
    + intros x [<-|Hx]; [cbn [snd]; lia|apply (v_lv _ _ _ _ _ _ I x Hx)].
    + intros i Ri. rewrite (HR i), (v_req _ _ _ _ _ _ I i Ri). cbn [filter]. unfold SlbInv.big at 2. rewrite Sx. cbn [negb andb snd].
      destruct (Z.eqb_spec i (cid size)) as [->|Ni].
      * destruct (Z.eqb_spec (cid size) 0); [lia|]. rewrite Z.eqb_refl. cbn [map zsum snd]. lia.
      * destruct (i =? 0); [lia|]. destruct (Z.eqb_spec (cid size) i); [congruence|]. lia.
  - intros x y Hx Hy. destruct (held_live s B live x y I Hx Hy) as (i & c & Ri & Hin & Hr). apply (HF i c); assumption.
Qed.

(* ---- allocation of small memory *)
Lemma sm_alloc_ok s B live size seed : Inv s B live -> 1 <= size <= 49148 -> 1 <= cid size <= lg ->
  exists s' a B', sm_alloc malloc s size seed = Some (s', a) /\
    ((a = 0 /\ Inv s' B live /\ s_mem s' = s_mem s /\ s_f s' = s_f s) \/ (a <> 0 /\ Inv s' B' ((a, size) :: live))) /\
    (forall x y, In x live -> in_area x y -> m_w (s_mem s') y = m_w (s_mem s) y).
Proof.
  intros I0 Hs Hcid. unfold sm_alloc.
  assert (Es0 : exists x, upd_ssl s = set_ssl s x).
  { unfold upd_ssl. destruct (s_lim s >? 0); [eexists; reflexivity|]. exists (s_ssl s). destruct s; reflexivity. }
  destruct Es0 as [ssl Es0]. rewrite Es0. clear Es0. set (s0 := set_ssl s ssl).
  assert (I : Inv s0 B live).
  { destruct I0 as [V1 V2 V3 V4 V5 V6]. split; auto. apply (CInv_same _ _ _ ST s); [repeat split; reflexivity|exact V4]. }
  change (s_mem s) with (s_mem s0). change (s_f s) with (s_f s0). clearbody s0. clear I0 ssl s. rename s0 into s.
  pose proof (slen_range size) as SR. unfold MAX_SM_VALUE_LEN, MAXS in SR. specialize (SR ltac:(lia)). destruct SR as (S1 & S2 & S3).
  set (n := slen_of size) in *. cbv zeta.
  pose proof (v_s _ _ _ _ _ _ I) as [[FL HL] A1 A2 A3 A4 A5].
  destruct (find_class_ok (s_mem s) (s_f s) FL (slots B) (p_cls (s_p s)) (s_ssl s) n (memid n true)
              (li_f _ _ _ _ _ HL) (li_geo _ _ _ _ _ HL) S1 S2 eq_refl) as (c & Ec & Lc).
  rewrite Ec. clear Ec.
  assert (Sx : forall a, small (a, size) = true) by (intro a; unfold small; apply Z.leb_le; cbn [snd]; lia).
  assert (Pl : posl (slots B)) by (intros g Hg; apply (ge_l _ (li_geo _ _ _ _ _ HL g Hg))).
  (* the common end *)
  assert (Fin : forall s1 B' FL' g l, g_u g = true -> g_l g = n ->
     LInv (s_mem s1) (s_f s1) (s_p s1) FL' (slots B') -> Forall BI B' ->
     Permutation (slots B') (g :: l) -> Permutation (U l) (U (slots B)) -> s_u s1 = s_u s ->
     p_cls (s_p s1) = p_cls (s_p s) -> p_space (s_p s1) = p_space (s_p s) ->
     (B = [] -> f_max (s_f s1) = -1) ->
     s_blks s1 = map fst B' -> CInv csz cper lg s1 (out B' ((g_a g, size) :: live)) ->
     (forall i, 0 <= i <= lg -> c_req (s_cls s1 i) =
              if i =? 0 then 262144 * Z.of_nat (length B') else zsum (map snd (filter (big i) live))) ->
     exists u' p', used_add (s_u s1) n (memid n true) = u' /\
       p_after_alloc u' (s_f s1) (s_p s1) n (memid n true) = Some p' /\
       Inv (set_sm s1 (s_mem s1) u' (s_f s1) p') B' ((g_a g, size) :: live)).
  { intros s1 B' FL' g l Hu El HL' HB' P PU Eus Ecl Esp Hfm Ebl HC HR.
    assert (HU1 : UInv (s_u s1) l) by (rewrite Eus; apply (UInv_same _ (slots B)); [apply Permutation_sym; exact PU|exact A1]).
    destruct (after_alloc (s_mem s1) (s_u s1) (s_f s1) (s_p s1) FL' B' g l HL' HB' Hu P HU1) as (p' & Ep' & HS').
    - rewrite Ecl, Esp, A3. apply uge_same. apply Permutation_sym. exact PU.
    - intro Z0. rewrite (utot_same _ _ PU) in Z0. pose proof (slots_nil B A2 Z0 Pl) as EB. rewrite Ecl. auto.
    - intro Z1. rewrite (utot_same _ _ PU) in Z1. rewrite Ecl, Esp. apply A5. intros ->. cbn in Z1. lia.
    - unfold ucls in Ep', HS'. rewrite El in Ep', HS'. eexists. exists p'. split; [reflexivity|]. split; [exact Ep'|].
      split; cbn [set_sm s_mem s_u s_f s_p s_blks s_cls].
      + exact HS'.
      + exact Ebl.
      + cbn [filter]. rewrite Sx. cbn [map]. apply U_perm in P. rewrite (U_used g l Hu) in P.
        eapply Permutation_trans; [apply Permutation_map; exact P|]. cbn [map].
        replace (ara (g_a g, size)) with (sla g) by (unfold ara, sla; cbn [fst snd]; rewrite El; reflexivity).
        constructor. eapply Permutation_trans; [apply Permutation_map; exact PU|]. apply (v_use _ _ _ _ _ _ I).
      + apply (CInv_same _ _ _ ST s1); [repeat split; reflexivity|exact HC].
      + intros x [<-|Hx]; [cbn [snd]; lia|apply (v_lv _ _ _ _ _ _ I x Hx)].
      + intros i Ri. rewrite (HR i Ri). destruct (i =? 0); [reflexivity|]. cbn [filter]. unfold SlbInv.big at 2. rewrite Sx. reflexivity. }
  rewrite (fi_head _ _ _ _ (li_f _ _ _ _ _ HL) c).
  destruct (Z.eqb_spec (hd 0 (FL c)) 0) as [E0|N0].
  - (* a new block *)
    unfold blck_alloc. pose proof (st_lg _ _ _ ST) as Lg.
    destruct (chunk_alloc_ok _ _ _ ST malloc malloc_ok s (out B live) BLK 0 seed (v_c _ _ _ _ _ _ I) ltac:(lia))
      as (s1 & b & E & E1 & E2 & E3 & E4 & E5 & E6 & HF & R).
    rewrite E. clear E. destruct R as [[-> ->]|(Nb & HC & HR)].
    { cbn [Z.eqb]. exists s, 0, B. split; [reflexivity|]. split; [|auto]. left. auto. }
    pose proof Nb as Nb'. apply Z.eqb_neq in Nb'. rewrite Nb'. cbn [set_blks s_mem s_f s_p s_u].
    pose proof (SInv_chunk s s1 B live I E1 E2 E3 E5 E6 HF) as HS1.
    destruct (sv_l _ _ _ _ _ HS1) as [FL1 HL1].
    assert (Hin : In b (held csz s1 (upd (out B live) 0 (b :: out B live 0)) 0)).
    { unfold held, upd. cbn [Z.eqb]. apply in_or_app. left. left. reflexivity. }
    destruct (cc_in _ _ _ _ _ HC 0 b ltac:(lia) Hin) as (Hb0 & Hb8 & _).
    assert (Dis : forall x, In x (map fst B) -> b + 262144 <= x \/ x + 262144 <= b).
    { intros x Hx. pose proof (out_dj_same _ _ _ ST s1 _ 0 [] b (out B live 0) x HC ltac:(lia)) as D.
      unfold upd in D. cbn [Z.eqb app] in D. specialize (D eq_refl). 
      assert (Hx' : In x (out B live 0)) by (unfold SlbInv.out; cbn [Z.eqb]; exact Hx).
      specialize (D Hx'). unfold djA in D. cbn [fst snd] in D. rewrite (st_0 _ _ _ ST) in D. lia. }
    destruct (fresh_ok (s_mem s1) (s_f s1) (s_p s1) FL1 B b n HL1 A2 Hb0 Dis S1 S2)
      as (m2 & f2 & p2 & FL2 & B' & l & E7 & HL2 & HB' & EB' & C2 & Sp2 & P2 & PU2 & Bg & W2).
    change BHEAD with 32. change BBODY with 262112. rewrite E7. cbn [set_sm s_mem s_f s_p s_u].
    assert (Na : b + 32 <> 0) by lia. apply Z.eqb_neq in Na. rewrite Nb'. rewrite Na.
    set (s2 := set_sm (set_blks s1 (s_blks s1 ++ [b]) (if s_lim s1 >? 0 then s_chunk s1 - BLK else s_chunk s1)) m2 (s_u s1) f2 p2).
    destruct (Fin s2 B' FL2 (mkG b (b + 32) n true) l) as (u' & p' & Eu' & Ep' & IN); auto.
    + cbn [s2 set_sm s_p]. congruence.
    + cbn [s2 set_sm s_p]. congruence.
    + intro EB. cbn [s2 set_sm s_f]. pose proof (fi_bnd _ _ _ _ (li_f _ _ _ _ _ HL2)) as Bd.
      destruct (b_at _ _ _ _ Bd) as [[_ X]|[_ X]]; [exact X|]. exfalso.
      apply andb_true_iff in X as [X1 X2]. apply Z.ltb_lt in X1. apply Z.ltb_lt in X2.
      apply wsum_pos in X1 as (g & Hg & Pg).
      * destruct (lnk g) eqn:K; cbn [andb iff] in Pg; [|lia]. destruct (Z.eqb_spec (fcls g) (f_max f2)) as [Ef|]; cbn [iff] in Pg; [|lia].
        apply (Permutation_in _ P2) in Hg as [<-|Hg]; [discriminate K|].
        destruct (Bg g Hg) as [Y|Y]; [rewrite EB in Y; destruct Y|].
        apply memid_big in Y. fold (fcls g) in Y. lia.
      * intros g _. unfold iff. match goal with |- context [if ?b then _ else _] => destruct b end; lia.
    + cbn [s2 set_sm set_blks s_blks]. rewrite E4, (v_bl _ _ _ _ _ _ I). symmetry. exact EB'.
    + apply (CInv_same _ _ _ ST s1); [repeat split; reflexivity|].
      apply (CInv_out _ _ _ ST) with (out := upd (out B live) 0 (b :: out B live 0)); [|exact HC].
      intros i Ri. apply out_cons_small; [exact EB'|apply Sx].
    + intros i Ri. cbn [s2 set_sm set_blks s_cls]. rewrite (HR i), (v_req _ _ _ _ _ _ I i Ri).
      destruct (Z.eqb_spec i 0) as [->|]; [|lia]. pose proof (f_equal (@length Z) EB') as Ln. rewrite app_length, !map_length in Ln. cbn [length] in Ln.
      change BLK with 262144. unfold blk in *. rewrite Ln. lia.
    + change (s_u s1) with (s_u s2). change f2 with (s_f s2). change p2 with (s_p s2). rewrite Eu', Ep'.
      eexists. exists (b + 32), B'. split; [reflexivity|]. split; [right; split; [lia|exact IN]|].
      intros x y Hx Hy. cbn [set_sm s_mem s2]. rewrite W2.
      * destruct (held_live s B live x y I Hx Hy) as (i & k & Ri & Hk & Hr). apply (HF i k); assumption.
      * destruct (small x) eqn:Sxx.
        -- destruct (live_small _ _ _ s B live x I Hx Sxx) as (g & Hg & Hu & Ea & El & Le).
           destruct (slot_in_block _ _ _ s B live g I Hg) as (b' & Hb' & _ & R1 & R2).
           unfold SlbInv.out in Hb'. cbn [Z.eqb] in Hb'. specialize (Dis b' Hb'). unfold in_area in Hy. lia.
        -- destruct (live_large _ _ _ ST s B live x I Hx Sxx) as (Ho & Hr & Hc').
           pose proof (out_dj _ _ _ ST s1 _ 0 (cid (snd x)) b (fst x) HC ltac:(lia) ltac:(lia)) as D.
           unfold upd in D. cbn [Z.eqb] in D. specialize (D ltac:(left; reflexivity)).
           destruct (Z.eqb_spec (cid (snd x)) 0); [lia|]. specialize (D Ho ltac:(lia)).
           unfold djA in D. cbn [fst snd] in D. rewrite (st_0 _ _ _ ST) in D. unfold in_area in Hy. lia.
  - (* a free slot *)
    assert (Hh : In (hd 0 (FL c)) (FL c)) by (destruct (FL c); [cbn in N0; lia|left; reflexivity]).
    apply (fi_in _ _ _ _ (li_f _ _ _ _ _ HL)) in Hh as (g & Hg & K & Efc & Ea). apply lnk_true in K as [Ku K32].
    rewrite <- Ea.
    assert (Fit : n <= g_l g).
    { apply memid_fit; try lia. change (memid n true <= fcls g). lia. }
    assert (Hp : p_cls (s_p s) <> -1).
    { destruct A5 as [X _]; [|lia]. intros ->. destruct Hg. }
    destruct (take_ok (s_mem s) (s_f s) (s_p s) FL B g n HL A2 Hg Ku S1 S2 Fit Hp) as
      (Th & m2 & f2 & p2 & FL2 & B' & l & E7 & HL2 & HB' & EB' & C2 & Sp2 & P2 & PU2 & W2).
    rewrite Th. cbn [fst snd].
    pose proof (li_geo _ _ _ _ _ HL g Hg) as [G1 G2 G3 G4 G5 G6 G7].
    replace (goff g / 8 * 8) with (goff g) by lia. replace (g_l g / 8 * 8) with (g_l g) by lia.
    destruct (Z.ltb_spec (g_l g) n); [lia|].
    set (s2 := set_sm s m2 (s_u s) f2 p2).
    assert (Run : match free_slot_unlink (s_mem s) (s_f s) (s_p s) (g_a g) with
       | None => None
       | Some (m, f, p) =>
           if g_l g >? n
           then match free_slot_link (used_slot_init m (g_a g) (goff g) n) f p (g_a g + n) (goff g + n) (g_l g - n) with
                | None => None
                | Some (m, f, p) => Some (set_sm s m (s_u s) f p, g_a g)
                end
           else Some (set_sm s (used_slot_init m (g_a g) (goff g) n) (s_u s) f p, g_a g)
       end = Some (s2, g_a g)).
    { destruct (free_slot_unlink (s_mem s) (s_f s) (s_p s) (g_a g)) as [[[m f] p]|]; [|discriminate].
      cbv zeta in E7. destruct (g_l g >? n).
      - rewrite E7. reflexivity.
      - injection E7 as -> -> ->. reflexivity. }
    rewrite Run. clear Run E7.
    assert (Na : g_a g <> 0) by (rewrite Ea; exact N0). pose proof Na as Na'. apply Z.eqb_neq in Na'. rewrite Na'.
    destruct (Fin s2 B' FL2 (mkG (g_b g) (g_a g) n true) l) as (u' & p' & Eu' & Ep' & IN); auto.
    + intros ->. destruct Hg.
    + cbn [s2 set_sm s_blks]. rewrite (v_bl _ _ _ _ _ _ I). symmetry. exact EB'.
    + apply (CInv_same _ _ _ ST s); [repeat split; reflexivity|].
      apply (CInv_out _ _ _ ST) with (out := out B live); [|apply (v_c _ _ _ _ _ _ I)].
      intros i Ri. cbn [g_a]. rewrite (out_small B B' live (g_a g, size) i EB' (Sx _)). apply Permutation_refl.
    + intros i Ri. cbn [s2 set_sm s_cls]. rewrite (v_req _ _ _ _ _ _ I i Ri). destruct (i =? 0); [|reflexivity].
      pose proof (f_equal (@length Z) EB') as Ln. rewrite !map_length in Ln. unfold blk in *. rewrite Ln. reflexivity.
    + change f2 with (s_f s2). change p2 with (s_p s2). rewrite Eu', Ep'.
      eexists. exists (g_a g), B'. split; [reflexivity|]. split; [right; split; [exact Na|exact IN]|].
      intros x y Hx Hy. cbn [set_sm s_mem s2]. apply W2.
      destruct (Z_lt_dec y (g_a g)) as [|N1]; [left; assumption|].
      destruct (Z_le_dec (g_a g + g_l g) y) as [|N2]; [right; assumption|]. exfalso.
      destruct (slot_vs_live _ _ _ ST s B live g x y I Hg Hx Hy) as (_ & Q & _); [lia|]. congruence.
Qed.

(* ---- one step, and executions *)
Lemma existsb_area x live : existsb (eq_area x) live = true -> In x live.
Proof.
  intro H. apply remove_area_perm in H. apply (Permutation_in _ (Permutation_sym H)). left. reflexivity.
Qed.

Lemma step_ok s B live o : Inv s B live ->
  exists s' live' B', step malloc s live o = Some (s', live') /\ Inv s' B' live' /\
    (forall x y, In x live -> In x live' -> in_area x y ->
       m_w (s_mem s') y = match o with
                          | OWrite a size off w _ =>
                              if existsb (eq_area (a, size)) live && (0 <=? off) && (off <? size) && (off mod 4 =? 0) &&
                                 negb ((off =? 0) && free_slot w) && (y =? a + off) then w else m_w (s_mem s) y
                          | OFree a size _ => if eq_area (a, size) x then m_w (s_mem s') y else m_w (s_mem s) y
                          | _ => m_w (s_mem s) y
                          end).
Proof.
  intro I. destruct o as [size seed|a size w|a size off w junk|n]; cbn [step].
  - destruct (Z.leb_spec size 0) as [|Hp]; [exists s, live, B; auto|].
    unfold slabs_alloc. rewrite (clsid_eq _ _ _ ST s _ size (v_c _ _ _ _ _ _ I)), (cc_lg _ _ _ _ _ (v_c _ _ _ _ _ _ I)).
    destruct (Z.ltb_spec (cid size) 1) as [|C1]; cbn [orb].
    { cbn [Z.eqb]. exists s, live, B. auto. }
    destruct (Z.ltb_spec lg (cid size)) as [|C2].
    { cbn [Z.eqb]. exists s, live, B. auto. }
    unfold MAX_SM_VALUE_LEN. change (MAXS - 4) with 49148. destruct (Z.leb_spec size 49148) as [L|L].
    + destruct (sm_alloc_ok s B live size seed I ltac:(lia) ltac:(lia)) as (s' & a & B' & E & R & F). rewrite E.
      destruct R as [(-> & I' & _)|[Na I']].
      * cbn [Z.eqb]. exists s', live, B. split; [reflexivity|]. split; [exact I'|]. intros x y Hx _ Hy. apply (F x y Hx Hy).
      * apply Z.eqb_neq in Na. rewrite Na. exists s', ((a, size) :: live), B'. split; [reflexivity|]. split; [exact I'|].
        intros x y Hx _ Hy. apply (F x y Hx Hy).
    + destruct (big_alloc_ok s B live size seed I ltac:(lia) ltac:(lia)) as (s' & a & E & R & F). rewrite E.
      destruct R as [(-> & ->)|[Na I']].
      * cbn [Z.eqb]. exists s, live, B. auto.
      * apply Z.eqb_neq in Na. rewrite Na. exists s', ((a, size) :: live), B. split; [reflexivity|]. split; [exact I'|].
        intros x y Hx _ Hy. apply (F x y Hx Hy).
  - destruct (existsb (eq_area (a, size)) live) eqn:Ex.
    2: { exists s, live, B. split; [reflexivity|]. split; [exact I|]. intros x y Hx _ Hy. destruct (eq_area (a, size) x); reflexivity. }
    pose proof (existsb_area _ _ Ex) as Hx0. pose proof (remove_area_perm _ _ Ex) as PL.
    set (live' := remove_area (a, size) live) in *.
    pose proof (v_lv _ _ _ _ _ _ I _ Hx0) as [Sz Rc]. cbn [snd] in Sz, Rc.
    assert (Fr : forall s', (forall x y, In x live' -> in_area x y -> m_w (s_mem s') y = m_w (s_mem s) y) ->
       forall x y, In x live -> In x live' -> in_area x y ->
         m_w (s_mem s') y = if eq_area (a, size) x then m_w (s_mem s') y else m_w (s_mem s) y).
    { intros s' F x y _ Hx' Hy. destruct (eq_area (a, size) x); [reflexivity|]. apply (F x y Hx' Hy). }
    unfold slabs_free.
    set (s1 := set_mem s (write_mem (s_mem s) a w 0)).
    assert (C1 : CInv csz cper lg s1 (out B live)).
    { apply (CInv_same _ _ _ ST s); [repeat split; reflexivity|apply (v_c _ _ _ _ _ _ I)]. }
    rewrite (clsid_eq _ _ _ ST s1 _ size C1), (cc_lg _ _ _ _ _ C1).
    destruct (Z.ltb_spec (cid size) 1) as [|L1]; [lia|]. destruct (Z.ltb_spec lg (cid size)); [lia|]. cbn [orb].
    unfold MAX_SM_VALUE_LEN. change (MAXS - 4) with 49148. destruct (Z.leb_spec size 49148) as [L|L].
    + destruct (sm_free_ok s B live a size w I Hx0 ltac:(unfold small; apply Z.leb_le; exact L) live' PL) as (s' & B' & E & I' & F).
      unfold s1. rewrite E. exists s', live', B'. split; [reflexivity|]. split; [exact I'|]. apply Fr. exact F.
    + destruct (big_free_ok s B live a size w I Hx0 ltac:(unfold small; apply Z.leb_gt; exact L) live' PL) as (I' & F).
      eexists. exists live', B. split; [reflexivity|]. split; [exact I'|]. apply Fr. exact F.
  - destruct (existsb (eq_area (a, size)) live && (0 <=? off) && (off <? size) && (off mod 4 =? 0) &&
         negb ((off =? 0) && free_slot w)) eqn:Ec.
    2: { exists s, live, B. split; [reflexivity|]. split; [exact I|]. intros. reflexivity. }
    apply andb_true_iff in Ec as [Ec E5]. apply andb_true_iff in Ec as [Ec E4]. apply andb_true_iff in Ec as [Ec E3].
    apply andb_true_iff in Ec as [E1 E2]. apply Z.leb_le in E2. apply Z.ltb_lt in E3. apply Z.eqb_eq in E4.
    pose proof (existsb_area _ _ E1) as Hx0.
    eexists. exists live, B. split; [reflexivity|]. split.
    + apply (write_live s B live a size off w junk I Hx0); [lia| |exact E4].
      intros ->. cbn [Z.eqb andb] in E5. destruct (free_slot w); [discriminate|reflexivity].
    + intros x y _ _ _. cbn [andb set_mem s_mem write_mem m_w]. unfold upd. reflexivity.
  - destruct (limit_ok s B live n I) as [I' E]. exists (set_memlimit s n), live, B. split; [reflexivity|]. split; [exact I'|].
    intros. rewrite E. reflexivity.
Qed.

Lemma run_ok ops : forall s B live, Inv s B live ->
  exists s' live' B', run malloc s live ops = Some (s', live') /\ Inv s' B' live'.
Proof.
  induction ops as [|o ops IH]; intros s B live I; cbn [run]; [exists s, live, B; auto|].
  destruct (step_ok s B live o I) as (s1 & live1 & B1 & E & I1 & _). rewrite E. apply (IH s1 B1 live1 I1).
Qed.
End Step.
