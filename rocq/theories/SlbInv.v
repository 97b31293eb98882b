(* The invariant of the allocator: small memory, chunks and the areas in use together. *)
From Verif Require Import Base SlbModel SlbCls SlbSum SlbList SlbBlk SlbOps SlbChunk.
Open Scope Z_scope.

Lemma FOP_split (A : Type) (R : A -> A -> Prop) l :
  (forall l1 x l2 y l3, l = l1 ++ x :: l2 ++ y :: l3 -> R x y) -> ForallOrdPairs R l.
Proof.
  induction l as [|x l IH]; intro H; [constructor|]. constructor.
  - apply Forall_forall. intros y Hy. apply in_split in Hy as (l2 & l3 & ->).
    exact (H [] x l2 y l3 eq_refl).
  - apply IH. intros l1 a l2 b l3 ->. exact (H (x :: l1) a l2 b l3 eq_refl).
Qed.

Definition small (x : Z * Z) : bool := snd x <=? 49148.
Definition sla (g : gs) : Z * Z := (g_a g, g_l g).
Definition ara (x : Z * Z) : Z * Z := (fst x, slen_of (snd x)).

Lemma remove_area_perm x l : existsb (eq_area x) l = true -> Permutation l (x :: remove_area x l).
Proof.
  induction l as [|y l IH]; cbn [existsb remove_area]; [discriminate|].
  destruct (eq_area x y) eqn:E.
  - intros _. unfold eq_area in E. apply andb_true_iff in E as [E1 E2].
    apply Z.eqb_eq in E1. apply Z.eqb_eq in E2. destruct x as [x1 x2], y as [y1 y2]. cbn in E1, E2. subst. apply Permutation_refl.
  - cbn [orb]. intro H. eapply Permutation_trans; [apply perm_skip, IH; exact H|]. apply perm_swap.
Qed.

Lemma filter_perm (A : Type) (f : A -> bool) l l' : Permutation l l' -> Permutation (filter f l) (filter f l').
Proof.
  induction 1 as [|x l l' P IH|x y l|l l' l'' P1 IH1 P2 IH2]; cbn [filter].
  - constructor.
  - destruct (f x); [constructor|]; exact IH.
  - destruct (f x), (f y); try apply Permutation_refl. apply perm_swap.
  - eapply Permutation_trans; eassumption.
Qed.

Lemma zsum_perm l l' : Permutation l l' -> zsum l = zsum l'.
Proof. induction 1; cbn [zsum]; lia. Qed.

Section Inv.
Variables csz cper : Z -> Z.
Variable lg : Z.
Hypothesis ST : static csz cper lg.

(* slabs_clsid of the sizes alone *)
Fixpoint cloop (fuel : nat) (size res : Z) : Z :=
  match fuel with
  | O => 0
  | S k => if size >? csz res then if res =? lg then 0 else cloop k size (res + 1) else res
  end.
Definition cid (size : Z) : Z := if size =? 0 then 0 else cloop (Z.to_nat lg) size 1.

Lemma cloop_eq s out size : CInv csz cper lg s out -> forall k res, 1 <= res -> res + Z.of_nat k = lg + 1 ->
  clsid_loop k s size res = cloop k size res.
Proof.
  intro I. induction k as [|k IH]; intros res H1 H2; [reflexivity|]. cbn [clsid_loop cloop].
  rewrite (cc_sz _ _ _ _ _ I res) by lia. rewrite (cc_lg _ _ _ _ _ I).
  destruct (size >? csz res); [|reflexivity]. destruct (Z.eqb_spec res lg); [reflexivity|]. apply IH; lia.
Qed.

Lemma clsid_eq s out size : CInv csz cper lg s out -> slabs_clsid s size = cid size.
Proof.
  intro I. unfold slabs_clsid, cid. destruct (size =? 0); [reflexivity|].
  rewrite (cc_lg _ _ _ _ _ I). apply (cloop_eq s out); [exact I|lia|]. pose proof (st_lg _ _ _ ST). lia.
Qed.

Lemma cloop_range size : forall k res, 1 <= res -> res + Z.of_nat k = lg + 1 ->
  cloop k size res = 0 \/ (1 <= cloop k size res <= lg /\ size <= csz (cloop k size res)).
Proof.
  induction k as [|k IH]; intros res H1 H2; cbn [cloop]; [left; reflexivity|].
  destruct (Z.gtb_spec size (csz res)).
  - destruct (Z.eqb_spec res lg); [left; reflexivity|]. apply IH; lia.
  - right. lia.
Qed.

Lemma cid_range size : cid size = 0 \/ (1 <= cid size <= lg /\ size <= csz (cid size)).
Proof.
  unfold cid. destruct (size =? 0); [left; reflexivity|]. apply cloop_range; [lia|].
  pose proof (st_lg _ _ _ ST). lia.
Qed.

Definition big (i : Z) (x : Z * Z) : bool := negb (small x) && (cid (snd x) =? i).
Definition out (B : list blk) (live : list (Z * Z)) (i : Z) : list Z :=
  if i =? 0 then map fst B else map fst (filter (big i) live).

Record Inv (s : st) (B : list blk) (live : list (Z * Z)) : Prop := mkInv
  { v_s : SInv (s_mem s) (s_u s) (s_f s) (s_p s) B;
    v_bl : s_blks s = map fst B;
    v_use : Permutation (map sla (U (slots B))) (map ara (filter small live));
    v_c : CInv csz cper lg s (out B live);
    v_lv : forall x, In x live -> 0 < snd x /\ 1 <= cid (snd x) <= lg;
    v_req : forall i, 0 <= i <= lg -> c_req (s_cls s i) =
              if i =? 0 then 262144 * Z.of_nat (length B) else zsum (map snd (filter (big i) live)) }.

Lemma out_perm B B' live live' i : map fst B = map fst B' -> Permutation live live' ->
  Permutation (out B live i) (out B' live' i).
Proof.
  intros E P. unfold out. destruct (i =? 0); [rewrite E; apply Permutation_refl|].
  apply Permutation_map, filter_perm. exact P.
Qed.

Lemma Inv_perm s B live live' : Permutation live live' -> Inv s B live -> Inv s B live'.
Proof.
  intros P [A1 A2 A3 A4 A5 A6]. split; auto.
  - eapply Permutation_trans; [exact A3|]. apply Permutation_map, filter_perm. exact P.
  - apply (CInv_out _ _ _ ST _ (out B live)); [|exact A4]. intros i _. apply out_perm; [reflexivity|exact P].
  - intros x Hx. apply A5. apply (Permutation_in _ (Permutation_sym P)). exact Hx.
  - intros i Hi. rewrite (A6 i Hi). destruct (i =? 0); [reflexivity|].
    apply zsum_perm, Permutation_map, filter_perm. exact P.
Qed.

(* where the areas are *)
Lemma slot_in_block s B live g : Inv s B live -> In g (slots B) ->
  exists b, In b (out B live 0) /\ g_b g = b /\ b + 32 <= g_a g /\ g_a g + g_l g <= b + 262144.
Proof.
  intros I Hg. destruct (slots_split B g Hg) as (B1 & b & L1 & L2 & B2 & ->).
  pose proof (sv_b _ _ _ _ _ (v_s _ _ _ I)) as HB. apply Forall_app in HB as [_ HB].
  inversion HB as [|? ? [Bt _ _] _]; subst. cbn [fst snd] in Bt.
  apply (tile_in _ _ g) in Bt; [|apply in_or_app; right; left; reflexivity].
  exists b. split; [|lia]. unfold out. cbn [Z.eqb]. rewrite map_app. apply in_or_app. right. left. reflexivity.
Qed.

Lemma live_small s B live x : Inv s B live -> In x live -> small x = true ->
  exists g, In g (slots B) /\ g_u g = true /\ g_a g = fst x /\ g_l g = slen_of (snd x) /\
            snd x + 4 <= g_l g.
Proof.
  intros I Hx Hs. assert (Hin : In (ara x) (map sla (U (slots B)))).
  { apply (Permutation_in _ (Permutation_sym (v_use _ _ _ I))). apply in_map_iff. exists x. split; [reflexivity|].
    apply filter_In. auto. }
  apply in_map_iff in Hin as (g & E & Hg). apply filter_In in Hg as [Hg Hu]. unfold sla, ara in E.
  injection E as E1 E2. exists g. repeat split; auto.
  pose proof (v_lv _ _ _ I x Hx) as [L _]. unfold small in Hs. apply Z.leb_le in Hs.
  pose proof (slen_range (snd x)) as R. unfold MAX_SM_VALUE_LEN, MAXS in R. lia.
Qed.

Lemma live_large s B live x : Inv s B live -> In x live -> small x = false ->
  In (fst x) (out B live (cid (snd x))) /\ 1 <= cid (snd x) <= lg /\ snd x <= csz (cid (snd x)).
Proof.
  intros I Hx Hs. pose proof (v_lv _ _ _ I x Hx) as [L R]. 
  split; [|split; [exact R|destruct (cid_range (snd x)); lia]].
  unfold out. destruct (Z.eqb_spec (cid (snd x)) 0); [lia|]. apply in_map. apply filter_In. split; [exact Hx|].
  unfold big. rewrite Hs, Z.eqb_refl. reflexivity.
Qed.

(* a slot and a word of an area in use *)
Lemma slot_vs_live s B live g x y : Inv s B live -> In g (slots B) -> In x live -> fst x <= y < fst x + snd x ->
  (g_a g <= y < g_a g + g_l g) ->
  small x = true /\ g_u g = true /\ g_a g = fst x /\ g_l g = slen_of (snd x) /\ y < g_a g + g_l g - 4.
Proof.
  intros I Hg Hx Hy Hg2. destruct (small x) eqn:Es.
  - destruct (live_small s B live x I Hx Es) as (g' & Hg' & Hu & Ea & El & Le).
    destruct (sv_l _ _ _ _ _ (v_s _ _ _ I)) as [FL HL].
    destruct (ForallOrdPairs_In (li_dj _ _ _ _ _ HL) g g' Hg Hg') as [->|[D|D]].
    + repeat split; auto. lia.
    + exfalso. destruct D; lia.
    + exfalso. destruct D; lia.
  - exfalso. destruct (live_large s B live x I Hx Es) as (Ho & Hr & Hc).
    destruct (slot_in_block s B live g I Hg) as (b & Hb & _ & R1 & R2).
    pose proof (st_lg _ _ _ ST).
    pose proof (out_dj _ _ _ ST s _ 0 (cid (snd x)) b (fst x) (v_c _ _ _ I) ltac:(lia) ltac:(lia) Hb Ho ltac:(lia)) as D.
    unfold djA in D. cbn [fst snd] in D. rewrite (st_0 _ _ _ ST) in D. lia.
Qed.

(* ---- the areas in use do not overlap *)
Lemma live_dj s B live : Inv s B live -> ForallOrdPairs djA live.
Proof.
  intro I. apply FOP_split. intros l1 x l2 y l3 E.
  assert (Hx : In x live) by (rewrite E; apply in_or_app; right; left; reflexivity).
  assert (Hy : In y live) by (rewrite E; apply in_or_app; right; right; apply in_or_app; right; left; reflexivity).
  pose proof (v_lv _ _ _ I x Hx) as [Lx _]. pose proof (v_lv _ _ _ I y Hy) as [Ly _].
  destruct (small x) eqn:Sx, (small y) eqn:Sy.
  - destruct (sv_l _ _ _ _ _ (v_s _ _ _ I)) as [FL HL].
    assert (D : ForallOrdPairs djA (map ara (filter small live))).
    { apply (FOPA_perm _ _ (v_use _ _ _ I)). pose proof (li_dj _ _ _ _ _ HL) as D. clear - D.
      induction D as [|g l A D IH]; [constructor|]. unfold U. cbn [filter]. destruct (g_u g); [|exact IH].
      cbn [map]. constructor; [|exact IH]. apply Forall_forall. intros z Hz. apply in_map_iff in Hz as (g' & <- & Hg').
      apply filter_In in Hg' as [Hg' _]. rewrite Forall_forall in A. specialize (A g' Hg'). exact A. }
    rewrite E, filter_app in D. cbn [filter] in D. rewrite Sx in D. rewrite filter_app in D. cbn [filter] in D. rewrite Sy in D.
    rewrite map_app in D. cbn [map] in D. rewrite map_app in D. cbn [map] in D.
    assert (D2 : djA (ara x) (ara y)).
    { replace (map ara (filter small l1) ++ ara x :: map ara (filter small l2) ++ ara y :: map ara (filter small l3))
        with ((map ara (filter small l1) ++ [ara x]) ++ (map ara (filter small l2) ++ ara y :: map ara (filter small l3))) in D.
      - apply (FOPA_cross _ _ D); apply in_or_app; right; left; reflexivity.
      - rewrite <- app_assoc. reflexivity. }
    unfold djA, ara in *. cbn [fst snd] in *. unfold small in Sx, Sy. apply Z.leb_le in Sx. apply Z.leb_le in Sy.
    pose proof (slen_range (snd x)) as R. pose proof (slen_range (snd y)) as R'. unfold MAX_SM_VALUE_LEN, MAXS in R, R'. lia.
  - destruct (live_small s B live x I Hx Sx) as (g & Hg & Hu & Ea & El & Le).
    destruct (live_large s B live y I Hy Sy) as (Ho & Hr & Hc).
    destruct (slot_in_block s B live g I Hg) as (b & Hb & _ & R1 & R2).
    pose proof (out_dj _ _ _ ST s _ 0 (cid (snd y)) b (fst y) (v_c _ _ _ I) ltac:(lia) ltac:(lia) Hb Ho ltac:(lia)) as D.
    unfold djA in *. cbn [fst snd] in *. rewrite (st_0 _ _ _ ST) in D. lia.
  - destruct (live_small s B live y I Hy Sy) as (g & Hg & Hu & Ea & El & Le).
    destruct (live_large s B live x I Hx Sx) as (Ho & Hr & Hc).
    destruct (slot_in_block s B live g I Hg) as (b & Hb & _ & R1 & R2).
    pose proof (out_dj _ _ _ ST s _ 0 (cid (snd x)) b (fst x) (v_c _ _ _ I) ltac:(lia) ltac:(lia) Hb Ho ltac:(lia)) as D.
    unfold djA in *. cbn [fst snd] in *. rewrite (st_0 _ _ _ ST) in D. lia.
  - destruct (live_large s B live x I Hx Sx) as (Ho & Hr & Hc).
    destruct (live_large s B live y I Hy Sy) as (Ho' & Hr' & Hc').
    assert (D : djA (fst x, csz (cid (snd x))) (fst y, csz (cid (snd y)))).
    { destruct (Z.eq_dec (cid (snd x)) (cid (snd y))) as [Ec|Nc].
      - rewrite <- Ec in *. set (i := cid (snd x)) in *.
        assert (Bx : big i x = true) by (unfold big; rewrite Sx; unfold i; rewrite Z.eqb_refl; reflexivity).
        assert (By : big i y = true) by (unfold big; rewrite Sy, <- Ec, Z.eqb_refl; reflexivity).
        apply (out_dj_same _ _ _ ST s (out B live) i (map fst (filter (big i) l1)) (fst x) (map fst (filter (big i) (l2 ++ y :: l3)))).
        + apply (v_c _ _ _ I).
        + lia.
        + unfold out. destruct (Z.eqb_spec i 0); [lia|]. rewrite E, filter_app, map_app. f_equal. cbn [filter]. rewrite Bx. reflexivity.
        + apply in_or_app. right. apply in_map. apply filter_In. split; [apply in_or_app; right; left; reflexivity|exact By].
      - apply (out_dj _ _ _ ST s (out B live)); auto; try lia. apply (v_c _ _ _ I). }
    unfold djA in *. cbn [fst snd] in *. lia.
Qed.

Lemma live_page s B live x : Inv s B live -> In x live ->
  0 < fst x /\ fst x mod 8 = 0 /\
  exists q, In q (s_pages s) /\ fst q <= fst x /\ fst x + snd x <= fst q + snd q.
Proof.
  intros I Hx. destruct (small x) eqn:Sx.
  - destruct (live_small s B live x I Hx Sx) as (g & Hg & Hu & Ea & El & Le).
    destruct (slot_in_block s B live g I Hg) as (b & Hb & Eb & R1 & R2).
    pose proof (st_lg _ _ _ ST).
    destruct (cc_in _ _ _ _ _ (v_c _ _ _ I) 0 b ltac:(lia)) as (P1 & P2 & q & Hq & Q1 & Q2).
    { unfold held. apply in_or_app. left. exact Hb. }
    rewrite (st_0 _ _ _ ST) in Q2. pose proof (v_lv _ _ _ I x Hx) as [Lx _].
    destruct (sv_l _ _ _ _ _ (v_s _ _ _ I)) as [FL HL].
    pose proof (ge_8 _ (li_geo _ _ _ _ _ HL g Hg)) as G8. unfold goff in G8.
    split; [lia|]. split; [lia|]. exists q. split; [exact Hq|]. lia.
  - destruct (live_large s B live x I Hx Sx) as (Ho & Hr & Hc).
    destruct (cc_in _ _ _ _ _ (v_c _ _ _ I) (cid (snd x)) (fst x) ltac:(lia)) as (P1 & P2 & q & Hq & Q1 & Q2).
    { unfold held. apply in_or_app. left. exact Ho. }
    split; [exact P1|]. split; [exact P2|]. exists q. split; [exact Hq|]. lia.
Qed.
End Inv.
