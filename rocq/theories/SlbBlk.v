(* Blocks of the small memory allocator: each is tiled by slots, allocation splits a free slot,
   release merges it with its free neighbours. *)
From Verif Require Import Base SlbModel SlbCls SlbSum SlbList.
Open Scope Z_scope.

(* ---- tilings *)
Fixpoint tile (b a e : Z) (L : list gs) : Prop :=
  match L with
  | [] => a = e
  | g :: r => g_b g = b /\ g_a g = a /\ 0 < g_l g /\ tile b (a + g_l g) e r
  end.

Lemma tile_app b e L2 : forall L1 a, tile b a e (L1 ++ L2) <-> exists m, tile b a m L1 /\ tile b m e L2.
Proof.
  induction L1 as [|g L1 IH]; intro a; cbn [app tile].
  - split; [intro H; exists a; auto|intros (m & -> & H); exact H].
  - rewrite IH. split.
    + intros (A & B & C & m & D & E). exists m. auto.
    + intros (m & (A & B & C & D) & E). repeat split; auto. exists m. auto.
Qed.

Lemma tile_le b e : forall L a, tile b a e L -> a <= e.
Proof.
  induction L as [|g L IH]; intros a H; cbn [tile] in H; [lia|].
  destruct H as (_ & _ & P & H). apply IH in H. lia.
Qed.

Lemma tile_in b e g : forall L a, tile b a e L -> In g L -> g_b g = b /\ a <= g_a g /\ g_a g + g_l g <= e /\ 0 < g_l g.
Proof.
  induction L as [|x L IH]; intros a H Hin; [destruct Hin|]. cbn [tile] in H.
  destruct H as (A & B & C & D). destruct Hin as [->|Hin].
  - apply tile_le in D. repeat split; lia.
  - apply IH in D; [|exact Hin]. destruct D as (? & ? & ? & ?). repeat split; lia.
Qed.

Lemma tile_dj b e : forall L a, tile b a e L -> ForallOrdPairs dj L.
Proof.
  induction L as [|x L IH]; intros a H; [constructor|]. cbn [tile] in H. destruct H as (A & B & C & D).
  constructor; [|exact (IH _ D)]. apply Forall_forall. intros y Hy.
  destruct (tile_in _ _ y _ _ D Hy) as (? & ? & ? & ?). left. lia.
Qed.

(* ---- no two free slots side by side *)
Fixpoint noff (L : list gs) : Prop :=
  match L with
  | x :: r => match r with [] => True | y :: _ => g_u x = true \/ g_u y = true end /\ noff r
  | [] => True
  end.
Definition lu (L : list gs) : Prop := match L with [] => True | x :: r => g_u (last r x) = true end.
Definition fu (L : list gs) : Prop := match L with [] => True | x :: _ => g_u x = true end.

Lemma lu_snoc L x : lu (L ++ [x]) <-> g_u x = true.
Proof.
  destruct L as [|y L]; [reflexivity|]. cbn [app lu]. 
  replace (last (L ++ [x]) y) with x; [reflexivity|]. rewrite last_last. reflexivity.
Qed.

Lemma noff_cat A B : noff (A ++ B) <-> noff A /\ noff B /\ (lu A \/ fu B).
Proof.
  induction A as [|x A IH]; cbn [app].
  - cbn [noff lu]. tauto.
  - destruct A as [|y A].
    + cbn [app noff lu last]. destruct B as [|z B]; cbn [fu]; tauto.
    + assert (E : lu (x :: y :: A) <-> lu (y :: A)).
      { cbn [lu]. destruct A as [|z A]; [cbn; tauto|]. 
        replace (last (y :: z :: A) x) with (last (z :: A) y); [tauto|].
        cbn [last]. clear. revert z. induction A as [|a A IH]; intro z; [reflexivity|]. cbn [last]. apply IH. }
      rewrite E. change ((y :: A) ++ B) with (y :: (A ++ B)) in *.
      cbn [noff]. cbn [noff] in IH. tauto.
Qed.

(* ---- blocks *)
Definition blk : Type := (Z * list gs)%type.
Definition slots (B : list blk) : list gs := concat (map snd B).
Record BI (x : blk) : Prop := mkBI
  { bi_t : tile (fst x) (fst x + 32) (fst x + 262144) (snd x);
    bi_n : noff (snd x);
    bi_u : exists g, In g (snd x) /\ g_u g = true }.

Lemma slots_app A B : slots (A ++ B) = slots A ++ slots B.
Proof. unfold slots. rewrite map_app, concat_app. reflexivity. Qed.
Lemma slots_cons x B : slots (x :: B) = snd x ++ slots B.
Proof. reflexivity. Qed.

Lemma slots_split B g : In g (slots B) ->
  exists B1 b L1 L2 B2, B = B1 ++ (b, L1 ++ g :: L2) :: B2.
Proof.
  induction B as [|[b L] B IH]; intro H; [destruct H|].
  rewrite slots_cons in H. apply in_app_or in H as [H|H].
  - cbn [snd] in H. apply in_split in H as (L1 & L2 & ->). exists [], b, L1, L2, B. reflexivity.
  - destruct (IH H) as (B1 & b' & L1 & L2 & B2 & ->). exists ((b, L) :: B1), b', L1, L2, B2. reflexivity.
Qed.

(* the slots of the blocks, those in the middle of one block first *)
Lemma slots_mid B1 b L1 M L2 B2 :
  Permutation (slots (B1 ++ (b, L1 ++ M ++ L2) :: B2)) (M ++ (slots B1 ++ L1 ++ L2 ++ slots B2)).
Proof.
  rewrite slots_app, slots_cons. cbn [snd]. rewrite <- !app_assoc.
  rewrite (app_assoc (slots B1) L1 (M ++ _)), (app_assoc (slots B1) L1 (L2 ++ _)).
  apply Permutation_app_swap_app.
Qed.

(* ---- totals that look at used slots only *)
Lemma UInv_perm u l l' : Permutation l l' -> UInv u l -> UInv u l'.
Proof.
  intros P [A B C].
  assert (E : forall c, ucnt c l' = ucnt c l) by (intro; symmetry; apply wsum_perm; exact P).
  split.
  - intro c. rewrite A, E. f_equal. apply wsum_perm. exact P.
  - rewrite B. apply wsum_perm. exact P.
  - eapply bnd_ext; [|exact C]. intro c. cbn beta. rewrite E. reflexivity.
Qed.

Lemma UInv_free u g l : g_u g = false -> UInv u (g :: l) <-> UInv u l.
Proof.
  intro H.
  assert (E1 : forall c, ucnt c (g :: l) = ucnt c l) by (intro; unfold ucnt; cbn [wsum]; rewrite H; reflexivity).
  assert (E2 : forall c, usp c (g :: l) = usp c l) by (intro; unfold usp; cbn [wsum]; rewrite H; reflexivity).
  assert (E3 : utot (g :: l) = utot l) by (unfold utot; cbn [wsum]; rewrite H; reflexivity).
  split; intros [A B C]; split.
  - intro c. rewrite A, E1, E2. reflexivity.
  - congruence.
  - eapply bnd_ext; [|exact C]. intro c. cbn beta. rewrite E1. reflexivity.
  - intro c. rewrite A, E1, E2. reflexivity.
  - congruence.
  - eapply bnd_ext; [|exact C]. intro c. cbn beta. rewrite E1. reflexivity.
Qed.

Lemma uge_perm c l l' : Permutation l l' -> uge c l = uge c l'.
Proof. apply wsum_perm. Qed.
Lemma uge_free c g l : g_u g = false -> uge c (g :: l) = uge c l.
Proof. intro H. unfold uge. cbn [wsum]. rewrite H. reflexivity. Qed.
Lemma uge_used c g l : g_u g = true -> uge c (g :: l) = iff (c <=? ucls g) (g_l g) + uge c l.
Proof. intro H. unfold uge. cbn [wsum]. rewrite H. reflexivity. Qed.
Lemma utot_perm l l' : Permutation l l' -> utot l = utot l'.
Proof. apply wsum_perm. Qed.
Lemma utot_free g l : g_u g = false -> utot (g :: l) = utot l.
Proof. intro H. unfold utot. cbn [wsum]. rewrite H. reflexivity. Qed.
Lemma utot_used g l : g_u g = true -> utot (g :: l) = g_l g + utot l.
Proof. intro H. unfold utot. cbn [wsum]. rewrite H. reflexivity. Qed.

Lemma utot_pos l g : posl l -> In g l -> g_u g = true -> 0 < utot l.
Proof.
  intros H Hin Hu. apply Z.lt_le_trans with (iff (g_u g) (g_l g)).
  - rewrite Hu. cbn. apply H. exact Hin.
  - refine (wsum_in (fun g => iff (g_u g) (g_l g)) l g _ Hin).
    intros x Hx. specialize (H x Hx). unfold iff. destruct (g_u x); lia.
Qed.

(* ---- a used slot is written *)
Lemma used_ok m f p FL l g : LInv m f p FL l -> geo1 g -> g_u g = true ->
  (forall x, In x l -> dj g x) ->
  LInv (used_slot_init m (g_a g) (goff g) (g_l g)) f p FL (g :: l).
Proof.
  intros [A B C D [E1 E2]] G Hu Hd. split.
  - apply FInv_other; [unfold lnk; rewrite Hu; reflexivity|]. apply (FInv_frame m); [|exact A].
    intros c a _. split; reflexivity.
  - intros x [<-|Hx]; [apply used_init_tag; assumption|].
    apply (tag_frame (m_w m)); auto. intros y Hy. apply used_init_frame.
    + pose proof (ge_l _ G). pose proof (ge_l8 _ G). lia.
    + destruct (Hd x Hx); lia.
  - intros x [<-|Hx]; auto.
  - constructor; [apply Forall_forall; exact Hd|exact D].
  - unfold PF. rewrite E1, E2. unfold fsm, fav, lnk. cbn [wsum]. rewrite Hu. cbn. split; reflexivity.
Qed.

(* a used slot is forgotten *)
Lemma LInv_drop m f p FL l g : LInv m f p FL (g :: l) -> g_u g = true -> LInv m f p FL l.
Proof.
  intros [A B C D [E1 E2]] Hu. split.
  - apply (FInv_other _ _ _ _ g); [unfold lnk; rewrite Hu; reflexivity|exact A].
  - intros x Hx. apply B. right. exact Hx.
  - intros x Hx. apply C. right. exact Hx.
  - inversion D; assumption.
  - unfold PF. rewrite E1, E2. unfold fsm, fav, lnk. cbn [wsum]. rewrite Hu. cbn. split; reflexivity.
Qed.

(* ---- the class chosen by an allocation *)
Lemma find_class_ok m f FL l pc ssl slen targ : FInv m f FL l -> (forall x, In x l -> geo1 x) ->
  32 <= slen <= 49152 -> slen mod 8 = 0 -> targ = memid slen true ->
  exists c, find_class f pc ssl slen targ = Some c /\ targ <= c.
Proof.
  intros I G H1 H2 ->. set (targ := memid slen true).
  pose proof (memid_twice slen H1 H2) as Tw. fold targ in Tw.
  pose proof (memid_range slen true ltac:(lia)) as R. fold targ in R.
  unfold find_class. set (full := fun i => negb (fl_head (f_sl f i) =? 0)).
  destruct (Z.gtb_spec targ (f_max f)) as [L|L].
  { eexists. split; [reflexivity|]. rewrite NCLS_eq. lia. }
  assert (Fm : full (f_max f) = true).
  { pose proof (fi_bnd _ _ _ _ I) as B. destruct (b_at _ _ _ _ B) as [[_ X]|[_ X]]; [lia|].
    apply andb_true_iff in X as [X _]. apply Z.ltb_lt in X.
    destruct (FL_empty m f FL l (f_max f) I G) as [_ Y].
    pose proof (fi_len _ _ _ _ I (f_max f)).
    destruct Y as [Y _]; [intros E; rewrite E in *; cbn in *; lia|].
    unfold full. apply Z.eqb_neq in Y. rewrite Y. reflexivity. }
  assert (Up : forall n, targ <= n -> exists c,
    (if n >? f_max f then Some (f_max f)
     else let r := scan_up (Z.to_nat (f_max f - n + 1)) n full in
          if r <=? f_max f then Some r else None) = Some c /\ targ <= c).
  { intros n Hn. destruct (Z.gtb_spec n (f_max f)); [eexists; split; [reflexivity|lia]|].
    cbv zeta. destruct (scan_up_spec _ _ _ _ (eq_refl (scan_up (Z.to_nat (f_max f - n + 1)) n full))) as (S1 & S2 & S3).
    set (r := scan_up _ _ _) in *.
    destruct (Z.leb_spec r (f_max f)).
    - eexists. split; [reflexivity|lia].
    - exfalso. rewrite S2 in Fm by lia. discriminate. }
  destruct (negb (fl_head (f_sl f targ) =? 0)); [eexists; split; [reflexivity|lia]|].
  destruct (Z.geb_spec targ pc).
  { apply Up. lia. }
  assert (Nx : targ <= (if memid (slen * 2) false <? pc then memid (slen * 2) false else pc)).
  { destruct (Z.ltb_spec (memid (slen * 2) false) pc); lia. }
  cbv zeta. destruct (Z.gtb_spec ssl 0); [|apply Up; exact Nx].
  match goal with |- context [if ?r >? targ then _ else _] => destruct (Z.gtb_spec r targ) end.
  - eexists. split; [reflexivity|lia].
  - apply Up. exact Nx.
Qed.

(* ---- the invariant of the small memory allocator *)
Record SInv (m : memo) (u : uinfo) (f : finfo) (p : pinfo) (B : list blk) : Prop := mkSInv
  { sv_l : exists FL, LInv m f p FL (slots B);
    sv_u : UInv u (slots B);
    sv_b : Forall BI B;
    sv_sp : p_space p = uge (p_cls p) (slots B);
    sv_0 : B = [] -> p_cls p = -1;
    sv_1 : B <> [] -> 0 <= p_cls p /\ 0 < p_space p }.

Lemma SInv_posl m u f p B : SInv m u f p B -> posl (slots B).
Proof. intros [[FL A] _ _ _ _ _] g Hg. apply (li_geo _ _ _ _ _ A) in Hg. apply (ge_l _ Hg). Qed.

Lemma BI_used B : Forall BI B -> B <> [] -> exists g, In g (slots B) /\ g_u g = true.
Proof.
  intros H N. destruct B as [|x B]; [congruence|]. inversion H as [|? ? [_ _ (g & Hg & Hu)] _]; subst.
  exists g. split; [|exact Hu]. rewrite slots_cons. apply in_or_app. left. exact Hg.
Qed.

(* after an allocation: used totals and the class of the last 1% *)
Lemma after_alloc m u f p FL B g l :
  LInv m f p FL (slots B) -> Forall BI B -> g_u g = true ->
  Permutation (slots B) (g :: l) -> UInv u l ->
  p_space p = uge (p_cls p) l ->
  (utot l = 0 -> p_cls p = -1 /\ f_max f = -1) -> (0 < utot l -> 0 <= p_cls p /\ 0 < p_space p) ->
  exists p', p_after_alloc (used_add u (g_l g) (ucls g)) f p (g_l g) (ucls g) = Some p' /\
    SInv m (used_add u (g_l g) (ucls g)) f p' B.
Proof.
  intros HL HB Hu P HU Hsp H0 H1.
  assert (Hg : In g (slots B)) by (apply (Permutation_in _ (Permutation_sym P)); left; reflexivity).
  pose proof (li_geo _ _ _ _ _ HL g Hg) as Gg. pose proof (ge_l _ Gg) as Gl.
  assert (Pl : posl (slots B)) by (intros x Hx; apply (ge_l _ (li_geo _ _ _ _ _ HL x Hx))).
  assert (Pl' : posl l) by (intros x Hx; apply Pl; apply (Permutation_in _ (Permutation_sym P)); right; exact Hx).
  pose proof (used_add_ok u l (slots B) g HU Hu Gl P) as HU'.
  set (u' := used_add u (g_l g) (ucls g)) in *.
  pose proof (memid_range (g_l g) true ltac:(lia)) as Rg. fold (ucls g) in Rg.
  pose proof (ui_tot _ _ HU') as Et. rewrite (utot_perm _ _ P), (utot_used _ _ Hu) in Et.
  pose proof (utot_nonneg l Pl') as Tn.
  assert (NE : B <> []).
  { intros ->. destruct Hg. }
  assert (Esp : forall c, uge c (slots B) = iff (c <=? ucls g) (g_l g) + uge c l).
  { intro c. rewrite (uge_perm c _ _ P), (uge_used c g l Hu). reflexivity. }
  assert (Fin : forall p', PF p' (slots B) -> p_space p' = uge (p_cls p') (slots B) -> 0 <= p_cls p' ->
            0 < p_space p' -> SInv m u' f p' B).
  { intros p' X1 X2 X3 X4. split; auto.
    - exists FL. destruct HL as [A1 A2 A3 A4 A5]. split; auto.
    - intros ->. congruence. }
  pose proof (fi_space _ _ _ _ (li_f _ _ _ _ _ HL)) as FSp.
  pose proof (li_p _ _ _ _ _ HL) as [P1 P2].
  unfold p_after_alloc. rewrite Et. destruct (Z.eqb_spec (g_l g + utot l) (g_l g)) as [E|E].
  - destruct H0 as [Ec Em]; [lia|].
    assert (Z0 : forall c, uge c l = 0).
    { intro c. apply Z.le_antisymm; [|apply uge_nonneg; exact Pl'].
      apply Z.le_trans with (utot l); [|lia]. apply wsum_le. intros x Hx. specialize (Pl' x Hx).
      unfold iff. destruct (g_u x); cbn [andb]; [|lia]. destruct (c <=? ucls x); lia. }
    rewrite Hsp, Z0. cbn [Z.eqb]. unfold p_first_set. rewrite Ec, Em. cbn [Z.eqb negb].
    eexists. split; [reflexivity|]. apply Fin; cbn [p_cls p_space]; [|rewrite Esp, Z0, Z.leb_refl; cbn; lia|lia|lia].
    assert (Big : forall x, In x (slots B) -> lnk x = true -> fcls x = 708).
    { intros x Hx Kx. destruct (Z.eq_dec (fcls x) 708) as [|N]; [assumption|]. exfalso.
      pose proof (memid_range (g_l x) false ltac:(specialize (Pl x Hx); lia)) as Rx. fold (fcls x) in Rx.
      pose proof (fi_bnd _ _ _ _ (li_f _ _ _ _ _ HL)) as Bd.
      pose proof (b_in _ _ _ _ Bd (fcls x)) as X. cbn beta in X. 
      assert (0 < fcnt (fcls x) (slots B)).
      { apply Z.lt_le_trans with (iff (lnk x && (fcls x =? fcls x)) 1); [rewrite Kx, Z.eqb_refl; cbn; lia|].
        refine (wsum_in (fun y => iff (lnk y && (fcls y =? fcls x)) 1) _ x _ Hx). 
        intros y _. unfold iff. match goal with |- context [if ?b then _ else _] => destruct b end; lia. }
      destruct (Z.ltb_spec 0 (fcnt (fcls x) (slots B))); [|lia].
      destruct (Z.ltb_spec (fcls x) 708); [|lia]. specialize (X eq_refl). lia. }
    unfold PF. cbn [p_cls p_small p_avail]. rewrite P1, P2, Ec. split.
    + unfold fsm. apply wsum_ext. intros x Hx. destruct (g_u x) eqn:Ux; [reflexivity|]. cbn [negb andb].
      destruct (Z.ltb_spec (g_l x) 32); [reflexivity|]. cbn [orb].
      assert (K : lnk x = true) by (apply lnk_true; auto). rewrite (Big x Hx K).
      destruct (Z.ltb_spec 708 (-1)); [lia|]. destruct (Z.ltb_spec 708 (ucls g)); [lia|]. reflexivity.
    + unfold fav. apply wsum_ext. intros x Hx. destruct (lnk x) eqn:K; [|reflexivity]. cbn [andb].
      rewrite (Big x Hx K). destruct (Z.leb_spec (-1) 708); [|lia]. destruct (Z.leb_spec (ucls g) 708); [|lia]. reflexivity.
  - destruct H1 as [H1 H2]; [lia|].
    destruct (Z.geb_spec (ucls g) (p_cls p)) as [L|L].
    + eexists. split; [reflexivity|].
      destruct (move_right_ok u' f (mkP (p_cls p) (p_space p + g_l g) (p_small p) (p_avail p)) (slots B)) as (R1 & R2 & R3 & R4);
        auto; cbn [p_cls p_space p_small p_avail] in *; [split; assumption| |lia|].
      * rewrite Esp. destruct (Z.leb_spec (p_cls p) (ucls g)); [|lia]. cbn [iff]. lia.
      * apply Fin; auto. lia.
    + destruct (move_left_ok u' f p (slots B)) as (p' & Ep & R1 & R2 & R3 & R4); auto.
      * split; assumption.
      * rewrite (utot_perm _ _ P), (utot_used _ _ Hu). lia.
      * rewrite Esp. destruct (Z.leb_spec (p_cls p) (ucls g)); [lia|]. cbn [iff]. lia.
      * exists p'. split; [exact Ep|]. apply Fin; auto.
Qed.

(* after a release *)
Lemma after_free m u f p FL B g l :
  LInv m f p FL (slots B) -> Forall BI B -> g_u g = true -> 0 < g_l g -> posl l ->
  UInv u (slots B) -> (forall c, uge c (slots B) = uge c l) -> utot (slots B) = utot l ->
  p_space p = iff (p_cls p <=? ucls g) (g_l g) + uge (p_cls p) l ->
  0 <= p_cls p -> 0 < p_space p ->
  exists p', p_after_free u f p (g_l g) (ucls g) = Some p' /\ SInv m u f p' B.
Proof.
  intros HL HB Hu Gl Pl' HU Eu Et Hsp Hc Hs.
  assert (Pl : posl (slots B)) by (intros x Hx; apply (ge_l _ (li_geo _ _ _ _ _ HL x Hx))).
  assert (Fin : forall p', PF p' (slots B) -> p_space p' = uge (p_cls p') (slots B) ->
            (B = [] -> p_cls p' = -1) -> (B <> [] -> 0 <= p_cls p' /\ 0 < p_space p') -> SInv m u f p' B).
  { intros p' X1 X2 X3 X4. split; auto. exists FL. destruct HL as [A1 A2 A3 A4 A5]. split; auto. }
  pose proof (fi_space _ _ _ _ (li_f _ _ _ _ _ HL)) as FSp.
  pose proof (li_p _ _ _ _ _ HL) as [P1 P2].
  unfold p_after_free. rewrite (ui_tot _ _ HU). destruct (Z.eqb_spec (utot (slots B)) 0) as [E|E].
  - assert (EB : B = []).
    { destruct B as [|x B0] eqn:EB0; [reflexivity|]. exfalso.
      destruct (BI_used (x :: B0) HB ltac:(discriminate)) as (y & Hy & Uy).
      pose proof (utot_pos _ _ Pl Hy Uy). lia. }
    subst B. assert (Z0 : uge (p_cls p) l = 0) by (rewrite <- Eu; reflexivity).
    rewrite Z0 in Hsp. destruct (p_cls p <=? ucls g); cbn [iff] in Hsp; [|lia].
    rewrite Hsp. destruct (Z.eqb_spec (g_l g + 0) (g_l g)); [|lia].
    unfold p_last_clear. change (p_small p = 0) in P1. change (p_avail p = 0) in P2. rewrite P1, P2. cbn [Z.eqb andb].
    eexists. split; [reflexivity|]. apply Fin; [split; reflexivity|reflexivity|reflexivity|congruence].
  - assert (0 < utot (slots B)) by (pose proof (utot_nonneg _ Pl); lia).
    assert (NE : B <> []) by (intros ->; cbn in E; lia).
    destruct (Z.geb_spec (ucls g) (p_cls p)) as [L|L].
    + destruct (move_left_ok u f (mkP (p_cls p) (p_space p - g_l g) (p_small p) (p_avail p)) (slots B)) as (p' & Ep & R1 & R2 & R3 & R4);
        auto; cbn [p_cls p_space p_small p_avail] in *; [split; assumption| |].
      * rewrite Eu. destruct (Z.leb_spec (p_cls p) (ucls g)); [|lia]. cbn [iff] in Hsp. lia.
      * exists p'. split; [exact Ep|]. apply Fin; auto. intros ->. congruence.
    + eexists. split; [reflexivity|].
      destruct (move_right_ok u f p (slots B)) as (R1 & R2 & R3 & R4); auto.
      * split; assumption.
      * rewrite Eu. destruct (Z.leb_spec (p_cls p) (ucls g)); [lia|]. cbn [iff] in Hsp. lia.
      * apply Fin; auto; [intros ->; congruence|]. intros _. split; [lia|exact R3].
Qed.
