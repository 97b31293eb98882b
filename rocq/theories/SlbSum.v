(* Sums over the slots of the small memory allocator, minimum and maximum classes, and the
   class of the last 1% of the used space. *)
From Verif Require Import Base SlbModel SlbCls.
Open Scope Z_scope.

(* a slot: block, address, length, in use *)
Record gs : Type := mkG { g_b : Z; g_a : Z; g_l : Z; g_u : bool }.

Fixpoint wsum (w : gs -> Z) (l : list gs) : Z :=
  match l with
  | [] => 0
  | g :: r => w g + wsum w r
  end.

Lemma wsum_app w a b : wsum w (a ++ b) = wsum w a + wsum w b.
Proof. induction a as [|x a IH]; cbn [app wsum]; lia. Qed.

Lemma wsum_perm w a b : Permutation a b -> wsum w a = wsum w b.
Proof. induction 1; cbn [wsum]; lia. Qed.

Lemma wsum_ext w v l : (forall g, In g l -> w g = v g) -> wsum w l = wsum v l.
Proof.
  induction l as [|x l IH]; intro H; cbn [wsum]; [reflexivity|].
  rewrite (H x (or_introl eq_refl)), IH; [reflexivity|]. intros g Hg. apply H. right. exact Hg.
Qed.

Lemma wsum_add w v l : wsum (fun g => w g + v g) l = wsum w l + wsum v l.
Proof. induction l as [|x l IH]; cbn [wsum]; lia. Qed.

Lemma wsum_nonneg w l : (forall g, In g l -> 0 <= w g) -> 0 <= wsum w l.
Proof.
  induction l as [|x l IH]; intro H; cbn [wsum]; [lia|].
  pose proof (H x (or_introl eq_refl)). assert (0 <= wsum w l) by (apply IH; intros; apply H; right; assumption). lia.
Qed.

Lemma wsum_le w v l : (forall g, In g l -> w g <= v g) -> wsum w l <= wsum v l.
Proof.
  induction l as [|x l IH]; intro H; cbn [wsum]; [lia|].
  pose proof (H x (or_introl eq_refl)). assert (wsum w l <= wsum v l) by (apply IH; intros; apply H; right; assumption). lia.
Qed.

Lemma wsum_zero w l : (forall g, In g l -> w g = 0) -> wsum w l = 0.
Proof.
  induction l as [|x l IH]; intro H; cbn [wsum]; [lia|].
  rewrite (H x (or_introl eq_refl)), IH; [lia|]. intros; apply H; right; assumption.
Qed.

Lemma wsum_pos w l : (forall g, In g l -> 0 <= w g) -> 0 < wsum w l -> exists g, In g l /\ 0 < w g.
Proof.
  induction l as [|x l IH]; intros H P; cbn [wsum] in P; [lia|].
  destruct (Z_lt_dec 0 (w x)) as [L|L].
  - exists x. split; [left; reflexivity|exact L].
  - pose proof (H x (or_introl eq_refl)).
    destruct IH as (g & A & B); [intros; apply H; right; assumption|lia|].
    exists g. split; [right; exact A|exact B].
Qed.

Lemma wsum_in w l g : (forall g, In g l -> 0 <= w g) -> In g l -> w g <= wsum w l.
Proof.
  induction l as [|x l IH]; intros H P; cbn [wsum]; [destruct P|].
  pose proof (H x (or_introl eq_refl)).
  assert (H' : forall g, In g l -> 0 <= w g) by (intros; apply H; right; assumption).
  destruct P as [->|P]; [pose proof (wsum_nonneg w l H'); lia|].
  pose proof (IH H' P). lia.
Qed.

Definition ucls (g : gs) : Z := memid (g_l g) true.
Definition fcls (g : gs) : Z := memid (g_l g) false.
Definition iff (b : bool) (x : Z) : Z := if b then x else 0.

(* used side *)
Definition usp (c : Z) := wsum (fun g => iff (g_u g && (ucls g =? c)) (g_l g)).
Definition ucnt (c : Z) := wsum (fun g => iff (g_u g && (ucls g =? c)) 1).
Definition utot := wsum (fun g => iff (g_u g) (g_l g)).
Definition uge (c : Z) := wsum (fun g => iff (g_u g && (c <=? ucls g)) (g_l g)).
(* free side *)
Definition lnk (g : gs) : bool := negb (g_u g) && (32 <=? g_l g).
Definition fsp (c : Z) := wsum (fun g => iff (lnk g && (fcls g =? c)) (g_l g)).
Definition fcnt (c : Z) := wsum (fun g => iff (lnk g && (fcls g =? c)) 1).
Definition fsm (c : Z) :=
  wsum (fun g => iff (negb (g_u g) && ((g_l g <? 32) || (fcls g <? c))) (g_l g)).
Definition fav (c : Z) := wsum (fun g => iff (lnk g && (c <=? fcls g)) (g_l g)).
Definition fbt (i j : Z) := wsum (fun g => iff (lnk g && (i <=? fcls g) && (fcls g <? j)) (g_l g)).

(* every slot has a positive length *)
Definition posl (l : list gs) : Prop := forall g, In g l -> 0 < g_l g.

Ltac sumtac :=
  intros; cbn beta; unfold iff, lnk in *;
  repeat match goal with
         | |- context [g_u ?g] => destruct (g_u g)
         end; cbn [andb negb];
  repeat match goal with
         | |- context [?a <=? ?b] => destruct (Z.leb_spec a b)
         | |- context [?a <? ?b] => destruct (Z.ltb_spec a b)
         | |- context [?a =? ?b] => destruct (Z.eqb_spec a b)
         end; cbn [andb orb negb]; try lia.

Lemma uge_split c l : uge c l = usp c l + uge (c + 1) l.
Proof.
  unfold uge, usp. rewrite <- wsum_add. apply wsum_ext. sumtac.
Qed.

Lemma uge_all c l : (forall g, In g l -> c <= ucls g) -> uge c l = utot l.
Proof.
  intro H. unfold uge, utot. apply wsum_ext. intros g Hg. specialize (H g Hg). sumtac.
Qed.

Lemma fsm_fbt i j l : i <= j -> fsm j l = fsm i l + fbt i j l.
Proof.
  intro H. unfold fsm, fbt. rewrite <- wsum_add. apply wsum_ext. sumtac.
Qed.
Lemma fav_fbt i j l : i <= j -> fav i l = fav j l + fbt i j l.
Proof.
  intro H. unfold fav, fbt. rewrite <- wsum_add. apply wsum_ext. sumtac.
Qed.
Lemma fbt_step i j l : i < j -> fbt i j l = fsp i l + fbt (i + 1) j l.
Proof.
  intro H. unfold fsp, fbt. rewrite <- wsum_add. apply wsum_ext. sumtac.
Qed.
Lemma fbt_empty i l : fbt i i l = 0.
Proof. unfold fbt. apply wsum_zero. sumtac. Qed.

Lemma usp_nonneg c l : posl l -> 0 <= usp c l.
Proof. intro H. apply wsum_nonneg. intros g Hg. specialize (H g Hg). sumtac. Qed.
Lemma ucnt_nonneg c l : 0 <= ucnt c l.
Proof. apply wsum_nonneg. sumtac. Qed.
Lemma fcnt_nonneg c l : 0 <= fcnt c l.
Proof. apply wsum_nonneg. sumtac. Qed.
Lemma fsp_nonneg c l : posl l -> 0 <= fsp c l.
Proof. intro H. apply wsum_nonneg. intros g Hg. specialize (H g Hg). sumtac. Qed.
Lemma uge_nonneg c l : posl l -> 0 <= uge c l.
Proof. intro H. apply wsum_nonneg. intros g Hg. specialize (H g Hg). sumtac. Qed.
Lemma utot_nonneg l : posl l -> 0 <= utot l.
Proof. intro H. apply wsum_nonneg. intros g Hg. specialize (H g Hg). sumtac. Qed.

Lemma usp_ucnt c l : posl l -> (0 < usp c l <-> 0 < ucnt c l).
Proof.
  intro H. split; intro P.
  - apply wsum_pos in P as (g & Hg & P); [|intros g Hg; specialize (H g Hg); sumtac].
    apply Z.lt_le_trans with (iff (g_u g && (ucls g =? c)) 1).
    + revert P. unfold iff. destruct (g_u g && (ucls g =? c)); lia.
    + refine (wsum_in (fun g => iff (g_u g && (ucls g =? c)) 1) l g _ Hg). sumtac.
  - apply wsum_pos in P as (g & Hg & P); [|sumtac].
    apply Z.lt_le_trans with (iff (g_u g && (ucls g =? c)) (g_l g)).
    + specialize (H g Hg). revert P. unfold iff. destruct (g_u g && (ucls g =? c)); lia.
    + refine (wsum_in (fun g => iff (g_u g && (ucls g =? c)) (g_l g)) l g _ Hg).
      intros g' Hg'. specialize (H g' Hg'). sumtac.
Qed.

(* ---- loops *)
Lemma scan_up_spec n : forall i test r, scan_up n i test = r ->
  i <= r <= i + Z.of_nat n /\ (forall j, i <= j < r -> test j = false) /\
  (r < i + Z.of_nat n -> test r = true).
Proof.
  induction n as [|n IH]; intros i test r H; cbn [scan_up] in H.
  - subst. split; [lia|]. split; intros; lia.
  - destruct (test i) eqn:E.
    + subst. split; [lia|]. split; [intros; lia|]. intro. exact E.
    + apply IH in H as (A & B & C). split; [lia|]. split.
      * intros j Hj. destruct (Z.eq_dec j i) as [->|]; [exact E|]. apply B. lia.
      * intro. apply C. lia.
Qed.

Lemma scan_down_spec n : forall i test r, scan_down n i test = r ->
  i - Z.of_nat n <= r <= i /\ (forall j, r < j <= i -> test j = false) /\
  (i - Z.of_nat n < r -> test r = true).
Proof.
  induction n as [|n IH]; intros i test r H; cbn [scan_down] in H.
  - subst. split; [lia|]. split; intros; lia.
  - destruct (test i) eqn:E.
    + subst. split; [lia|]. split; [intros; lia|]. intro. exact E.
    + apply IH in H as (A & B & C). split; [lia|]. split.
      * intros j Hj. destruct (Z.eq_dec j i) as [->|]; [exact E|]. apply B. lia.
      * intro. apply C. lia.
Qed.

(* ---- minimum, maximum and number of the classes in use *)
Definition allc : list Z := map Z.of_nat (seq 0 709).
Lemma allc_in c : In c allc <-> 0 <= c <= 708.
Proof.
  unfold allc. rewrite in_map_iff. split.
  - intros (x & <- & H). apply in_seq in H. lia.
  - intro H. exists (Z.to_nat c). split; [lia|]. apply in_seq. lia.
Qed.
Lemma allc_nodup : NoDup allc.
Proof.
  unfold allc. apply FinFun.Injective_map_NoDup; [|apply seq_NoDup]. intros x y; lia.
Qed.
Definition ncls (t : Z -> bool) : Z := Z.of_nat (length (filter t allc)).

Lemma filter_len_ext (t t' : Z -> bool) l : (forall c, In c l -> t c = t' c) -> length (filter t l) = length (filter t' l).
Proof.
  induction l as [|x l IH]; intro H; cbn [filter]; [reflexivity|].
  rewrite (H x (or_introl eq_refl)). destruct (t' x); cbn [length]; rewrite IH; auto; intros; apply H; right; assumption.
Qed.

Lemma filter_len_one (t t' : Z -> bool) c l : NoDup l -> In c l -> t c = false -> t' c = true ->
  (forall x, x <> c -> t x = t' x) -> length (filter t' l) = S (length (filter t l)).
Proof.
  induction 1 as [|x l N ND IH]; intros Hin H1 H2 He; [destruct Hin|].
  cbn [filter]. destruct Hin as [->|Hin].
  - rewrite H1, H2. cbn [length]. f_equal. apply filter_len_ext. intros y Hy. symmetry. apply He.
    intros ->. contradiction.
  - assert (x <> c) by (intros ->; contradiction). rewrite (He x) by assumption.
    destruct (t' x); cbn [length]; rewrite IH; auto.
Qed.

Record bnd (t : Z -> bool) (num lo hi : Z) : Prop := mkBnd
  { b_in : forall c, t c = true -> lo <= c <= hi;
    b_at : (lo = NCLS /\ hi = -1) \/ (t lo = true /\ t hi = true);
    b_rng : forall c, t c = true -> 0 <= c <= 708;
    b_num : num = ncls t }.

Lemma bnd_ext t t' num lo hi : (forall c, t c = t' c) -> bnd t num lo hi -> bnd t' num lo hi.
Proof.
  intros E [A B C D]. split.
  - intros c Hc. apply A. rewrite E. exact Hc.
  - rewrite <- !E. exact B.
  - intros c Hc. apply C. rewrite E. exact Hc.
  - rewrite D. unfold ncls. f_equal. apply filter_len_ext. intros; apply E.
Qed.

Lemma bnd_init t : (forall c, t c = false) -> bnd t 0 NCLS (-1).
Proof.
  intro H. split.
  - intros c Hc. rewrite H in Hc. discriminate.
  - left. auto.
  - intros c Hc. rewrite H in Hc. discriminate.
  - unfold ncls. rewrite (filter_len_ext t (fun _ => false)) by auto.
    assert (E : forall l : list Z, filter (fun _ => false) l = []) by (induction l; auto).
    rewrite E. reflexivity.
Qed.

Lemma bnd_add t t' num lo hi c : bnd t num lo hi -> 0 <= c <= 708 -> t c = false -> t' c = true ->
  (forall x, x <> c -> t' x = t x) ->
  bnd t' (num + 1) (if c <? lo then c else lo) (if c >? hi then c else hi).
Proof.
  intros [A B C D] Hc H1 H2 He. rewrite NCLS_eq in *. split.
  - intros x Hx. destruct (Z.eq_dec x c) as [->|N].
    + destruct (Z.ltb_spec c lo), (Z.gtb_spec c hi); lia.
    + rewrite He in Hx by exact N. apply A in Hx.
      destruct (Z.ltb_spec c lo), (Z.gtb_spec c hi); lia.
  - right. destruct B as [[-> ->]|[B1 B2]].
    + destruct (Z.ltb_spec c 709); [|lia]. destruct (Z.gtb_spec c (-1)); [|lia]. auto.
    + assert (lo <> c) by congruence. assert (hi <> c) by congruence.
      destruct (Z.ltb_spec c lo), (Z.gtb_spec c hi); split; auto; rewrite He; auto.
  - intros x Hx. destruct (Z.eq_dec x c) as [->|N]; [exact Hc|]. rewrite He in Hx by exact N. auto.
  - subst num. unfold ncls. rewrite (filter_len_one t t' c allc allc_nodup); auto.
    + lia.
    + apply allc_in. exact Hc.
    + intros x N. symmetry. auto.
Qed.

Lemma bnd_del t t' num lo hi c used : bnd t num lo hi -> t c = true -> t' c = false ->
  (forall x, x <> c -> t' x = t x) -> (forall x, lo <= x <= hi -> used x = t' x) ->
  exists lo' hi', bounds_del lo hi c used = Some (lo', hi') /\ bnd t' (num - 1) lo' hi'.
Proof.
  intros [A B C D] H1 H2 He Hu.
  assert (HN : num - 1 = ncls t').
  { subst num. unfold ncls. rewrite (filter_len_one t' t c allc allc_nodup); auto; [lia|].
    apply allc_in. auto. }
  assert (Bt : t lo = true /\ t hi = true).
  { destruct B as [[-> ->]|B]; [|exact B]. rewrite NCLS_eq in *. apply A in H1. lia. }
  destruct Bt as [B1 B2]. pose proof (A c H1) as Rc. pose proof (C lo B1). pose proof (C hi B2).
  assert (C' : forall x, t' x = true -> 0 <= x <= 708).
  { intros x Hx. apply C. rewrite <- He; [exact Hx|]. intros ->. congruence. }
  unfold bounds_del. destruct (Z.eqb_spec c lo) as [->|Nlo].
  - destruct (Z.eqb_spec lo hi) as [<-|Nhi].
    + do 2 eexists. split; [reflexivity|].
      assert (E : forall x, t' x = false).
      { intro x. destruct (t' x) eqn:Ex; [|reflexivity]. exfalso.
        assert (x <> lo) by (intros ->; congruence). rewrite He in Ex by assumption.
        apply A in Ex. lia. }
      rewrite HN. pose proof (bnd_init t' E) as I. rewrite <- (b_num _ _ _ _ I). exact I.
    + destruct (scan_up_spec (Z.to_nat (hi - lo)) (lo + 1) used _ eq_refl) as (S1 & S2 & S3).
      set (r := scan_up _ _ _) in *.
      assert (Hr : r <= hi).
      { destruct (Z_le_gt_dec r hi); [assumption|]. exfalso.
        assert (X : used hi = false) by (apply S2; lia).
        rewrite Hu in X by lia. rewrite He in X by lia. congruence. }
      assert (Tr : t' r = true) by (rewrite <- Hu by lia; apply S3; lia).
      destruct (Z.leb_spec r hi); [|lia]. do 2 eexists. split; [reflexivity|]. split; auto.
      * intros x Hx. assert (x <> lo) by (intros ->; congruence).
        assert (Htx : t x = true) by (rewrite <- He by assumption; exact Hx).
        pose proof (A x Htx). split; [|lia].
        destruct (Z_le_gt_dec r x); [assumption|]. exfalso.
        rewrite <- Hu in Hx by lia. rewrite S2 in Hx by lia. discriminate.
      * right. split; [exact Tr|]. rewrite He by lia. exact B2.
  - destruct (Z.eqb_spec c hi) as [->|Nhi].
    + destruct (scan_down_spec (Z.to_nat (hi - lo)) (hi - 1) used _ eq_refl) as (S1 & S2 & S3).
      set (r := scan_down _ _ _) in *.
      assert (Hr : lo <= r).
      { destruct (Z_le_gt_dec lo r); [assumption|]. exfalso.
        assert (X : used lo = false) by (apply S2; lia).
        rewrite Hu in X by lia. rewrite He in X by lia. congruence. }
      assert (Tr : t' r = true) by (rewrite <- Hu by lia; apply S3; lia).
      destruct (Z.geb_spec r lo); [|lia]. do 2 eexists. split; [reflexivity|]. split; auto.
      * intros x Hx. assert (x <> hi) by (intros ->; congruence).
        assert (Htx : t x = true) by (rewrite <- He by assumption; exact Hx).
        pose proof (A x Htx). split; [lia|].
        destruct (Z_le_gt_dec x r); [assumption|]. exfalso.
        rewrite <- Hu in Hx by lia. rewrite S2 in Hx by lia. discriminate.
      * right. split; [|exact Tr]. rewrite He by lia. exact B1.
    + do 2 eexists. split; [reflexivity|]. split; auto.
      * intros x Hx. apply A. rewrite <- He; [exact Hx|]. intros ->. congruence.
      * right. rewrite !He by lia. auto.
Qed.

(* ---- used side *)
Record UInv (u : uinfo) (l : list gs) : Prop := mkUI
  { ui_sl : forall c, u_sl u c = (usp c l, ucnt c l);
    ui_tot : u_tot u = utot l;
    ui_bnd : bnd (fun c => 0 <? ucnt c l) (u_num u) (u_min u) (u_max u) }.

Lemma ucls_in c l : 0 < ucnt c l -> exists g, In g l /\ g_u g = true /\ ucls g = c.
Proof.
  intro H. apply wsum_pos in H as (g & Hg & P); [|sumtac]. exists g. split; [exact Hg|].
  unfold iff in P. destruct (g_u g); cbn [andb] in P; [|lia].
  destruct (Z.eqb_spec (ucls g) c); [auto|lia].
Qed.

Lemma ucnt_pos g l : In g l -> g_u g = true -> 0 < ucnt (ucls g) l.
Proof.
  intros H E. apply Z.lt_le_trans with (iff (g_u g && (ucls g =? ucls g)) 1).
  - rewrite E, Z.eqb_refl. cbn. lia.
  - refine (wsum_in (fun x => iff (g_u x && (ucls x =? ucls g)) 1) l g _ H). sumtac.
Qed.

Lemma used_add_ok u l l' g : UInv u l -> g_u g = true -> 0 < g_l g ->
  Permutation l' (g :: l) -> UInv (used_add u (g_l g) (ucls g)) l'.
Proof.
  intros [A B C] Hu Hp HP. unfold used_add. rewrite A. cbn [fst snd].
  assert (Esp : forall c, usp c l' = iff (ucls g =? c) (g_l g) + usp c l).
  { intro c. unfold usp. rewrite (wsum_perm _ _ _ HP). cbn [wsum]. rewrite Hu. reflexivity. }
  assert (Ect : forall c, ucnt c l' = iff (ucls g =? c) 1 + ucnt c l).
  { intro c. unfold ucnt. rewrite (wsum_perm _ _ _ HP). cbn [wsum]. rewrite Hu. reflexivity. }
  assert (Et : utot l' = g_l g + utot l).
  { unfold utot. rewrite (wsum_perm _ _ _ HP). cbn [wsum]. rewrite Hu. reflexivity. }
  assert (SL : forall c, upd (u_sl u) (ucls g) (usp (ucls g) l + g_l g, ucnt (ucls g) l + 1) c
                         = (usp c l', ucnt c l')).
  { intro c. unfold upd. rewrite Esp, Ect. destruct (Z.eqb_spec c (ucls g)) as [->|N].
    - rewrite Z.eqb_refl. cbn [iff]. f_equal; lia.
    - rewrite A. destruct (Z.eqb_spec (ucls g) c); [congruence|]. cbn [iff]. f_equal; lia. }
  pose proof (ucnt_nonneg (ucls g) l) as Nn.
  assert (Rg : 0 <= ucls g <= 708) by (apply memid_range; lia).
  destruct (Z.eqb_spec (ucnt (ucls g) l + 1) 1) as [E1|N1].
  - split; cbn [used_list_add u_sl u_tot u_num u_min u_max].
    + exact SL.
    + lia.
    + eapply bnd_add with (t := fun c => 0 <? ucnt c l); [exact C|exact Rg| | |].
      * cbn beta. apply Z.ltb_ge. lia.
      * cbn beta. apply Z.ltb_lt. rewrite Ect, Z.eqb_refl. cbn [iff]. lia.
      * intros x N. cbn beta. rewrite Ect. destruct (Z.eqb_spec (ucls g) x); [congruence|].
        reflexivity.
  - split; cbn [u_sl u_tot u_num u_min u_max]; [exact SL|lia|].
    eapply bnd_ext; [|exact C]. intro c. cbn beta. rewrite Ect.
    destruct (Z.eqb_spec (ucls g) c) as [<-|]; cbn [iff]; [|reflexivity].
    destruct (Z.ltb_spec 0 (ucnt (ucls g) l)), (Z.ltb_spec 0 (1 + ucnt (ucls g) l)); try reflexivity; lia.
Qed.

Lemma used_sub_ok u l l' g : UInv u l -> g_u g = true -> 0 < g_l g ->
  Permutation l (g :: l') -> exists u', used_sub u (g_l g) (ucls g) = Some u' /\ UInv u' l'.
Proof.
  intros [A B C] Hu Hp HP. unfold used_sub. rewrite A. cbn [fst snd].
  assert (Esp : forall c, usp c l = iff (ucls g =? c) (g_l g) + usp c l').
  { intro c. unfold usp. rewrite (wsum_perm _ _ _ HP). cbn [wsum]. rewrite Hu. reflexivity. }
  assert (Ect : forall c, ucnt c l = iff (ucls g =? c) 1 + ucnt c l').
  { intro c. unfold ucnt. rewrite (wsum_perm _ _ _ HP). cbn [wsum]. rewrite Hu. reflexivity. }
  assert (Et : utot l = g_l g + utot l').
  { unfold utot. rewrite (wsum_perm _ _ _ HP). cbn [wsum]. rewrite Hu. reflexivity. }
  assert (SL : forall c, upd (u_sl u) (ucls g) (usp (ucls g) l - g_l g, ucnt (ucls g) l - 1) c
                         = (usp c l', ucnt c l')).
  { intro c. unfold upd. destruct (Z.eqb_spec c (ucls g)) as [->|N].
    - rewrite Esp, Ect, Z.eqb_refl. cbn [iff]. f_equal; lia.
    - rewrite A, Esp, Ect. destruct (Z.eqb_spec (ucls g) c); [congruence|]. cbn [iff]. f_equal; lia. }
  pose proof (ucnt_nonneg (ucls g) l') as Nn.
  assert (E1 : ucnt (ucls g) l = 1 + ucnt (ucls g) l') by (rewrite Ect, Z.eqb_refl; reflexivity).
  destruct (Z.ltb_spec (ucnt (ucls g) l) 1); [lia|].
  destruct (Z.eqb_spec (ucnt (ucls g) l - 1) 0) as [E0|N0].
  - unfold used_list_del. cbn [u_min u_max u_sl u_num u_tot].
    destruct (bnd_del (fun c => 0 <? ucnt c l) (fun c => 0 <? ucnt c l') _ _ _ (ucls g)
      (fun i => snd (upd (u_sl u) (ucls g) (usp (ucls g) l - g_l g, ucnt (ucls g) l - 1) i) >? 0) C)
      as (lo & hi & Ed & Hb).
    + apply Z.ltb_lt. lia.
    + apply Z.ltb_ge. lia.
    + intros x N. cbn beta. rewrite (Ect x). destruct (Z.eqb_spec (ucls g) x); [congruence|]. reflexivity.
    + intros x _. cbn beta. rewrite SL. cbn [snd]. rewrite Z.gtb_ltb. reflexivity.
    + rewrite Ed. eexists. split; [reflexivity|]. split; cbn [u_sl u_tot u_num u_min u_max]; auto. lia.
  - eexists. split; [reflexivity|]. split; cbn [u_sl u_tot u_num u_min u_max]; [exact SL|lia|].
    eapply bnd_ext; [|exact C]. intro c. cbn beta. rewrite (Ect c).
    destruct (Z.eqb_spec (ucls g) c) as [<-|]; cbn [iff]; [|reflexivity].
    destruct (Z.ltb_spec 0 (ucnt (ucls g) l')), (Z.ltb_spec 0 (1 + ucnt (ucls g) l')); try reflexivity; lia.
Qed.

(* ---- the last 1% *)
Definition PF (p : pinfo) (l : list gs) : Prop :=
  p_small p = fsm (p_cls p) l /\ p_avail p = fav (p_cls p) l.

Definition FS (f : finfo) (l : list gs) : Prop := forall c, fl_space (f_sl f c) = fsp c l.

Lemma adj_sum_eq f l : posl l -> FS f l -> forall n i, adj_sum n i f = fbt i (i + Z.of_nat n) l.
Proof.
  intros Hp HF. induction n as [|n IH]; intro i; cbn [adj_sum].
  - rewrite Z.add_0_r, fbt_empty. reflexivity.
  - rewrite !HF, IH. pose proof (fsp_nonneg i l Hp).
    rewrite (fbt_step i) by lia. replace (i + Z.of_nat (S n)) with (i + 1 + Z.of_nat n) by lia.
    destruct (Z.gtb_spec (fsp i l) 0); lia.
Qed.

Lemma right_loop_ok u l std : posl l -> UInv u l -> 0 < std ->
  forall n smid sp smid' sp', right_loop n smid sp std u = (smid', sp') ->
  sp = uge smid l -> 0 < sp ->
  smid <= smid' /\ sp' = uge smid' l /\ 0 < sp'.
Proof.
  intros Hp HU Hs. induction n as [|n IH]; intros smid sp smid' sp' H E P; cbn [right_loop] in H.
  - injection H as <- <-. auto with zarith.
  - rewrite (ui_sl _ _ HU) in H. cbn [fst] in H. pose proof (uge_split smid l) as Sp.
    pose proof (usp_nonneg smid l Hp).
    destruct (Z.gtb_spec (usp smid l) 0).
    + destruct (Z.ltb_spec (sp - usp smid l) std).
      * injection H as <- <-. auto with zarith.
      * apply IH in H; lia.
    + apply IH in H; lia.
Qed.

Lemma move_right_ok u f p l : posl l -> UInv u l -> FS f l -> PF p l ->
  p_space p = uge (p_cls p) l -> 0 < p_space p ->
  PF (move_right u f p) l /\ p_space (move_right u f p) = uge (p_cls (move_right u f p)) l /\
  0 < p_space (move_right u f p) /\ p_cls p <= p_cls (move_right u f p).
Proof.
  intros Hp HU HF [P1 P2] Es Ps. unfold move_right.
  assert (Hstd : 0 < u_tot u / 100 + 1).
  { rewrite (ui_tot _ _ HU). pose proof (utot_nonneg l Hp). lia. }
  destruct (right_loop _ _ _ _ _) as [smid sp] eqn:ER.
  destruct (right_loop_ok u l _ Hp HU Hstd _ _ _ _ _ ER Es Ps) as (L1 & L2 & L3).
  destruct (Z.eqb_spec smid (p_cls p)) as [->|N].
  - cbn [p_cls p_space]. unfold PF. cbn [p_small p_avail p_cls]. auto with zarith.
  - cbn [p_cls p_space]. unfold PF. cbn [p_small p_avail p_cls].
    rewrite (adj_sum_eq f l Hp HF). rewrite Z2Nat.id by lia.
    replace (p_cls p + (smid - p_cls p)) with smid by lia.
    pose proof (fsm_fbt (p_cls p) smid l L1). pose proof (fav_fbt (p_cls p) smid l L1).
    repeat split; lia.
Qed.

Lemma left_loop_ok u l std : posl l -> UInv u l ->
  forall n smid sp smid' sp', left_loop n smid sp std u = (smid', sp') ->
  sp = uge (smid + 1) l -> sp < std ->
  smid - Z.of_nat n <= smid' <= smid /\ 
  ((smid' = smid - Z.of_nat n /\ sp' = uge (smid' + 1) l /\ sp' < std) \/
   (sp' = uge smid' l /\ std <= sp' /\ smid - Z.of_nat n < smid')).
Proof.
  intros Hp HU. induction n as [|n IH]; intros smid sp smid' sp' H E P; cbn [left_loop] in H.
  - injection H as <- <-. split; [lia|]. left. split; [lia|]. auto.
  - rewrite (ui_sl _ _ HU) in H. cbn [fst] in H. pose proof (uge_split smid l) as Sp.
    pose proof (usp_nonneg smid l Hp).
    destruct (Z.gtb_spec (usp smid l) 0).
    + destruct (Z.geb_spec (sp + usp smid l) std).
      * injection H as <- <-. split; [lia|]. right. lia.
      * apply IH in H; [| |lia].
        -- destruct H as (R & [X|X]); (split; [lia|]); [left|right]; lia.
        -- replace (smid - 1 + 1) with smid by lia. lia.
    + apply IH in H; [| |lia].
      * destruct H as (R & [X|X]); (split; [lia|]); [left|right]; lia.
      * replace (smid - 1 + 1) with smid by lia. lia.
Qed.

Lemma uge_above u l c : posl l -> UInv u l -> u_max u < c -> uge c l = 0.
Proof.
  intros Hp HU Hc. apply wsum_zero. intros g Hg.
  destruct (g_u g) eqn:E; [|reflexivity]. cbn [andb].
  pose proof (ucnt_pos g l Hg E) as Q. pose proof (b_in _ _ _ _ (ui_bnd _ _ HU) (ucls g)) as B.
  cbn beta in B. specialize (B (proj2 (Z.ltb_lt _ _) Q)).
  destruct (Z.leb_spec c (ucls g)); [lia|reflexivity].
Qed.

Lemma uge_below u l c : UInv u l -> c <= u_min u -> uge c l = utot l.
Proof.
  intros HU Hc. unfold uge, utot. apply wsum_ext. intros g Hg.
  destruct (g_u g) eqn:E; [|reflexivity]. cbn [andb].
  pose proof (ucnt_pos g l Hg E) as Q. pose proof (b_in _ _ _ _ (ui_bnd _ _ HU) (ucls g)) as B.
  cbn beta in B. specialize (B (proj2 (Z.ltb_lt _ _) Q)).
  destruct (Z.leb_spec c (ucls g)); [reflexivity|lia].
Qed.

Lemma uge_pos_max u l c : posl l -> UInv u l -> 0 < uge c l -> c <= u_max u.
Proof.
  intros Hp HU H. destruct (Z_le_gt_dec c (u_max u)); [assumption|].
  rewrite (uge_above u l c Hp HU) in H; lia.
Qed.

Lemma umax_pos u l : posl l -> UInv u l -> 0 < utot l -> 0 <= u_min u <= u_max u /\ u_max u <= 708.
Proof.
  intros Hp HU H. pose proof (ui_bnd _ _ HU) as B.
  destruct (b_at _ _ _ _ B) as [[_ E]|[A1 A2]].
  - rewrite <- (uge_below u l (u_min u) HU) in H by lia.
    apply (uge_pos_max u l (u_min u) Hp HU) in H. destruct (b_at _ _ _ _ B) as [[E1 _]|[A1 A2]].
    + rewrite NCLS_eq in E1. lia.
    + pose proof (b_rng _ _ _ _ B _ A1). pose proof (b_rng _ _ _ _ B _ A2). lia.
  - pose proof (b_rng _ _ _ _ B _ A1). pose proof (b_rng _ _ _ _ B _ A2).
    pose proof (b_in _ _ _ _ B _ A1). lia.
Qed.

Lemma move_left_ok u f p l : posl l -> UInv u l -> FS f l -> PF p l -> 0 < utot l ->
  p_space p = uge (p_cls p) l -> 0 <= p_cls p ->
  exists p', move_left u f p = Some p' /\ PF p' l /\ p_space p' = uge (p_cls p') l /\
             0 < p_space p' /\ 0 <= p_cls p'.
Proof.
  intros Hp HU HF [P1 P2] Ht Es Pc. unfold move_left.
  rewrite (ui_tot _ _ HU). set (std := utot l / 100 + 1).
  assert (Hstd : 0 < std <= utot l) by (unfold std; lia).
  pose proof (umax_pos u l Hp HU Ht) as Hmm.
  destruct (Z.ltb_spec (p_space p) std) as [Lt|Ge].
  - set (from := if p_cls p - 1 >? u_max u then u_max u else p_cls p - 1).
    assert (Hfrom : uge (from + 1) l = p_space p /\ from <= p_cls p - 1).
    { unfold from. destruct (Z.gtb_spec (p_cls p - 1) (u_max u)).
      - split; [|lia]. rewrite Es. rewrite !(uge_above u l) by (auto; lia). reflexivity.
      - split; [|lia]. replace (p_cls p - 1 + 1) with (p_cls p) by lia. auto. }
    destruct Hfrom as [Hf1 Hf2].
    destruct (left_loop _ _ _ _ _) as [smid sp] eqn:EL.
    apply (left_loop_ok u l std Hp HU) in EL as (R & [X|X]); [| |auto|exact Lt].
    + exfalso. destruct X as (X1 & X2 & X3).
      rewrite (uge_below u l (smid + 1) HU) in X2 by lia. lia.
    + destruct X as (X1 & X2 & X3).
      assert (u_min u <= smid).
      { destruct (Z_le_gt_dec (from - u_min u + 1) 0); [|lia].
        exfalso. replace (Z.to_nat (from - u_min u + 1)) with 0%nat in * by lia. lia. }
      destruct (Z.ltb_spec smid (u_min u)); [lia|].
      eexists. split; [reflexivity|]. unfold PF. cbn [p_cls p_space p_small p_avail].
      rewrite (adj_sum_eq f l Hp HF). rewrite Z2Nat.id by lia.
      replace (smid + (p_cls p - smid)) with (p_cls p) by lia.
      pose proof (fsm_fbt smid (p_cls p) l ltac:(lia)). pose proof (fav_fbt smid (p_cls p) l ltac:(lia)).
      repeat split; lia.
  - rewrite (ui_sl _ _ HU). cbn [fst].
    destruct (Z.eqb_spec (usp (p_cls p) l) 0) as [E0|N0].
    + pose proof (uge_split (p_cls p) l) as Sp.
      assert (Hm : p_cls p + 1 <= u_max u) by (apply (uge_pos_max u l _ Hp HU); lia).
      destruct (scan_up_spec (Z.to_nat (u_max u - p_cls p)) (p_cls p + 1) (fun i => fst (u_sl u i) >? 0) _ eq_refl)
        as (S1 & S2 & S3).
      set (smid := scan_up _ _ _) in *.
      assert (Hle : smid <= u_max u).
      { destruct (Z_le_gt_dec smid (u_max u)); [assumption|]. exfalso.
        assert (X : (fst (u_sl u (u_max u)) >? 0) = false) by (apply S2; lia).
        rewrite (ui_sl _ _ HU) in X. cbn [fst] in X.
        destruct (b_at _ _ _ _ (ui_bnd _ _ HU)) as [[_ E]|[_ A2]]; [lia|].
        cbn beta in A2. apply Z.ltb_lt in A2. apply usp_ucnt in A2; [lia|exact Hp]. }
      destruct (Z.gtb_spec smid (u_max u)); [lia|].
      assert (Eu : uge smid l = uge (p_cls p + 1) l).
      { assert (Gen : forall n, (forall j, p_cls p + 1 <= j < p_cls p + 1 + Z.of_nat n -> usp j l = 0) ->
          uge (p_cls p + 1 + Z.of_nat n) l = uge (p_cls p + 1) l).
        { induction n as [|n IH]; intro Hz; [rewrite Z.add_0_r; reflexivity|].
          rewrite <- IH by (intros; apply Hz; lia).
          rewrite (uge_split (p_cls p + 1 + Z.of_nat n) l), Hz by lia.
          replace (p_cls p + 1 + Z.of_nat (S n)) with (p_cls p + 1 + Z.of_nat n + 1) by lia. lia. }
        replace smid with (p_cls p + 1 + Z.of_nat (Z.to_nat (smid - (p_cls p + 1)))) by lia.
        apply Gen. intros j Hj. assert (X : (fst (u_sl u j) >? 0) = false) by (apply S2; lia).
        rewrite (ui_sl _ _ HU) in X. cbn [fst] in X. pose proof (usp_nonneg j l Hp). lia. }
      eexists. split; [reflexivity|]. unfold PF. cbn [p_cls p_space p_small p_avail].
      rewrite (adj_sum_eq f l Hp HF). rewrite Z2Nat.id by lia.
      replace (p_cls p + (smid - p_cls p)) with smid by lia.
      pose proof (fsm_fbt (p_cls p) smid l ltac:(lia)). pose proof (fav_fbt (p_cls p) smid l ltac:(lia)).
      repeat split; lia.
    + exists p. unfold PF. repeat split; auto; lia.
Qed.
