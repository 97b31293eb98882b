(* The span of bkeys and the trimmed flag along a history *)
From Verif Require Import Base UtilModel BtModel BtSpec BtOrder BtLevel BtFind BtSplit BtMerge BtMerge2 BtWalk BtGet BtGet2 BtOps BtKeys BtIns BtRefine BtRun.
Local Open Scope nat_scope.

(* ---------- maxbkeyrange, all byte strings of length n ---------- *)

Definition ulen (n : nat) (k : bkey) : Prop := match k with U64 _ => True | Bin l => length l = n end.
Definition ulen_op (n : nat) (o : op) : Prop :=
  match o with
  | Insert e _ _ _ _ => ulen n (bk e)
  | Arith b _ _ _ _ _ _ _ _ _ _ _ => ulen n b
  | SetAttr (ARange (Some r)) => ulen n r
  | _ => True
  end.
Definition spanned (r : bkey) (l : list elem) : Prop := forall x y, In x l -> In y l -> (measure r (bk x) - measure r (bk y) <= measure r r)%N.
Definition uni (n : nat) (a : sp) : Prop :=
  Forall (fun e => ulen n (bk e)) (s_el a) /\ forall r, s_range a = Some r -> ulen n r /\ spanned r (s_el a).

Lemma measure_strict n r a b : kok a -> kok b -> like r a -> like r b -> ulen n r -> ulen n a -> ulen n b -> klt a b = true -> (measure r a < measure r b)%N.
Proof.
  destruct r as [x|l], a as [y|m], b as [z|o]; cbn; intros KA KB LA LB UR UA UB H; try contradiction.
  - apply N.ltb_lt. exact H.
  - rewrite lex_num_lt in H by congruence. apply N.ltb_lt in H. rewrite UR, <- UA at 1. rewrite UR, <- UB. exact H.
Qed.

Lemma measure_ge n r a b : kok a -> kok b -> like r a -> like r b -> ulen n r -> ulen n a -> ulen n b -> (measure r a <= measure r b)%N -> kle a b = true.
Proof.
  intros KA KB LA LB UR UA UB H. destruct (kle a b) eqn:E; [reflexivity|]. apply kle_false in E.
  pose proof (measure_strict n r b a KB KA LB LA UR UB UA E). lia.
Qed.

Lemma spanned_incl r l l' : incl l' l -> spanned r l -> spanned r l'.
Proof. intros H S x y HX HY. apply S; apply H; assumption. Qed.

Lemma uni_incl n a l' b : uni n a -> incl l' (s_el a) -> s_el b = l' -> s_range b = s_range a -> uni n b.
Proof.
  intros (U1 & U2) IN EL ER. split.
  - rewrite EL. apply Forall_forall. intros x HX. exact (proj1 (Forall_forall _ _) U1 x (IN x HX)).
  - intros r HR. rewrite ER in HR. destruct (U2 r HR) as (A & B). split; [exact A|]. rewrite EL. eapply spanned_incl; eassumption.
Qed.

Section Span.
Variables (n : nat) (a : sp).
Hypothesis HS : sorted (s_el a).
Hypothesis HT : Forall (fun e => typed (s_type a) (bk e)) (s_el a).
Hypothesis HR : forall r, s_range a = Some r -> typed (s_type a) r.
Hypothesis HU : uni n a.

Lemma s_new_uni e : typed (s_type a) (bk e) \/ s_el a = [] -> ulen n (bk e) -> uni n (snd (s_new a e)).
Proof using HS HT HR HU.
  intros TE UE. unfold s_new. destruct (s_el a) as [|z l] eqn:EL.
  { split; cbn [snd s_el s_range]; [constructor; [exact UE|constructor]|]. intros r ER. split; [apply (proj2 HU r ER)|].
    intros x y [<-|[]] [<-|[]]. lia. }
  rewrite <- EL in *. destruct TE as [TE|TE]; [|congruence]. assert (NE : s_el a <> []) by congruence. clear z l EL.
  assert (FI : Forall (fun x => ulen n (bk x)) (ins e (s_el a))).
  { apply Forall_forall. intros x HX. apply ins_In in HX. destruct HX as [->|HX]; [exact UE|]. exact (proj1 (Forall_forall _ _) (proj1 HU) x HX). }
  assert (FF : forall f, Forall (fun x => ulen n (bk x)) (filter f (ins e (s_el a)))) by (intros f; apply Forall_filter; exact FI).
  assert (EDGE : exists mn mx, s_first (s_el a) = Some mn /\ s_last (s_el a) = Some mx).
  { destruct (s_first (s_el a)) as [mn|] eqn:EF; [|unfold s_first in EF; destruct (s_el a); [congruence|discriminate]].
    destruct (s_last (s_el a)) as [mx|] eqn:EL.
    2:{ unfold s_last in EL. destruct (rev (s_el a)) as [|x l] eqn:R; [|discriminate]. apply (f_equal (@rev _)) in R. rewrite rev_involutive in R. cbn in R. congruence. }
    eauto. }
  destruct EDGE as (mn & mx & EF & EL).
  pose proof (hd_in _ _ EF) as IMN. pose proof (last_in _ _ EL) as IMX.
  assert (ALL : forall x, In x (s_el a) -> typed (s_type a) (bk x) /\ ulen n (bk x) /\ kle (bk mn) (bk x) = true /\ kle (bk x) (bk mx) = true).
  { intros x HX. split; [exact (proj1 (Forall_forall _ _) HT x HX)|]. split; [exact (proj1 (Forall_forall _ _) (proj1 HU) x HX)|].
    split; [eapply first_le; eassumption|eapply last_ge; eassumption]. }
  destruct (ALL mn IMN) as (TMN & UMN & _ & MM). destruct (ALL mx IMX) as (TMX & UMX & _ & _).
  (* with a range: measures *)
  assert (MS : forall r, s_range a = Some r -> ulen n r /\ kok r /\ like r (bk e) /\
             (forall x, In x (s_el a) -> like r (bk x) /\ (measure r (bk mn) <= measure r (bk x) <= measure r (bk mx))%N)).
  { intros r ER. destruct (proj2 HU r ER) as (UR & _). pose proof (HR r ER) as TR. split; [exact UR|]. split; [exact (proj1 TR)|]. split; [eapply typed_like; eassumption|].
    intros x HX. destruct (ALL x HX) as (TX & UX & X1 & X2). split; [eapply typed_like; eassumption|].
    split; apply measure_mono'; auto; try (eapply typed_like; eassumption); try apply TX; try apply TMN; try apply TMX. }
  assert (KE : kok (bk e)) by apply TE.
  unfold range_verdict. rewrite EF, EL. destruct (s_range a) as [r|] eqn:ER.
  2:{ assert (G : forall b, incl (s_el b) (ins e (s_el a)) -> s_range b = None -> uni n b).
      { intros b IN RB. split; [|intros r Hr; congruence]. apply Forall_forall. intros x HX. exact (proj1 (Forall_forall _ _) FI x (IN x HX)). }
      assert (IO : incl (s_el a) (ins e (s_el a))) by (intros x HX; apply ins_In; auto).
      destruct (Nat.ltb _ _); [apply G; [apply incl_refl|exact ER]|].
      destruct (drops_low _); [|destruct (drops_high _)].
      - destruct (klt (bk e) (bk mn)); cbn [snd]; apply G; try (destruct (signals _); exact ER); destruct (signals _); cbn; try exact IO;
          (intros x HX; destruct (ins e (s_el a)); [contradiction|right; exact HX]).
      - destruct (klt (bk mx) (bk e)); cbn [snd]; apply G; try (destruct (signals _); exact ER); destruct (signals _); cbn; try exact IO;
          intros x HX; apply removelast_In; exact HX.
      - apply G; [exact IO|exact ER]. }
  destruct (MS r eq_refl) as (UR & KR & LE & MX). clear MS. pose proof (proj2 (proj2 HU r ER)) as SP.
  destruct (MX mn IMN) as (LMN & _). destruct (MX mx IMX) as (LMX & _).
  set (m := fun x => measure r (bk x)). change (measure r (bk mn)) with (m mn) in *. change (measure r (bk mx)) with (m mx) in *. change (measure r (bk e)) with (m e) in *.
  assert (SPE : forall x, In x (s_el a) -> (m mn <= m x <= m mx)%N) by (intros x HX; apply MX; exact HX).
  assert (SP' : (m mx - m mn <= measure r r)%N) by (apply SP; assumption).
  assert (WHOLE : (m e - m mn <= measure r r)%N -> (m mx - m e <= measure r r)%N -> spanned r (ins e (s_el a))).
  { intros H1 H2 x y HX HY. change (m x - m y <= measure r r)%N. apply ins_In in HX. apply ins_In in HY.
    destruct HX as [->|HX], HY as [->|HY]; try (pose proof (SPE x HX)); try (pose proof (SPE y HY)); lia. }
  assert (SUB : forall b, incl (s_el b) (ins e (s_el a)) -> s_range b = Some r -> spanned r (s_el b) -> uni n b).
  { intros b IN RB SB. split.
    - apply Forall_forall. intros x HX. exact (proj1 (Forall_forall _ _) FI x (IN x HX)).
    - intros q Hq. rewrite RB in Hq. injection Hq as <-. split; assumption. }
  assert (IO : incl (s_el a) (ins e (s_el a))) by (intros x HX; apply ins_In; auto).
  assert (OLD : forall b, incl (s_el b) (s_el a) -> s_range b = Some r -> uni n b).
  { intros b IN RB. apply SUB; [eapply incl_tran; eassumption|exact RB|]. eapply spanned_incl; eassumption. }
  assert (FITS : (m e - m mn <= measure r r)%N -> (m mx - m e <= measure r r)%N -> 
     uni n (snd (if Nat.ltb (length (s_el a)) (s_max a) then (INew None, with_el a (ins e (s_el a)))
          else
            let mark x := if signals (s_ovf a) then with_trim x true else x in
            if drops_low (s_ovf a) then
                if klt (bk e) (bk mn) then (IErr EBKEYOOR, mark a) else (INew (Some mn), mark (with_el a (tl (ins e (s_el a)))))
            else if drops_high (s_ovf a) then
              if klt (bk mx) (bk e) then (IErr EBKEYOOR, mark a) else (INew (Some mx), mark (with_el a (removelast (ins e (s_el a)))))
            else (IErr EOVERFLOW, a)))).
  { intros H1 H2. specialize (WHOLE H1 H2).
    assert (G : forall b, incl (s_el b) (ins e (s_el a)) -> s_range b = Some r -> uni n b).
    { intros b IN RB. apply SUB; auto. eapply spanned_incl; eassumption. }
    destruct (Nat.ltb _ _); [apply G; [apply incl_refl|exact ER]|]. cbv zeta.
    destruct (drops_low _); [|destruct (drops_high _)].
    - destruct (klt (bk e) (bk mn)); cbn [snd]; apply G; try (destruct (signals _); exact ER); destruct (signals _); cbn; try exact IO;
        (intros x HX; destruct (ins e (s_el a)); [contradiction|right; exact HX]).
    - destruct (klt (bk mx) (bk e)); cbn [snd]; apply G; try (destruct (signals _); exact ER); destruct (signals _); cbn; try exact IO;
        intros x HX; apply removelast_In; exact HX.
    - apply G; [exact IO|exact ER]. }
  destruct (klt (bk e) (bk mn)) eqn:C1; cbn [andb].
  - pose proof (klt_kle_trans _ _ _ C1 MM) as C3. rewrite (klt_asym _ _ C3) in *. cbn [andb] in *.
    pose proof (measure_mono r _ _ KE (proj1 TMN) LE LMN C1) as M1. change (m e <= m mn)%N in M1.
    destruct (N.ltb_spec (measure r r) (m mx - m e)) as [C|C]; [|apply FITS; lia].
    destruct (drops_high (s_ovf a)); [|apply OLD; [apply incl_refl|exact ER]]. cbn [snd].
    apply SUB; [intros x HX; cbn in HX; apply filter_In in HX; tauto|reflexivity|]. cbn [s_el].
    set (from := key_of r (m e + measure r r + 1)).
    pose proof (room_measure r (bk mx) (proj1 TMX) LMX) as RMX. change (measure r (bk mx)) with (m mx) in RMX.
    assert (RF : room r (m e + measure r r + 1)) by (eapply room_le; [|exact RMX]; lia).
    assert (UF : ulen n from) by (unfold from; destruct r; cbn in *; [exact I|rewrite unnum_length; exact UR]).
    assert (MF : measure r from = (m e + measure r r + 1)%N) by (apply measure_key_of; exact RF).
    assert (FM : kle from (bk mx) = true).
    { apply (measure_ge n r); auto; [apply key_of_kok|apply TMX|apply key_of_like|]. rewrite MF. change (measure r (bk mx)) with (m mx). lia. }
    assert (B : forall w, In w (filter (fun x => negb (in_rg (mkR from (Some (bk mx))) x)) (ins e (s_el a))) -> (m e <= m w <= m e + measure r r)%N).
    { intros w HW. apply filter_In in HW. destruct HW as (W1 & W2). apply ins_In in W1. destruct W1 as [->|W1]; [lia|]. pose proof (SPE w W1) as SW. split; [lia|].
      destruct (ALL w W1) as (TW & UW & WA & WB). destruct (MX w W1) as (LW & _).
      destruct (N.leb_spec (m w) (m e + measure r r)) as [D|D]; [exact D|]. exfalso.
      assert (FW : kle from (bk w) = true).
      { apply (measure_ge n r); auto; [apply key_of_kok|apply TW|apply key_of_like|]. rewrite MF. change (measure r (bk w)) with (m w). lia. }
      assert (Z : in_rg (mkR from (Some (bk mx))) w = true).
      { unfold in_rg, inside, lo_of, hi_of. cbn [r_to r_from]. destruct (klt from (bk mx)) eqn:K.
        - rewrite FW, WB. reflexivity.
        - apply klt_false in K. pose proof (kle_antisym _ _ K FM) as EQ. rewrite EQ in *. rewrite FW, WB. reflexivity. }
      rewrite Z in W2. discriminate. }
    intros x y HX HY. pose proof (B x HX). pose proof (B y HY). change (m x - m y <= measure r r)%N. lia.
  - apply klt_false in C1. destruct (klt (bk mx) (bk e)) eqn:C2; cbn [andb].
    + pose proof (kle_klt_trans _ _ _ MM C2) as C3. pose proof (measure_mono r _ _ (proj1 TMX) KE LMX LE C2) as M1. change (m mx <= m e)%N in M1.
      destruct (N.ltb_spec (measure r r) (m e - m mn)) as [C|C]; [|apply FITS; lia].
      destruct (drops_low (s_ovf a)); [|apply OLD; [apply incl_refl|exact ER]]. cbn [snd].
      apply SUB; [intros x HX; cbn in HX; apply filter_In in HX; tauto|reflexivity|]. cbn [s_el].
      set (to := key_of r (m e - measure r r - 1)).
      pose proof (room_measure r (bk e) KE LE) as RE. change (measure r (bk e)) with (m e) in RE.
      assert (RT : room r (m e - measure r r - 1)) by (eapply room_le; [|exact RE]; lia).
      assert (UT : ulen n to) by (unfold to; destruct r; cbn in *; [exact I|rewrite unnum_length; exact UR]).
      assert (MT : measure r to = (m e - measure r r - 1)%N) by (apply measure_key_of; exact RT).
      assert (FM : kle (bk mn) to = true).
      { apply (measure_ge n r); auto; [apply TMN|apply key_of_kok|apply key_of_like|]. rewrite MT. change (measure r (bk mn)) with (m mn). lia. }
      assert (B : forall w, In w (filter (fun x => negb (in_rg (mkR (bk mn) (Some to)) x)) (ins e (s_el a))) -> (m e - measure r r <= m w <= m e)%N).
      { intros w HW. apply filter_In in HW. destruct HW as (W1 & W2). apply ins_In in W1. destruct W1 as [->|W1]; [lia|]. pose proof (SPE w W1) as SW. split; [|lia].
        destruct (ALL w W1) as (TW & UW & WA & WB). destruct (MX w W1) as (LW & _).
        destruct (N.leb_spec (m e - measure r r) (m w)) as [D|D]; [exact D|]. exfalso.
        assert (FW : kle (bk w) to = true).
        { apply (measure_ge n r); auto; [apply TW|apply key_of_kok|apply key_of_like|]. rewrite MT. change (measure r (bk w)) with (m w). lia. }
        assert (Z : in_rg (mkR (bk mn) (Some to)) w = true).
        { unfold in_rg, inside, lo_of, hi_of. cbn [r_to r_from]. destruct (klt (bk mn) to) eqn:K.
          - rewrite FW, WA. reflexivity.
          - apply klt_false in K. pose proof (kle_antisym _ _ K FM) as EQ. rewrite EQ in *. rewrite FW, WA. reflexivity. }
        rewrite Z in W2. discriminate. }
      intros x y HX HY. pose proof (B x HX). pose proof (B y HY). change (m x - m y <= measure r r)%N. lia.
    + apply klt_false in C2. pose proof (measure_mono' r _ _ (proj1 TMN) KE LMN LE C1) as M1. pose proof (measure_mono' r _ _ KE (proj1 TMX) LE LMX C2) as M2.
      change (m mn <= m e)%N in M1. change (m e <= m mx)%N in M2. apply FITS; lia.
Qed.

Lemma new_typed k : kok k -> s_has_type a && s_bad_type a k = false -> typed (s_type a) k \/ s_el a = [].
Proof using HS HR HT.
  intros KK H. destruct (s_el a) as [|x l] eqn:EL; [right; reflexivity|left]. split; [exact KK|]. unfold s_has_type, s_bad_type in H. rewrite EL in H. cbn in H.
  apply Forall_cons_iff in HT. destruct HT as ((_ & T) & _). rewrite T in *. destruct (bk x), k; cbn in *; congruence.
Qed.

Lemma put_uni e : In (bk e) (map bk (s_el a)) -> uni n (with_el a (put e (s_el a))).
Proof using HS HR HT HU.
  intros HI. destruct HU as (U1 & U2). assert (G : forall x, In x (put e (s_el a)) -> exists y, In y (s_el a) /\ bk y = bk x).
  { intros x HX. apply (in_map bk) in HX. rewrite put_keys in HX. apply in_map_iff in HX. destruct HX as (y & Y1 & Y2). eauto. }
  split; cbn [with_el s_el s_range].
  - apply Forall_forall. intros x HX. destruct (G x HX) as (y & Y1 & <-). exact (proj1 (Forall_forall _ _) U1 y Y1).
  - intros r HRr. destruct (U2 r HRr) as (A & B). split; [exact A|]. intros x y HX HY. destruct (G x HX) as (x' & X1 & <-). destruct (G y HY) as (y' & Y1 & <-). apply B; assumption.
Qed.

Lemma s_step_uni o b x : ulen_op n o -> op_ok o -> s_step a o = (b, x) -> uni n b.
Proof using HS HT HR HU.
  intros HO OK H. assert (SAME : forall y z : out, (a, y) = (b, z) -> uni n b) by (intros y z [= <- _]; exact HU).
  assert (WOUT : forall d (y z : out), (with_el a (without d (s_el a)), y) = (b, z) -> uni n b).
  { intros d y z [= <- _]. eapply uni_incl; [exact HU| |reflexivity|reflexivity]. intros q HQ. cbn in HQ. apply filter_In in HQ. tauto. }
  assert (PUT : forall d k v (y z : out), lookup k (s_el a) = Some v -> bk d = bk v -> (with_el a (put d (s_el a)), y) = (b, z) -> uni n b).
  { intros d k v y z L K [= <- _]. apply put_uni. rewrite K. apply in_map. apply (lookup_In _ _ _ HS) in L. tauto. }
  destruct o; cbn [s_step] in H; cbn [ulen_op op_ok] in HO, OK.
  - destruct (s_has_type a && s_bad_type a (bk e)) eqn:BT; [eauto|]. destruct (lookup (bk e) (s_el a)) as [v|] eqn:L.
    + destruct rep; [|eauto]. eapply PUT; [exact L| |exact H]. apply (lookup_In _ _ _ HS) in L. symmetry. tauto.
    + pose proof (s_new_uni e (new_typed _ OK BT) HO) as NB. destruct (s_new a e) as [q w]. cbn in NB. destruct q; injection H as <- _; exact NB.
  - destruct (s_el a) eqn:EL; [eauto|]. rewrite <- EL in *. destruct (s_bad_type a b0); [eauto|]. destruct (lookup b0 (s_el a)) as [v0|] eqn:L; [|eauto].
    destruct (s_eflag u (ef v0)); [|eauto]. eapply PUT; [exact L| |exact H]. reflexivity.
  - destruct (s_el a) eqn:EL; [eauto|]. rewrite <- EL in *. destruct (s_bad_type a (r_from r)); [eauto|]. destruct (select r fl 0 count (s_el a)); eauto.
  - destruct (s_has_type a && s_bad_type a b0) eqn:BT; [eauto|]. destruct (lookup b0 (s_el a)) as [v0|] eqn:L.
    + destruct (safe_strtoull _); [|eauto]. destruct (Nat.eqb _ _); [eauto|]. eapply PUT; [exact L| |exact H]. reflexivity.
    + destruct create; [|eauto]. pose proof (s_new_uni (mkE b0 f (s_num initial)) (new_typed _ OK BT) HO) as NB.
      destruct (s_new a (mkE b0 f (s_num initial))) as [q w]. cbn in NB. destruct q; injection H as <- _; exact NB.
  - destruct (Nat.leb _ _); [eauto|]. destruct (s_bad_type _ _); [eauto|]. destruct (select r fl ofs count (s_el a)); [eauto|]. destruct del; eauto.
  - destruct (s_bad_type _ _); eauto.
  - destruct (s_el a); [eauto|]. destruct (s_bad_type _ _); [eauto|]. destruct (lookup _ _); eauto.
  - destruct (s_el a); [eauto|]. destruct (s_bad_type _ _); [eauto|]. destruct (lookup _ _); eauto.
  - destruct (_ && _); eauto.
  - pose proof HU as (U1 & U2). destruct a0 as [m|ov|[r|]].
    + destruct (Nat.ltb _ _); injection H as <- _; [exact HU|]. split; [exact U1|exact U2].
    + injection H as <- _. split; [exact U1|exact U2].
    + destruct (s_first (s_el a)) as [mn|] eqn:EF.
      2:{ injection H as <- _. assert (EL : s_el a = []) by (unfold s_first in EF; destruct (s_el a); [reflexivity|discriminate]).
          split; [exact U1|]. cbn [s_range s_el]. rewrite EL. intros q [= <-]. split; [exact HO|]. intros y z []. }
      destruct (s_last (s_el a)) as [mx|] eqn:EL.
      2:{ exfalso. unfold s_last in EL. destruct (rev (s_el a)) as [|y l] eqn:R; [|discriminate]. apply (f_equal (@rev _)) in R. rewrite rev_involutive in R. cbn in R. rewrite R in EF. discriminate. }
      destruct (s_bad_type a r) eqn:BT; [eauto|]. destruct (negb _ && _) eqn:CK; [eauto|]. injection H as <- _. split; [exact U1|]. cbn [s_range s_el]. intros q [= <-]. split; [exact HO|].
      apply andb_false_iff in CK. destruct CK as [CK|CK].
      * apply negb_false_iff in CK. destruct (s_range a) as [q|]; [|discriminate]. apply keq_eq in CK. subst q. exact (proj2 (U2 r eq_refl)).
      * apply N.ltb_ge in CK. intros y z HY HZ. pose proof (hd_in _ _ EF) as IMN. pose proof (last_in _ _ EL) as IMX.
        assert (G : forall w, In w (s_el a) -> like r (bk w) /\ kok (bk w)).
        { intros w HW. pose proof (proj1 (Forall_forall _ _) HT w HW) as TW. cbn in TW. split; [|apply TW]. destruct TW as (_ & TW). unfold s_bad_type in BT. rewrite TW in BT.
          destruct (bk w), r; cbn in *; try discriminate; exact I. }
        destruct (G y HY) as (LY & KY). destruct (G z HZ) as (LZ & KZ). destruct (G mn IMN) as (LMN & KMN). destruct (G mx IMX) as (LMX & KMX).
        pose proof (measure_mono' r _ _ KMN KZ LMN LZ (first_le _ _ _ HS EF HZ)). pose proof (measure_mono' r _ _ KY KMX LY LMX (last_ge _ _ _ HS EL HY)). lia.
    + injection H as <- _. split; [exact U1|]. intros r Hr. discriminate.
  - eauto.
  - eauto.
Qed.
End Span.

(* ---------- the trimmed flag ---------- *)

(* the flag is raised only by an insert that drops an element or that is refused because the element
   lies beyond the end at which elements are dropped *)
Lemma s_new_flag a e : s_trim a = false -> sorted (s_el a) -> has_key (bk e) (s_el a) = false -> s_trim (snd (s_new a e)) = true ->
  fst (s_new a e) = IErr EBKEYOOR \/ exists y, In y (s_el a) /\ fst (s_new a e) = INew (Some y) /\ ~ In y (s_el (snd (s_new a e))).
Proof.
  intros HF HS HK. unfold s_new. destruct (s_el a) as [|z l] eqn:EL; [cbn; congruence|]. rewrite <- EL in *. clear z l EL.
  pose proof (ins_sorted e (s_el a) HS HK) as HS'. destruct (range_verdict a (bk e)); cbn [snd fst s_trim].
  3:{ destruct (signals _); congruence. }
  2:{ congruence. }
  destruct (Nat.ltb _ _); [cbn; congruence|]. cbv zeta.
  destruct (drops_low _); [|destruct (drops_high _)].
  - destruct (s_first (s_el a)) as [mn|] eqn:EF; [|cbn; congruence]. destruct (klt (bk e) (bk mn)) eqn:C; cbn [fst snd]; [auto|]. intros _. right. exists mn. split; [apply hd_in; exact EF|]. split; [reflexivity|].
    assert (Z : s_el (if signals (s_ovf a) then with_trim (with_el a (tl (ins e (s_el a)))) true else with_el a (tl (ins e (s_el a)))) = tl (ins e (s_el a))) by (destruct (signals _); reflexivity). rewrite Z.
    pose proof (ins_first _ e mn EF) as IF. rewrite C in IF. unfold s_first in IF. destruct (ins e (s_el a)) as [|w l]; [discriminate|]. cbn in IF. injection IF as ->. cbn [tl].
    destruct HS' as (H1 & _). intros HI. specialize (H1 mn HI). rewrite klt_irrefl in H1. discriminate.
  - destruct (s_last (s_el a)) as [mx|] eqn:EF; [|cbn; congruence]. destruct (klt (bk mx) (bk e)) eqn:C; cbn [fst snd]; [auto|]. intros _. right. exists mx. split; [apply last_in; exact EF|]. split; [reflexivity|].
    assert (Z : s_el (if signals (s_ovf a) then with_trim (with_el a (removelast (ins e (s_el a)))) true else with_el a (removelast (ins e (s_el a)))) = removelast (ins e (s_el a))) by (destruct (signals _); reflexivity). rewrite Z.
    destruct (ins_last _ e mx HS EF) as [IL|IL].
    2:{ exfalso. apply keq_eq in IL. assert (K : has_key (bk e) (s_el a) = true) by (apply has_key_In; exists mx; split; [apply last_in; exact EF|congruence]). congruence. }
    rewrite C in IL. unfold s_last in IL. intros HI. assert (NI : ins e (s_el a) <> []) by (intros Q; rewrite Q in IL; discriminate).
    destruct (exists_last NI) as (u & w & EQ). rewrite EQ in *. rewrite rev_app_distr in IL. cbn in IL. injection IL as ->. rewrite removelast_last in HI.
    apply sorted_app_iff in HS'. destruct HS' as (_ & _ & H2). specialize (H2 mx mx HI (or_introl eq_refl)). rewrite klt_irrefl in H2. discriminate.
  - cbn. congruence.
Qed.

Lemma s_step_flag a o b x : s_trim a = false -> sorted (s_el a) -> s_step a o = (b, x) -> s_trim b = true ->
  grows o /\ (x = ORc EBKEYOOR \/ exists y, In y (s_el a) /\ ~ In y (s_el b)).
Proof.
  intros HF HS H HB. assert (SAME : forall (l : list elem) (y z : out), (with_el a l, y) = (b, z) -> False) by (intros l y z [= <- _]; cbn in HB; congruence).
  assert (SAME' : forall (y z : out), (a, y) = (b, z) -> False) by (intros y z [= <- _]; congruence).
  destruct o; cbn [s_step grows] in H |- *; [split; [exact I|]|exfalso|exfalso|split; [exact I|]|exfalso|exfalso|exfalso|exfalso|exfalso|exfalso|exfalso|exfalso].
  - destruct (_ && _); [exfalso; eauto|]. destruct (lookup (bk e) (s_el a)) as [v|] eqn:L; [destruct rep; exfalso; eauto|].
    pose proof (s_new_flag a e HF HS (proj1 (lookup_none_key _ _) L)) as NF. destruct (s_new a e) as [r q]. cbn [fst snd] in NF. destruct r; injection H as <- <-; specialize (NF HB); destruct NF as [NF|(y & Y1 & Y2 & Y3)]; try congruence; try (injection NF as ->; auto); right; exists y; auto.
  - destruct (s_el a) eqn:EL; [eauto|]. rewrite <- EL in *. destruct (s_bad_type a b0); [eauto|]. destruct (lookup b0 (s_el a)) as [v0|] eqn:L; [|eauto]. destruct (s_eflag u (ef v0)); eauto.
  - destruct (s_el a) eqn:EL; [eauto|]. rewrite <- EL in *. destruct (s_bad_type a (r_from r)); [eauto|]. destruct (select r fl 0 count (s_el a)); eauto.
  - destruct (_ && _); [exfalso; eauto|]. destruct (lookup b0 (s_el a)) as [v|] eqn:L.
    + destruct (safe_strtoull _); [|exfalso; eauto]. destruct (Nat.eqb _ _); exfalso; eauto.
    + destruct create; [|exfalso; eauto]. pose proof (s_new_flag a (mkE b0 f (s_num initial)) HF HS (proj1 (lookup_none_key _ _) L)) as NF.
      destruct (s_new a (mkE b0 f (s_num initial))) as [r q]. cbn [fst snd] in NF. destruct r; injection H as <- <-; specialize (NF HB); destruct NF as [NF|(y & Y1 & Y2 & Y3)]; try congruence; try (injection NF as ->; auto); right; exists y; auto.
  - destruct (Nat.leb _ _); [eauto|]. destruct (s_bad_type _ _); [eauto|]. destruct (select r fl ofs count (s_el a)); [eauto|]. destruct del; eauto.
  - destruct (s_bad_type _ _); eauto.
  - destruct (s_el a); [eauto|]. destruct (s_bad_type _ _); [eauto|]. destruct (lookup _ _); eauto.
  - destruct (s_el a); [eauto|]. destruct (s_bad_type _ _); [eauto|]. destruct (lookup _ _); eauto.
  - destruct (_ && _); eauto.
  - destruct a0 as [m|ov|[r|]].
    + destruct (Nat.ltb _ _); injection H as <- _; cbn in HB; congruence.
    + injection H as <- _. cbn in HB. destruct (s_ovf a), ov; congruence.
    + destruct (s_first (s_el a)), (s_last (s_el a)); try (injection H as <- _; cbn in HB; congruence).
      destruct (s_bad_type a r); [eauto|]. destruct (_ && _); [eauto|]. injection H as <- _. cbn in HB. congruence.
    + injection H as <- _. cbn in HB. congruence.
  - eauto.
  - eauto.
Qed.

(* once raised it stays while no attribute is changed and no maxbkeyrange is set *)
Definition no_attr (o : op) : Prop := match o with SetAttr _ => False | _ => True end.
Definition raised (v : ovact) (a : sp) : Prop := s_trim a = true /\ s_ovf a = v /\ s_range a = None.

Lemma s_new_raised v a e : raised v a -> raised v (snd (s_new a e)).
Proof.
  intros (H1 & H2 & H3). unfold s_new. destruct (s_el a); [split; auto|]. unfold range_verdict. rewrite H3.
  assert (MK : forall c q, raised v q -> raised v (if c : bool then with_trim q true else q)) by (intros c q (A & B & C); destruct c; split; auto).
  destruct (Nat.ltb _ _); [split; auto|]. cbv zeta. destruct (drops_low _); [|destruct (drops_high _)].
  - cbn [s_first hd_error]. destruct (klt _ _); cbn [snd]; apply MK; split; auto.
  - destruct (s_last _); [|split; auto]. destruct (klt _ _); cbn [snd]; apply MK; split; auto.
  - split; auto.
Qed.

Lemma s_step_raised v a o b x : raised v a -> no_attr o -> s_step a o = (b, x) -> raised v b.
Proof.
  intros HRA NA H. assert (SAME : forall (y z : out), (a, y) = (b, z) -> raised v b) by (intros y z [= <- _]; exact HRA).
  assert (WEL : forall l (y z : out), (with_el a l, y) = (b, z) -> raised v b) by (intros l y z [= <- _]; destruct HRA as (A & B & C); split; auto).
  destruct o; cbn [s_step] in H.
  - destruct (_ && _); [eauto|]. destruct (lookup (bk e) (s_el a)); [destruct rep; eauto|].
    pose proof (s_new_raised v a e HRA) as NB. destruct (s_new a e) as [r q]. cbn in NB. destruct r; injection H as <- _; exact NB.
  - destruct (s_el a) eqn:EL; [eauto|]. rewrite <- EL in *. destruct (s_bad_type a b0); [eauto|]. destruct (lookup b0 (s_el a)) as [v1|]; [|eauto]. destruct (s_eflag u (ef v1)); eauto.
  - destruct (s_el a) eqn:EL; [eauto|]. rewrite <- EL in *. destruct (s_bad_type a (r_from r)); [eauto|]. destruct (select r fl 0 count (s_el a)); eauto.
  - destruct (_ && _); [eauto|]. destruct (lookup b0 (s_el a)) as [v1|].
    + destruct (safe_strtoull _); [|eauto]. destruct (Nat.eqb _ _); eauto.
    + destruct create; [|eauto]. pose proof (s_new_raised v a (mkE b0 f (s_num initial)) HRA) as NB.
      destruct (s_new a (mkE b0 f (s_num initial))) as [r q]. cbn in NB. destruct r; injection H as <- _; exact NB.
  - destruct (Nat.leb _ _); [eauto|]. destruct (s_bad_type _ _); [eauto|]. destruct (select r fl ofs count (s_el a)); [eauto|]. destruct del; eauto.
  - destruct (s_bad_type _ _); eauto.
  - destruct (s_el a); [eauto|]. destruct (s_bad_type _ _); [eauto|]. destruct (lookup _ _); eauto.
  - destruct (s_el a); [eauto|]. destruct (s_bad_type _ _); [eauto|]. destruct (lookup _ _); eauto.
  - destruct (_ && _); eauto.
  - contradiction.
  - eauto.
  - eauto.
Qed.

Lemma s_new_sub a e z : In z (s_el (snd (s_new a e))) -> z = e \/ In z (s_el a).
Proof.
  unfold s_new. destruct (s_el a) as [|w l] eqn:EL; [cbn; intros [<-|[]]; auto|]. rewrite <- EL in *. clear w l EL.
  assert (MK : forall (c : bool) q, s_el (if c then with_trim q true else q) = s_el q) by (intros [] q; reflexivity).
  assert (TL : forall (l : list elem) x, In x (tl l) -> In x l) by (intros [|y l] x H; [contradiction|right; exact H]).
  destruct (range_verdict a (bk e)); cbn [snd s_el].
  - destruct (Nat.ltb _ _); cbn [snd with_el s_el]; [apply ins_In|]. cbv zeta. destruct (drops_low _); [|destruct (drops_high _)].
    + destruct (s_first _); cbn [snd]; [|auto]. destruct (klt _ _); cbn [snd]; rewrite MK; cbn [with_el s_el]; [auto|]. intros H. apply TL in H. apply ins_In in H. exact H.
    + destruct (s_last _); cbn [snd]; [|auto]. destruct (klt _ _); cbn [snd]; rewrite MK; cbn [with_el s_el]; [auto|]. intros H. apply removelast_In in H. apply ins_In in H. exact H.
    + cbn. auto.
  - auto.
  - intros H. apply filter_In in H. destruct H as (H & _). apply ins_In in H. exact H.
Qed.

Lemma s_new_attrs a e : s_range a = None -> s_ovf (snd (s_new a e)) = s_ovf a /\ s_range (snd (s_new a e)) = s_range a.
Proof.
  intros H. unfold s_new. destruct (s_el a); [split; reflexivity|]. unfold range_verdict. rewrite H.
  assert (MK : forall (c : bool) q, s_ovf q = s_ovf a /\ s_range q = None -> s_ovf (if c then with_trim q true else q) = s_ovf a /\ s_range (if c then with_trim q true else q) = None) by (intros [] q; auto).
  destruct (Nat.ltb _ _); [split; auto|]. cbv zeta. destruct (drops_low _); [|destruct (drops_high _)].
  - cbn [s_first hd_error]. destruct (klt _ _); cbn [snd]; apply MK; split; auto.
  - destruct (s_last _); [|split; auto]. destruct (klt _ _); cbn [snd]; apply MK; split; auto.
  - split; auto.
Qed.

Lemma s_step_attrs a o b x : no_attr o -> s_range a = None -> s_step a o = (b, x) -> s_ovf b = s_ovf a /\ s_range b = s_range a.
Proof.
  intros NA HN H. assert (SAME : forall (y z : out), (a, y) = (b, z) -> s_ovf b = s_ovf a /\ s_range b = s_range a) by (intros y z [= <- _]; auto).
  assert (WEL : forall l (y z : out), (with_el a l, y) = (b, z) -> s_ovf b = s_ovf a /\ s_range b = s_range a) by (intros l y z [= <- _]; auto).
  destruct o; cbn [s_step] in H.
  - destruct (_ && _); [eauto|]. destruct (lookup (bk e) (s_el a)); [destruct rep; eauto|].
    pose proof (s_new_attrs a e HN) as NB. destruct (s_new a e) as [r q]. cbn in NB. destruct r; injection H as <- _; exact NB.
  - destruct (s_el a) eqn:EL; [eauto|]. rewrite <- EL in *. destruct (s_bad_type a b0); [eauto|]. destruct (lookup b0 (s_el a)) as [v1|]; [|eauto]. destruct (s_eflag u (ef v1)); eauto.
  - destruct (s_el a) eqn:EL; [eauto|]. rewrite <- EL in *. destruct (s_bad_type a (r_from r)); [eauto|]. destruct (select r fl 0 count (s_el a)); eauto.
  - destruct (_ && _); [eauto|]. destruct (lookup b0 (s_el a)) as [v1|].
    + destruct (safe_strtoull _); [|eauto]. destruct (Nat.eqb _ _); eauto.
    + destruct create; [|eauto]. pose proof (s_new_attrs a (mkE b0 f (s_num initial)) HN) as NB.
      destruct (s_new a (mkE b0 f (s_num initial))) as [r q]. cbn in NB. destruct r; injection H as <- _; exact NB.
  - destruct (Nat.leb _ _); [eauto|]. destruct (s_bad_type _ _); [eauto|]. destruct (select r fl ofs count (s_el a)); [eauto|]. destruct del; eauto.
  - destruct (s_bad_type _ _); eauto.
  - destruct (s_el a); [eauto|]. destruct (s_bad_type _ _); [eauto|]. destruct (lookup _ _); eauto.
  - destruct (s_el a); [eauto|]. destruct (s_bad_type _ _); [eauto|]. destruct (lookup _ _); eauto.
  - destruct (_ && _); eauto.
  - contradiction.
  - eauto.
  - eauto.
Qed.

Lemma s_new_raises v a e y : s_ovf a = v -> s_range a = None -> v = OvSmallest \/ v = OvLargest -> fst (s_new a e) = INew (Some y) -> raised v (snd (s_new a e)).
Proof.
  intros H1 H2 HV. unfold s_new. destruct (s_el a); [discriminate|]. unfold range_verdict. rewrite H2, H1.
  destruct (Nat.ltb _ _); [discriminate|]. cbv zeta. destruct HV as [-> | ->]; cbn [drops_low drops_high signals].
  - cbn [s_first hd_error]. destruct (klt _ _); [discriminate|]. intros _. split; [reflexivity|]. split; [exact H1|exact H2].
  - destruct (s_last _); [|discriminate]. destruct (klt _ _); [discriminate|]. intros _. split; [reflexivity|]. split; [exact H1|exact H2].
Qed.
