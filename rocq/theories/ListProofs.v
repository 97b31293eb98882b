From Verif Require Import Base ListModel ListSpec.
Open Scope Z_scope.

Definition hdp (l : list nat) : ptr := match l with [] => Null | x :: _ => At x end.
Definition lastp (l : list nat) : ptr := hdp (rev l).

Definition ptr_is (p : ptr) (j : nat) : bool := match p with At i => Nat.eqb i j | _ => false end.

Lemma ptr_is_true p j : ptr_is p j = true <-> p = At j.
Proof. destruct p; cbn; split; intro H; try discriminate; [apply Nat.eqb_eq in H; congruence|inversion H; apply Nat.eqb_refl]. Qed.
Lemma ptr_is_false p j : ptr_is p j = false <-> p <> At j.
Proof. rewrite <- ptr_is_true. destruct (ptr_is p j); split; congruence. Qed.

Lemma hset_same h i o : hset h i o i = o.
Proof. unfold hset. rewrite Nat.eqb_refl. reflexivity. Qed.
Lemma hset_other h i o j : i <> j -> hset h i o j = h j.
Proof. unfold hset. intro H. apply Nat.eqb_neq in H. rewrite H. reflexivity. Qed.

Lemma lastp_snoc l x : lastp (l ++ [x]) = At x.
Proof. unfold lastp. rewrite rev_app_distr. reflexivity. Qed.
Lemma lastp_app l l' : l' <> [] -> lastp (l ++ l') = lastp l'.
Proof.
  intro H. destruct (exists_last H) as (l1 & x & ->). rewrite app_assoc, !lastp_snoc. reflexivity.
Qed.
Lemma hdp_app l l' : l <> [] -> hdp (l ++ l') = hdp l.
Proof. destruct l; [congruence|reflexivity]. Qed.
Lemma lastp_in l x : lastp l = At x -> In x l.
Proof.
  intro H. destruct l as [|y l] using rev_ind; [discriminate|].
  rewrite lastp_snoc in H. inversion H; subst. apply in_or_app. right. left. reflexivity.
Qed.
Lemma hdp_in l x : hdp l = At x -> In x l.
Proof. destruct l; cbn; intro H; inversion H; auto. Qed.
Lemma hdp_not_unl l : hdp l <> Unl.
Proof. destruct l; discriminate. Qed.
Lemma lastp_not_unl l : lastp l <> Unl.
Proof. apply hdp_not_unl. Qed.
Lemma lastp_nil_inv l : lastp l = Null -> l = [].
Proof. destruct l as [|x l] using rev_ind; [reflexivity|]. rewrite lastp_snoc. discriminate. Qed.
Lemma hdp_nil_inv l : hdp l = Null -> l = [].
Proof. destruct l; [reflexivity|discriminate]. Qed.

Definition links (h : heap) (ids : list nat) : Prop :=
  forall a x b, ids = a ++ x :: b -> exists nd, h x = Some nd /\ nprev nd = lastp a /\ nnext nd = hdp b.

Lemma In_firstn (A : Type) n (l : list A) x : In x (firstn n l) -> In x l.
Proof. intro H. rewrite <- (firstn_skipn n l). apply in_or_app. left; exact H. Qed.
Lemma In_skipn (A : Type) n (l : list A) x : In x (skipn n l) -> In x l.
Proof. intro H. rewrite <- (firstn_skipn n l). apply in_or_app. right; exact H. Qed.

Section S.
Variable space : bytes -> N.

Definition charge (c : nat -> bytes) (ids : list nat) : Z :=
  fold_right (fun i acc => Z.of_N (space (c i)) + acc) 0 ids.

Lemma charge_nonneg c ids : 0 <= charge c ids.
Proof. induction ids; cbn [charge fold_right]; [lia|]. unfold charge in IHids. lia. Qed.
Lemma charge_app c a b : charge c (a ++ b) = charge c a + charge c b.
Proof. induction a as [|x a IH]; unfold charge in *; cbn [app fold_right]; [reflexivity|]. lia. Qed.

(* full invariant of the element memory of one list: live = true while the list is linked *)
Record WF (live : bool) (c : nat -> bytes) (h : heap) (m : meta) (ids hl pend : list nat) : Prop := {
  w_nodup : NoDup ids;
  w_head : head m = hdp ids;
  w_tail : tail m = lastp ids;
  w_cnt : ccnt m = Z.of_nat (length ids);
  w_links : links h ids;
  w_stotal : stotal m = if live then charge c ids else 0;
  w_val : forall i nd, h i = Some nd -> nval nd = c i;
  w_ref : forall i nd, h i = Some nd -> nref nd = count_occ Nat.eq_dec hl i;
  w_where : forall i nd, h i = Some nd -> In i ids \/ (nprev nd = Unl /\ nnext nd = Unl /\ (In i hl \/ In i pend));
  w_held : forall i, In i hl -> h i <> None;
  w_pend : forall i, In i pend -> exists nd, h i = Some nd /\ ~ In i ids /\ ~ In i hl
}.

Definition same_attrs (m m' : meta) : Prop :=
  mcnt m' = mcnt m /\ ovfl m' = ovfl m /\ readable m' = readable m /\ iflags m' = iflags m.
Lemma same_attrs_refl m : same_attrs m m. Proof. repeat split. Qed.
Lemma same_attrs_trans a b c : same_attrs a b -> same_attrs b c -> same_attrs a c.
Proof. unfold same_attrs; intros; intuition congruence. Qed.

Lemma links_node h ids x : links h ids -> In x ids -> exists nd, h x = Some nd.
Proof.
  intros L H. apply in_split in H as (a & b & E). destruct (L a x b E) as (nd & H & _). eauto.
Qed.

Lemma NoDup_mid_inv (a b : list nat) x : NoDup (a ++ x :: b) ->
  NoDup (a ++ b) /\ ~ In x a /\ ~ In x b /\ (forall y, In y a -> In y b -> False).
Proof.
  intro H. pose proof (NoDup_remove_1 _ _ _ H) as H1. pose proof (NoDup_remove_2 _ _ _ H) as H2.
  rewrite in_app_iff in H2. repeat split; try tauto.
  intros y Ha Hb. clear H H2. induction a as [|z a IH]; [contradiction|].
  cbn in H1. inversion H1; subst. destruct Ha as [->|Ha].
  - apply H2. apply in_or_app; auto.
  - apply IH; auto.
Qed.

Lemma NoDup_app_r (a b : list nat) : NoDup (a ++ b) -> NoDup b.
Proof. induction a as [|x a IH]; cbn; intro H; [exact H|]. inversion H; auto. Qed.

Lemma app_split (A : Type) (a b a' b' : list A) (y : A) : a ++ b = a' ++ y :: b' ->
  (exists mid, a = a' ++ y :: mid /\ b' = mid ++ b) \/ (exists mid, b = mid ++ y :: b' /\ a' = a ++ mid).
Proof.
  revert a'; induction a as [|z a IH]; intros a' E.
  - right. exists a'. auto.
  - destruct a' as [|w a'].
    + cbn in E. inversion E; subst. left. exists a. auto.
    + cbn in E. inversion E; subst. apply IH in H1 as [(mid & -> & ->)|(mid & -> & ->)].
      * left. exists mid. auto.
      * right. exists mid. auto.
Qed.

(* ---- unlink ---- *)
Lemma unlink_spec live c h m a x b hl pend : WF live c h m (a ++ x :: b) hl pend ->
  exists h' m', unlink space h m x = Some (h', m') /\ WF live c h' m' (a ++ b) hl pend /\ same_attrs m m'.
Proof.
  intros W. destruct (w_links _ _ _ _ _ _ _ W a x b eq_refl) as (nd & Hx & Hp & Hn).
  pose proof (w_nodup _ _ _ _ _ _ _ W) as ND.
  destruct (NoDup_mid_inv _ _ _ ND) as (ND' & Nxa & Nxb & Dab).
  unfold unlink. rewrite Hx. cbn [bindo]. rewrite Hp, Hn.
  assert (P1 : exists h1 hd, match lastp a with
      | Null => Some (h, hdp b)
      | p => let* h' := set_next h p (hdp b) in Some (h', head m) end = Some (h1, hd) /\
      hd = hdp (a ++ b) /\
      forall j, h1 j = match h j with None => None | Some n =>
         Some (if ptr_is (lastp a) j then {| nprev := nprev n; nnext := hdp b; nval := nval n; nref := nref n |} else n) end).
  { destruct (lastp a) as [| |p] eqn:E.
    - apply lastp_nil_inv in E. subst a. exists h, (hdp b). split; [reflexivity|]. split; [reflexivity|].
      intro j. cbn [ptr_is]. destruct (h j); reflexivity.
    - exfalso; eapply lastp_not_unl; eauto.
    - pose proof (lastp_in _ _ E) as Hin.
      destruct (links_node _ _ p (w_links _ _ _ _ _ _ _ W)) as (np & Hnp); [apply in_or_app; auto|].
      cbn [set_next]. rewrite Hnp. cbn [bindo]. eexists _, _. split; [reflexivity|]. split.
      + rewrite (w_head _ _ _ _ _ _ _ W). destruct a; [contradiction|reflexivity].
      + intro j. cbn [ptr_is]. unfold hset. destruct (Nat.eqb_spec p j).
        * subst j. rewrite Hnp. reflexivity.
        * destruct (h j); reflexivity. }
  destruct P1 as (h1 & hd & E1 & Ehd & Hh1).
  replace (match lastp a with
   | Null => Some (h, hdp b)
   | p => let* h' := set_next h p (hdp b) in Some (h', head m)
   end) with (Some (h1, hd)) by (symmetry; exact E1).
  cbn [bindo].
  assert (P2 : exists h2 tl, match hdp b with
      | Null => Some (h1, lastp a)
      | p => let* h' := set_prev h1 p (lastp a) in Some (h', tail m) end = Some (h2, tl) /\
      tl = lastp (a ++ b) /\
      forall j, h2 j = match h1 j with None => None | Some n =>
         Some (if ptr_is (hdp b) j then {| nprev := lastp a; nnext := nnext n; nval := nval n; nref := nref n |} else n) end).
  { destruct (hdp b) as [| |p] eqn:E.
    - apply hdp_nil_inv in E. subst b. exists h1, (lastp a). split; [reflexivity|]. split; [rewrite app_nil_r; reflexivity|].
      intro j. cbn [ptr_is]. destruct (h1 j); reflexivity.
    - exfalso; eapply hdp_not_unl; eauto.
    - pose proof (hdp_in _ _ E) as Hin.
      destruct (links_node _ _ p (w_links _ _ _ _ _ _ _ W)) as (np & Hnp); [apply in_or_app; right; right; assumption|].
      assert (exists np', h1 p = Some np') as (np' & Hnp').
      { rewrite Hh1, Hnp. eauto. }
      cbn [set_prev]. rewrite Hnp'. cbn [bindo]. eexists _, _. split; [reflexivity|]. split.
      + rewrite (w_tail _ _ _ _ _ _ _ W). destruct b; [contradiction|].
        rewrite !lastp_app by discriminate. change (x :: n :: b) with ([x] ++ n :: b).
        rewrite lastp_app by discriminate. reflexivity.
      + intro j. cbn [ptr_is]. unfold hset. destruct (Nat.eqb_spec p j).
        * subst j. rewrite Hnp'. reflexivity.
        * destruct (h1 j); reflexivity. }
  destruct P2 as (h2 & tl & E2 & Etl & Hh2).
  replace (match hdp b with
   | Null => Some (h1, lastp a)
   | p => let* h' := set_prev h1 p (lastp a) in Some (h', tail m)
   end) with (Some (h2, tl)) by (symmetry; exact E2).
  cbn [bindo].
  assert (Hval : nval nd = c x) by (eapply w_val; eauto).
  assert (P3 : exists st, (if 0 <? stotal m then
                if stotal m <? Z.of_N (space (nval nd)) then None else Some (stotal m - Z.of_N (space (nval nd)))
              else Some (stotal m)) = Some st /\ st = if live then charge c (a ++ b) else 0).
  { rewrite (w_stotal _ _ _ _ _ _ _ W), Hval. destruct live; [|eexists; split; reflexivity].
    rewrite !charge_app. cbn [charge fold_right]. fold (charge c b).
    pose proof (charge_nonneg c a). pose proof (charge_nonneg c b).
    destruct (Z.ltb_spec 0 (charge c a + (Z.of_N (space (c x)) + charge c b))).
    - destruct (Z.ltb_spec (charge c a + (Z.of_N (space (c x)) + charge c b)) (Z.of_N (space (c x)))); [lia|].
      eexists; split; [reflexivity|]. lia.
    - eexists; split; [reflexivity|]. lia. }
  destruct P3 as (st & E3 & Est). rewrite E3. cbn [bindo].
  set (h3 := hset h2 x (Some {| nprev := Unl; nnext := Unl; nval := nval nd; nref := nref nd |})).
  set (m' := with_links m hd tl (ccnt m - 1) st).
  assert (P4 : exists h', match nref nd with O => let* h4 := efree h3 x in Some (h4, m') | S _ => Some (h3, m') end = Some (h', m') /\
     (forall j, j <> x -> h' j = h2 j) /\
     h' x = match nref nd with O => None | S _ => Some {| nprev := Unl; nnext := Unl; nval := nval nd; nref := nref nd |} end).
  { destruct (nref nd) as [|r] eqn:Er.
    - unfold efree, h3. rewrite hset_same. cbn [bindo nref]. eexists; split; [reflexivity|]. split.
      + intros j Hj. rewrite !hset_other by auto. reflexivity.
      + apply hset_same.
    - exists h3. split; [reflexivity|]. split.
      + intros j Hj. unfold h3. rewrite hset_other by auto. reflexivity.
      + unfold h3. apply hset_same. }
  destruct P4 as (h' & E4 & Hh' & Hh'x). exists h', m'. split; [exact E4|].
  split; [|repeat split].
  (* pointwise description of h' away from x *)
  assert (PW : forall j, j <> x -> h' j = match h j with None => None | Some n =>
      Some {| nprev := if ptr_is (hdp b) j then lastp a else nprev n;
              nnext := if ptr_is (lastp a) j then hdp b else nnext n; nval := nval n; nref := nref n |} end).
  { intros j Hj. rewrite Hh' by assumption. rewrite Hh2, Hh1. destruct (h j) as [n|]; [|reflexivity].
    destruct n; destruct (ptr_is (lastp a) j), (ptr_is (hdp b) j); reflexivity. }
  pose proof (w_links _ _ _ _ _ _ _ W) as L.
  constructor.
  - exact ND'.
  - exact Ehd.
  - exact Etl.
  - cbn. rewrite (w_cnt _ _ _ _ _ _ _ W), !app_length. cbn [length]. lia.
  - intros a' y b' E. apply app_split in E as [(mid & E & E')|(mid & E & E')].
    + assert (Hy : In y a) by (rewrite E; apply in_or_app; right; left; reflexivity).
      destruct (L a' y (mid ++ x :: b)) as (n & Hn1 & Hn2 & Hn3); [rewrite E, <- app_assoc; reflexivity|].
      rewrite PW by (intro; subst; auto). rewrite Hn1. eexists; split; [reflexivity|]. cbn [nprev nnext].
      replace (ptr_is (hdp b) y) with false by (symmetry; apply ptr_is_false; intro K; apply hdp_in in K; eauto).
      split; [assumption|]. subst b'. destruct mid as [|z mid].
      * assert (lastp a = At y) by (rewrite E; apply lastp_snoc).
        rewrite (proj2 (ptr_is_true _ _) H). reflexivity.
      * replace (ptr_is (lastp a) y) with false; [assumption|]. symmetry. apply ptr_is_false. intro K.
        rewrite E in K. change (a' ++ y :: z :: mid) with (a' ++ [y] ++ (z :: mid)) in K.
        rewrite app_assoc, lastp_app in K by discriminate. apply lastp_in in K.
        rewrite E in ND'. rewrite <- app_assoc in ND'. cbn [app] in ND'.
        apply NoDup_mid_inv in ND' as (_ & _ & N & _). apply N. cbn [app]. 
        change (z :: mid ++ b) with ((z :: mid) ++ b). apply in_or_app; auto.
    + assert (Hy : In y b) by (rewrite E; apply in_or_app; right; left; reflexivity).
      destruct (L (a ++ x :: mid) y b') as (n & Hn1 & Hn2 & Hn3); [rewrite E, <- app_assoc; reflexivity|].
      rewrite PW by (intro; subst; auto). rewrite Hn1. eexists; split; [reflexivity|]. cbn [nprev nnext].
      replace (ptr_is (lastp a) y) with false by (symmetry; apply ptr_is_false; intro K; apply lastp_in in K; eauto).
      split; [|assumption]. subst a'. destruct mid as [|z mid].
      * rewrite E. cbn [app hdp ptr_is]. rewrite Nat.eqb_refl. rewrite app_nil_r. reflexivity.
      * replace (ptr_is (hdp b) y) with false.
        -- rewrite Hn2. rewrite !lastp_app by discriminate. change (x :: z :: mid) with ([x] ++ z :: mid).
           rewrite lastp_app by discriminate. reflexivity.
        -- symmetry. apply ptr_is_false. intro K. rewrite E in K. cbn in K. inversion K; subst z.
           assert (ND2 : NoDup b) by (apply NoDup_app_r in ND'; exact ND').
           rewrite E in ND2. cbn [app] in ND2. inversion ND2; subst. apply H1. apply in_or_app. right. left. reflexivity.
  - cbn. exact Est.
  - intros j n Hj. destruct (Nat.eq_dec j x) as [->|Hjx].
    + rewrite Hh'x in Hj. destruct (nref nd); [discriminate|]. inversion Hj; subst. cbn. assumption.
    + rewrite PW in Hj by assumption. destruct (h j) as [n0|] eqn:E; [|discriminate]. inversion Hj; subst. cbn.
      eapply w_val; eauto.
  - intros j n Hj. destruct (Nat.eq_dec j x) as [->|Hjx].
    + rewrite Hh'x in Hj. pose proof (w_ref _ _ _ _ _ _ _ W _ _ Hx).
      destruct (nref nd) eqn:Er; [discriminate|]. inversion Hj; subst. cbn. assumption.
    + rewrite PW in Hj by assumption. destruct (h j) as [n0|] eqn:E; [|discriminate]. inversion Hj; subst. cbn.
      eapply w_ref; eauto.
  - intros j n Hj. destruct (Nat.eq_dec j x) as [->|Hjx].
    + right. rewrite Hh'x in Hj. pose proof (w_ref _ _ _ _ _ _ _ W _ _ Hx) as R.
      destruct (nref nd) eqn:Er; [discriminate|]. inversion Hj; subst. cbn. split; [reflexivity|]. split; [reflexivity|].
      left. apply (count_occ_In Nat.eq_dec). lia.
    + rewrite PW in Hj by assumption. destruct (h j) as [n0|] eqn:E; [|discriminate]. inversion Hj; subst. cbn [nprev nnext].
      destruct (w_where _ _ _ _ _ _ _ W _ _ E) as [I|(U1 & U2 & I)].
      * left. rewrite in_app_iff in *. cbn in I. intuition congruence.
      * right. assert (Nin : ~ In j (a ++ b)).
        { intro K. assert (K' : In j (a ++ x :: b)) by (rewrite in_app_iff in *; cbn; tauto).
          apply in_split in K' as (a1 & b1 & K'). destruct (L _ _ _ K') as (n1 & G1 & G2 & G3).
          rewrite E in G1. inversion G1; subst. rewrite U1 in G2. symmetry in G2. apply lastp_not_unl in G2. assumption. }
        rewrite in_app_iff in Nin.
        replace (ptr_is (hdp b) j) with false by (symmetry; apply ptr_is_false; intro K; apply hdp_in in K; tauto).
        replace (ptr_is (lastp a) j) with false by (symmetry; apply ptr_is_false; intro K; apply lastp_in in K; tauto).
        auto.
  - intros j Hj. destruct (Nat.eq_dec j x) as [->|Hjx].
    + rewrite Hh'x. pose proof (w_ref _ _ _ _ _ _ _ W _ _ Hx) as R.
      apply (count_occ_In Nat.eq_dec) in Hj. destruct (nref nd); [lia|discriminate].
    + rewrite PW by assumption. pose proof (w_held _ _ _ _ _ _ _ W _ Hj). destruct (h j); congruence.
  - intros j Hj. destruct (w_pend _ _ _ _ _ _ _ W _ Hj) as (n & Hn1 & Hn2 & Hn3).
    assert (Hjx : j <> x) by (intro; subst; apply Hn2; apply in_or_app; right; left; reflexivity).
    rewrite PW by assumption. rewrite Hn1. eexists; split; [reflexivity|]. split; [|assumption].
    rewrite in_app_iff in *. cbn in Hn2. tauto.
Qed.

(* ---- walking ---- *)
Lemma walk_next h ids n : links h ids -> forall a b, ids = a ++ b ->
  walk true n h (hdp b) = Some (hdp (skipn n b)).
Proof.
  intro L. induction n as [|n IH]; intros a b E; cbn [walk]; [reflexivity|].
  destruct b as [|x b]; [reflexivity|]. cbn [hdp deref].
  destruct (L a x b E) as (nd & H1 & H2 & H3). rewrite H1. cbn [bindo]. rewrite H3.
  rewrite (IH (a ++ [x]) b) by (rewrite <- app_assoc; exact E). reflexivity.
Qed.

Lemma walk_prev h ids n : links h ids -> forall a b, ids = a ++ b ->
  walk false n h (lastp a) = Some (lastp (firstn (length a - n) a)).
Proof.
  intro L. induction n as [|n IH]; intros a b E; cbn [walk].
  - rewrite Nat.sub_0_r, firstn_all. reflexivity.
  - destruct a as [|x a _] using rev_ind.
    + reflexivity.
    + rewrite lastp_snoc. cbn [deref].
      destruct (L a x b) as (nd & H1 & H2 & H3); [rewrite <- app_assoc in E; exact E|].
      rewrite H1. cbn [bindo]. rewrite H2. rewrite (IH a (x :: b)) by (rewrite <- app_assoc in E; exact E).
      rewrite app_length. cbn [length]. replace (length a + 1 - S n)%nat with (length a - n)%nat by lia.
      do 2 f_equal. rewrite firstn_app. replace (length a - n - length a)%nat with 0%nat by lia.
      cbn [firstn]. rewrite app_nil_r. reflexivity.
Qed.

Lemma find_spec live c h m ids hl pend index : WF live c h m ids hl pend ->
  0 <= index < Z.of_nat (length ids) -> find h m index = Some (hdp (skipn (Z.to_nat index) ids)).
Proof.
  intros W Hi. unfold find. rewrite (w_cnt _ _ _ _ _ _ _ W).
  destruct (index <=? _) eqn:E.
  - destruct (Z.ltb_spec index 0); [lia|]. rewrite (w_head _ _ _ _ _ _ _ W).
    eapply walk_next with (a := []); [apply (w_links _ _ _ _ _ _ _ W)|reflexivity].
  - destruct (Z.ltb_spec index (Z.of_nat (length ids))); [|lia].
    rewrite (w_tail _ _ _ _ _ _ _ W).
    rewrite (walk_prev h ids _ (w_links _ _ _ _ _ _ _ W) ids []) by (rewrite app_nil_r; reflexivity).
    f_equal. set (k := Z.to_nat index).
    replace (length ids - Z.to_nat (Z.of_nat (length ids) - 1 - index))%nat with (S k) by lia.
    assert (Hk : (k < length ids)%nat) by lia. clear - Hk.
    assert (exists a x b, ids = a ++ x :: b /\ length a = k) as (a & x & b & -> & Ha).
    { exists (firstn k ids). destruct (skipn k ids) as [|x b] eqn:E.
      - assert (length (skipn k ids) = 0%nat) by (rewrite E; reflexivity). rewrite skipn_length in H. lia.
      - exists x, b. rewrite <- E, firstn_skipn. split; [reflexivity|]. apply firstn_length_le. lia. }
    rewrite <- Ha. rewrite skipn_app, skipn_all, Nat.sub_diag. cbn [skipn app hdp].
    rewrite firstn_app. replace (S (length a) - length a)%nat with 1%nat by lia. change (firstn 1 (x :: b)) with [x].
    rewrite firstn_all2 by lia. apply lastp_snoc.
Qed.

(* ---- link ---- *)
Lemma link_spec c h m a b hl i index : WF true c h m (a ++ b) hl [i] ->
  index = Z.of_nat (length a) ->
  exists h' m', link space h m index i = Some (h', m') /\ WF true c h' m' (a ++ i :: b) hl [] /\ same_attrs m m'.
Proof.
  intros W Hidx.
  destruct (w_pend _ _ _ _ _ _ _ W i (or_introl eq_refl)) as (nd & Hi & Nid & Nhl).
  pose proof (w_nodup _ _ _ _ _ _ _ W) as ND. pose proof (w_links _ _ _ _ _ _ _ W) as L.
  unfold link. destruct (Z.ltb_spec index 0); [lia|].
  assert (P0 : (if index =? 0 then Some (Null, head m)
       else if ccnt m <=? index then Some (tail m, Null)
       else let* p := find h m (index - 1) in
            let* nd0 := deref h p in Some (p, nnext nd0)) = Some (lastp a, hdp b)).
  { destruct (Z.eqb_spec index 0).
    - assert (a = []) by (destruct a; [reflexivity|cbn in Hidx; lia]). subst a.
      rewrite (w_head _ _ _ _ _ _ _ W). reflexivity.
    - rewrite (w_cnt _ _ _ _ _ _ _ W), app_length.
      destruct (Z.leb_spec (Z.of_nat (length a + length b)) index).
      + assert (b = []) by (destruct b; [reflexivity|cbn in *; lia]). subst b.
        rewrite (w_tail _ _ _ _ _ _ _ W), app_nil_r. reflexivity.
      + rewrite (find_spec _ _ _ _ _ _ _ _ W) by (rewrite app_length; lia).
        destruct a as [|x a _] using rev_ind; [cbn in Hidx; lia|].
        rewrite app_length in Hidx. cbn [length] in Hidx.
        replace (Z.to_nat (index - 1)) with (length a) by lia.
        rewrite <- app_assoc. rewrite skipn_app, skipn_all, Nat.sub_diag. cbn [skipn app hdp bindo deref].
        destruct (L a x b) as (n1 & H1 & H2 & H3); [rewrite <- app_assoc; reflexivity|].
        rewrite H1. cbn [bindo]. rewrite H3, lastp_snoc. reflexivity. }
  rewrite P0. cbn [bindo]. rewrite Hi. cbn [bindo].
  set (h1 := hset h i (Some {| nprev := lastp a; nnext := hdp b; nval := nval nd; nref := nref nd |})).
  rewrite in_app_iff in Nid.
  assert (P1 : exists h2 hd, match lastp a with
      | Null => Some (h1, At i)
      | _ => let* h' := set_next h1 (lastp a) (At i) in Some (h', head m) end = Some (h2, hd) /\
      hd = hdp (a ++ i :: b) /\
      forall j, h2 j = match h1 j with None => None | Some n =>
         Some (if ptr_is (lastp a) j then {| nprev := nprev n; nnext := At i; nval := nval n; nref := nref n |} else n) end).
  { destruct (lastp a) as [| |p] eqn:E.
    - apply lastp_nil_inv in E. subst a. eexists _, _. split; [reflexivity|]. split; [reflexivity|].
      intro j. cbn [ptr_is]. destruct (h1 j); reflexivity.
    - exfalso; eapply lastp_not_unl; eauto.
    - pose proof (lastp_in _ _ E) as Hin.
      destruct (links_node _ _ p L) as (np & Hnp); [apply in_or_app; auto|].
      assert (Hnp1 : h1 p = Some np). { unfold h1. rewrite hset_other; [assumption|intro; subst; tauto]. }
      cbn [set_next]. rewrite Hnp1. cbn [bindo]. eexists _, _. split; [reflexivity|]. split.
      + rewrite (w_head _ _ _ _ _ _ _ W). destruct a; [contradiction|reflexivity].
      + intro j. cbn [ptr_is]. unfold hset at 1. destruct (Nat.eqb_spec p j).
        * subst j. rewrite Hnp1. reflexivity.
        * destruct (h1 j); reflexivity. }
  destruct P1 as (h2 & hd & E1 & Ehd & Hh2).
  replace (match lastp a with
   | Null => Some (h1, At i)
   | _ => let* h' := set_next h1 (lastp a) (At i) in Some (h', head m)
   end) with (Some (h2, hd)) by (symmetry; exact E1).
  cbn [bindo].
  assert (P2 : exists h3 tl, match hdp b with
      | Null => Some (h2, At i)
      | _ => let* h' := set_prev h2 (hdp b) (At i) in Some (h', tail m) end = Some (h3, tl) /\
      tl = lastp (a ++ i :: b) /\
      forall j, h3 j = match h2 j with None => None | Some n =>
         Some (if ptr_is (hdp b) j then {| nprev := At i; nnext := nnext n; nval := nval n; nref := nref n |} else n) end).
  { destruct (hdp b) as [| |p] eqn:E.
    - apply hdp_nil_inv in E. subst b. eexists _, _. split; [reflexivity|]. split; [rewrite lastp_snoc; reflexivity|].
      intro j. cbn [ptr_is]. destruct (h2 j); reflexivity.
    - exfalso; eapply hdp_not_unl; eauto.
    - pose proof (hdp_in _ _ E) as Hin.
      destruct (links_node _ _ p L) as (np & Hnp); [apply in_or_app; auto|].
      assert (exists np', h2 p = Some np') as (np' & Hnp').
      { rewrite Hh2. unfold h1. rewrite hset_other by (intro; subst; tauto). rewrite Hnp. eauto. }
      cbn [set_prev]. rewrite Hnp'. cbn [bindo]. eexists _, _. split; [reflexivity|]. split.
      + rewrite (w_tail _ _ _ _ _ _ _ W). destruct b; [contradiction|].
        rewrite !lastp_app by discriminate. change (i :: n :: b) with ([i] ++ n :: b).
        rewrite lastp_app by discriminate. reflexivity.
      + intro j. cbn [ptr_is]. unfold hset at 1. destruct (Nat.eqb_spec p j).
        * subst j. rewrite Hnp'. reflexivity.
        * destruct (h2 j); reflexivity. }
  destruct P2 as (h3 & tl & E2 & Etl & Hh3).
  replace (match hdp b with
   | Null => Some (h2, At i)
   | _ => let* h' := set_prev h2 (hdp b) (At i) in Some (h', tail m)
   end) with (Some (h3, tl)) by (symmetry; exact E2).
  cbn [bindo]. eexists _, _. split; [reflexivity|]. split; [|repeat split].
  assert (Nha : lastp a <> At i) by (intro K; apply lastp_in in K; tauto).
  assert (Nhb : hdp b <> At i) by (intro K; apply hdp_in in K; tauto).
  assert (PWi : h3 i = Some {| nprev := lastp a; nnext := hdp b; nval := nval nd; nref := nref nd |}).
  { rewrite Hh3, Hh2. unfold h1. rewrite hset_same.
    rewrite (proj2 (ptr_is_false _ _) Nha), (proj2 (ptr_is_false _ _) Nhb). reflexivity. }
  assert (PW : forall j, j <> i -> h3 j = match h j with None => None | Some n =>
      Some {| nprev := if ptr_is (hdp b) j then At i else nprev n;
              nnext := if ptr_is (lastp a) j then At i else nnext n; nval := nval n; nref := nref n |} end).
  { intros j Hj. rewrite Hh3, Hh2. unfold h1. rewrite hset_other by auto. destruct (h j) as [n|]; [|reflexivity].
    destruct n; destruct (ptr_is (lastp a) j), (ptr_is (hdp b) j); reflexivity. }
  assert (Dab : forall y, In y a -> In y b -> False).
  { clear - ND. induction a as [|z a IH]; [contradiction|]. cbn in ND. inversion ND; subst.
    intros y [->|Hy] Hb; [apply H1; apply in_or_app; auto|eapply IH; eauto]. }
  constructor.
  - clear - ND Nid. induction a as [|z a IH]; cbn [app] in *.
    + constructor; [tauto|assumption].
    + inversion ND; subst. constructor.
      * rewrite in_app_iff in *. cbn. intros [K|[K|K]]; [tauto|subst; apply Nid; left; left; reflexivity|tauto].
      * apply IH; auto. cbn in Nid. tauto.
  - exact Ehd.
  - exact Etl.
  - cbn. rewrite (w_cnt _ _ _ _ _ _ _ W), !app_length. cbn [length]. lia.
  - intros a' y b' E. 
    destruct (Nat.eq_dec y i) as [->|Hyi].
    + assert (a' = a /\ b' = b) as [-> ->].
      { clear - E Nid. revert a' E. induction a as [|z a IH]; intros a' E; destruct a' as [|w a']; cbn in E; inversion E; subst; auto.
        - exfalso. apply Nid. right. apply in_or_app. right. left. reflexivity.
        - exfalso. apply Nid. left. left. reflexivity.
        - destruct (IH (fun K => Nid (match K with or_introl k => or_introl (or_intror k) | or_intror k => or_intror k end)) a') as [-> ->]; auto. }
      eexists; split; [exact PWi|]. split; reflexivity.
    + change (a ++ i :: b) with (a ++ [i] ++ b) in E. rewrite app_assoc in E.
      apply app_split in E as [(mid & E & E')|(mid & E & E')].
      * assert (Hmid : exists mid', mid = mid' ++ [i] /\ a = a' ++ y :: mid').
        { destruct mid as [|z mid _] using rev_ind.
          - apply app_inj_tail in E as [_ E]. congruence.
          - change (a' ++ y :: mid ++ [z]) with (a' ++ (y :: mid) ++ [z]) in E. rewrite app_assoc in E.
            apply app_inj_tail in E as [E1' E2']. subst z. exists mid. auto. }
        destruct Hmid as (mid' & -> & Ea). subst b'.
        destruct (L a' y (mid' ++ b)) as (n & Hn1 & Hn2 & Hn3); [rewrite Ea, <- app_assoc; reflexivity|].
        assert (Hy : In y a) by (rewrite Ea; apply in_or_app; right; left; reflexivity).
        rewrite PW by assumption. rewrite Hn1. eexists; split; [reflexivity|]. cbn [nprev nnext].
        replace (ptr_is (hdp b) y) with false by (symmetry; apply ptr_is_false; intro K; apply hdp_in in K; eauto).
        split; [assumption|]. destruct mid' as [|z mid'].
        -- assert (H0 : lastp a = At y) by (rewrite Ea; apply lastp_snoc).
           rewrite (proj2 (ptr_is_true _ _) H0). reflexivity.
        -- replace (ptr_is (lastp a) y) with false.
           ++ rewrite Hn3. reflexivity.
           ++ symmetry. apply ptr_is_false. intro K.
              rewrite Ea in K. change (a' ++ y :: z :: mid') with (a' ++ [y] ++ (z :: mid')) in K.
              rewrite app_assoc, lastp_app in K by discriminate. apply lastp_in in K.
              rewrite Ea in ND. rewrite <- app_assoc in ND. cbn [app] in ND.
              apply NoDup_mid_inv in ND as (_ & _ & N & _). apply N.
              change (z :: mid' ++ b) with ((z :: mid') ++ b). apply in_or_app; auto.
      * subst a'. assert (Hy : In y b) by (rewrite E; apply in_or_app; right; left; reflexivity).
        destruct (L (a ++ mid) y b') as (n & Hn1 & Hn2 & Hn3); [rewrite E, <- app_assoc; reflexivity|].
        rewrite PW by assumption. rewrite Hn1. eexists; split; [reflexivity|]. cbn [nprev nnext].
        replace (ptr_is (lastp a) y) with false by (symmetry; apply ptr_is_false; intro K; apply lastp_in in K; eauto).
        split; [|assumption]. destruct mid as [|z mid].
        -- rewrite app_nil_r, lastp_snoc. rewrite E. cbn [app hdp ptr_is]. rewrite Nat.eqb_refl. reflexivity.
        -- replace (ptr_is (hdp b) y) with false.
           ++ rewrite Hn2. rewrite !lastp_app by discriminate. reflexivity.
           ++ symmetry. apply ptr_is_false. intro K. rewrite E in K. cbn in K. inversion K; subst z.
              apply NoDup_app_r in ND. rewrite E in ND. cbn [app] in ND. inversion ND; subst.
              apply H2. apply in_or_app. right. left. reflexivity.
  - cbn. rewrite (w_stotal _ _ _ _ _ _ _ W), !charge_app. unfold charge; cbn [fold_right].
    rewrite (w_val _ _ _ _ _ _ _ W _ _ Hi). lia.
  - intros j n Hj. destruct (Nat.eq_dec j i) as [->|Hji].
    + rewrite PWi in Hj. inversion Hj; subst. cbn. eapply w_val; eauto.
    + rewrite PW in Hj by assumption. destruct (h j) as [n0|] eqn:E; [|discriminate]. inversion Hj; subst. cbn.
      eapply w_val; eauto.
  - intros j n Hj. destruct (Nat.eq_dec j i) as [->|Hji].
    + rewrite PWi in Hj. inversion Hj; subst. cbn. eapply w_ref; eauto.
    + rewrite PW in Hj by assumption. destruct (h j) as [n0|] eqn:E; [|discriminate]. inversion Hj; subst. cbn.
      eapply w_ref; eauto.
  - intros j n Hj. destruct (Nat.eq_dec j i) as [->|Hji].
    + left. apply in_or_app. right. left. reflexivity.
    + rewrite PW in Hj by assumption. destruct (h j) as [n0|] eqn:E; [|discriminate]. inversion Hj; subst. cbn [nprev nnext].
      destruct (w_where _ _ _ _ _ _ _ W _ _ E) as [I|(U1 & U2 & I)].
      * left. rewrite in_app_iff in *. cbn. tauto.
      * right. assert (Nin : ~ In j (a ++ b)).
        { intro K. apply in_split in K as (a1 & b1 & K'). destruct (L _ _ _ K') as (n1 & G1 & G2 & G3).
          rewrite E in G1. inversion G1; subst. rewrite U1 in G2. symmetry in G2. apply lastp_not_unl in G2. assumption. }
        rewrite in_app_iff in Nin.
        replace (ptr_is (hdp b) j) with false by (symmetry; apply ptr_is_false; intro K; apply hdp_in in K; tauto).
        replace (ptr_is (lastp a) j) with false by (symmetry; apply ptr_is_false; intro K; apply lastp_in in K; tauto).
        cbn in I. intuition congruence.
  - intros j Hj. destruct (Nat.eq_dec j i) as [->|Hji]; [rewrite PWi; discriminate|].
    rewrite PW by assumption. pose proof (w_held _ _ _ _ _ _ _ W _ Hj). destruct (h j); congruence.
  - intros j [].
Qed.

(* ---- deletion loop ---- *)
Lemma delete_loop_spec live c hl pend count b : forall fuel a h m fcnt,
  WF live c h m (a ++ b) hl pend -> (length b < fuel)%nat -> 0 <= fcnt -> (count = 0 \/ fcnt < count) ->
  let k := if count =? 0 then length b else Nat.min (length b) (Z.to_nat (count - fcnt)) in
  exists h' m', delete_loop space fuel h m (hdp b) count fcnt = Some (h', m', fcnt + Z.of_nat k) /\
    WF live c h' m' (a ++ skipn k b) hl pend /\ same_attrs m m'.
Proof.
  induction b as [|x b IH]; intros fuel a h m fcnt W Hf H0 Hc k.
  - assert (k = 0%nat) by (subst k; destruct (count =? 0); reflexivity). rewrite H. cbn [hdp skipn].
    exists h, m. split; [|split; [assumption|apply same_attrs_refl]].
    destruct fuel; cbn [delete_loop]; f_equal; f_equal; lia.
  - destruct fuel as [|fuel]; [cbn in Hf; lia|]. cbn [hdp delete_loop].
    destruct (w_links _ _ _ _ _ _ _ W a x b eq_refl) as (nd & Hx & Hp & Hn).
    rewrite Hx. cbn [bindo].
    destruct (unlink_spec _ _ _ _ _ _ _ _ _ W) as (h1 & m1 & E1 & W1 & A1). rewrite E1. cbn [bindo].
    destruct ((0 <? count) && (count <=? fcnt + 1))%bool eqn:G.
    + exists h1, m1. assert (K : k = 1%nat).
      { subst k. destruct (Z.eqb_spec count 0); [lia|]. cbn [length]. lia. }
      rewrite K. cbn [skipn]. split; [reflexivity|]. split; assumption.
    + rewrite Hn. cbn [length] in Hf.
      destruct (IH fuel a h1 m1 (fcnt + 1)) as (h2 & m2 & E2 & W2 & A2); auto; try lia.
      exists h2, m2. rewrite E2.
      assert (K : k = S (if count =? 0 then length b else Nat.min (length b) (Z.to_nat (count - (fcnt + 1))))).
      { subst k. destruct (Z.eqb_spec count 0); cbn [length]; [reflexivity|]. lia. }
      rewrite K. split; [f_equal; f_equal; lia|]. cbn [skipn]. split; [assumption|].
      eapply same_attrs_trans; eauto.
Qed.

Lemma elem_delete_spec live c h m ids hl pend index count :
  WF live c h m ids hl pend -> 0 <= index < Z.of_nat (length ids) -> 0 <= count ->
  let k := if count =? 0 then (length ids - Z.to_nat index)%nat
           else Nat.min (length ids - Z.to_nat index) (Z.to_nat count) in
  exists h' m', elem_delete space h m index count = Some (h', m', Z.of_nat k) /\
    WF live c h' m' (firstn (Z.to_nat index) ids ++ skipn (k + Z.to_nat index) ids) hl pend /\ same_attrs m m'.
Proof.
  intros W Hi Hc k. unfold elem_delete. rewrite (find_spec _ _ _ _ _ _ _ _ W Hi). cbn [bindo].
  set (n := Z.to_nat index) in *.
  assert (W' : WF live c h m (firstn n ids ++ skipn n ids) hl pend) by (rewrite firstn_skipn; assumption).
  destruct (delete_loop_spec live c hl pend count (skipn n ids) (S (Z.to_nat (ccnt m))) _ _ _ 0 W')
    as (h' & m' & E & W2 & A); try lia.
  { rewrite skipn_length, (w_cnt _ _ _ _ _ _ _ W). lia. }
  rewrite E. exists h', m'. rewrite skipn_length, Z.sub_0_r in *. cbn [Z.add] in *.
  fold k. split; [reflexivity|]. split; [|assumption].
  fold k in W2.
  replace (skipn (k + n) ids) with (skipn k (skipn n ids)); [exact W2|].
  clearbody k n. clear. revert ids; induction n as [|n IH]; intros ids; [rewrite Nat.add_0_r; reflexivity|].
  rewrite Nat.add_succ_r. destruct ids; [destruct k; reflexivity|]. cbn [skipn]. apply IH.
Qed.

(* ---- taking a reference ---- *)
Definition incr_ref (nd : node) : node :=
  {| nprev := nprev nd; nnext := nnext nd; nval := nval nd; nref := S (nref nd) |}.

Lemma count_occ_snoc l x y : count_occ Nat.eq_dec (l ++ [x]) y =
  if Nat.eq_dec x y then S (count_occ Nat.eq_dec l y) else count_occ Nat.eq_dec l y.
Proof. rewrite count_occ_app. cbn [count_occ]. destruct (Nat.eq_dec x y); lia. Qed.

Lemma incr_spec live c h m ids hl pend x nd : WF live c h m ids hl pend -> In x ids -> h x = Some nd ->
  WF live c (hset h x (Some (incr_ref nd))) m ids (hl ++ [x]) pend.
Proof.
  intros W Hin Hx.
  assert (PW : forall j, hset h x (Some (incr_ref nd)) j = if Nat.eqb x j then Some (incr_ref nd) else h j) by reflexivity.
  constructor; try apply W.
  - intros a y b E. destruct (w_links _ _ _ _ _ _ _ W a y b E) as (n & H1 & H2 & H3).
    rewrite PW. destruct (Nat.eqb_spec x y).
    + subst y. rewrite Hx in H1. inversion H1; subst. eexists; split; [reflexivity|]. auto.
    + eauto.
  - intros j n. rewrite PW. destruct (Nat.eqb_spec x j).
    + subst j. intro H; inversion H; subst. cbn. eapply w_val; eauto.
    + apply W.
  - intros j n. rewrite PW, count_occ_snoc. destruct (Nat.eqb_spec x j).
    + subst j. intro H; inversion H; subst. cbn. destruct (Nat.eq_dec x x); [|congruence].
      f_equal. eapply w_ref; eauto.
    + destruct (Nat.eq_dec x j); [congruence|]. apply W.
  - intros j n. rewrite PW. destruct (Nat.eqb_spec x j).
    + subst j. intro H. left. assumption.
    + intro H. destruct (w_where _ _ _ _ _ _ _ W _ _ H) as [I|(U1 & U2 & I)]; [auto|].
      right. rewrite in_app_iff. tauto.
  - intros j. rewrite in_app_iff, PW. destruct (Nat.eqb_spec x j); [discriminate|].
    intros [K|[K|[]]]; [|congruence]. apply (w_held _ _ _ _ _ _ _ W _ K).
  - intros j Hj. destruct (w_pend _ _ _ _ _ _ _ W _ Hj) as (n & H1 & H2 & H3).
    rewrite PW. destruct (Nat.eqb_spec x j); [subst; tauto|]. exists n. rewrite in_app_iff. cbn. intuition congruence.
Qed.

(* ---- get loop, forward ---- *)
Lemma get_loop_fwd live c pend count delete b : forall fuel a h m hl acc,
  WF live c h m (a ++ b) hl pend -> (length b < fuel)%nat -> (Z.of_nat (length acc) < count) ->
  let k := Nat.min (length b) (Z.to_nat count - length acc) in
  exists h' m', get_loop space fuel h m (hdp b) count true delete acc = Some (h', m', acc ++ firstn k b) /\
    WF live c h' m' (a ++ if delete then skipn k b else b) (hl ++ firstn k b) pend /\ same_attrs m m'.
Proof.
  induction b as [|x b IH]; intros fuel a h m hl acc W Hf Hc k.
  - assert (k = 0%nat) by reflexivity. rewrite H. cbn [hdp skipn firstn]. rewrite !app_nil_r.
    exists h, m. split; [destruct fuel; reflexivity|]. split; [|apply same_attrs_refl].
    replace (if delete then [] else []) with (@nil nat) by (destruct delete; reflexivity). assumption.
  - destruct fuel as [|fuel]; [cbn in Hf; lia|]. cbn [hdp get_loop].
    destruct (w_links _ _ _ _ _ _ _ W a x b eq_refl) as (nd & Hx & Hp & Hn).
    rewrite Hx. cbn [bindo]. fold (incr_ref nd).
    assert (Hin : In x (a ++ x :: b)) by (apply in_or_app; right; left; reflexivity).
    pose proof (incr_spec _ _ _ _ _ _ _ _ _ W Hin Hx) as W1.
    assert (P : exists h2 m2, (if delete then unlink space (hset h x (Some (incr_ref nd))) m x
        else Some (hset h x (Some (incr_ref nd)), m)) = Some (h2, m2) /\
        WF live c h2 m2 (if delete then a ++ b else a ++ x :: b) (hl ++ [x]) pend /\ same_attrs m m2).
    { destruct delete.
      - destruct (unlink_spec _ _ _ _ _ _ _ _ _ W1) as (h2 & m2 & E & W2 & A). eauto.
      - eexists _, _. split; [reflexivity|]. split; [assumption|apply same_attrs_refl]. }
    destruct P as (h2 & m2 & E2 & W2 & A2). rewrite E2. cbn [bindo].
    rewrite app_length. cbn [length] in *.
    destruct ((0 <? count) && (count <=? Z.of_nat (length acc + 1)))%bool eqn:G.
    + assert (K : k = 1%nat) by (subst k; cbn [length]; lia). rewrite K. cbn [firstn skipn].
      exists h2, m2. split; [reflexivity|]. split; [|assumption]. destruct delete; assumption.
    + rewrite Hn.
      assert (K : k = S (Nat.min (length b) (Z.to_nat count - length (acc ++ [x])))).
      { subst k. rewrite app_length. cbn [length]. lia. }
      destruct delete.
      * destruct (IH fuel a h2 m2 (hl ++ [x]) (acc ++ [x])) as (h3 & m3 & E3 & W3 & A3); auto; try lia.
        { rewrite app_length. cbn [length]. lia. }
        exists h3, m3. rewrite E3, K. cbn [firstn skipn]. rewrite <- !app_assoc in *. cbn [app] in *.
        split; [reflexivity|]. split; [assumption|]. eapply same_attrs_trans; eauto.
      * destruct (IH fuel (a ++ [x]) h2 m2 (hl ++ [x]) (acc ++ [x])) as (h3 & m3 & E3 & W3 & A3); auto; try lia.
        { rewrite <- app_assoc. assumption. }
        { rewrite app_length. cbn [length]. lia. }
        exists h3, m3. rewrite E3, K. cbn [firstn skipn]. rewrite <- !app_assoc in *. cbn [app] in *.
        split; [reflexivity|]. split; [assumption|]. eapply same_attrs_trans; eauto.
Qed.

(* ---- get loop, backward ---- *)
Lemma get_loop_bwd live c pend count delete : forall ra fuel b h m hl acc,
  WF live c h m (rev ra ++ b) hl pend -> (length ra < fuel)%nat -> (Z.of_nat (length acc) < count) ->
  let k := Nat.min (length ra) (Z.to_nat count - length acc) in
  exists h' m', get_loop space fuel h m (hdp ra) count false delete acc = Some (h', m', acc ++ firstn k ra) /\
    WF live c h' m' (rev (if delete then skipn k ra else ra) ++ b) (hl ++ firstn k ra) pend /\ same_attrs m m'.
Proof.
  induction ra as [|x ra IH]; intros fuel b h m hl acc W Hf Hc k.
  - assert (k = 0%nat) by reflexivity. rewrite H. cbn [hdp skipn firstn]. rewrite !app_nil_r.
    exists h, m. split; [destruct fuel; reflexivity|]. split; [|apply same_attrs_refl].
    replace (if delete then [] else []) with (@nil nat) by (destruct delete; reflexivity). assumption.
  - destruct fuel as [|fuel]; [cbn in Hf; lia|]. cbn [hdp get_loop].
    cbn [rev] in W. rewrite <- app_assoc in W. cbn [app] in W.
    destruct (w_links _ _ _ _ _ _ _ W (rev ra) x b eq_refl) as (nd & Hx & Hp & Hn).
    rewrite Hx. cbn [bindo]. fold (incr_ref nd).
    assert (Hin : In x (rev ra ++ x :: b)) by (apply in_or_app; right; left; reflexivity).
    pose proof (incr_spec _ _ _ _ _ _ _ _ _ W Hin Hx) as W1.
    assert (P : exists h2 m2, (if delete then unlink space (hset h x (Some (incr_ref nd))) m x
        else Some (hset h x (Some (incr_ref nd)), m)) = Some (h2, m2) /\
        WF live c h2 m2 (if delete then rev ra ++ b else rev ra ++ x :: b) (hl ++ [x]) pend /\ same_attrs m m2).
    { destruct delete.
      - destruct (unlink_spec _ _ _ _ _ _ _ _ _ W1) as (h2 & m2 & E & W2 & A). eauto.
      - eexists _, _. split; [reflexivity|]. split; [assumption|apply same_attrs_refl]. }
    destruct P as (h2 & m2 & E2 & W2 & A2). rewrite E2. cbn [bindo].
    rewrite app_length. cbn [length] in *.
    assert (Hp' : nprev nd = hdp ra) by (rewrite Hp; unfold lastp; rewrite rev_involutive; reflexivity).
    destruct ((0 <? count) && (count <=? Z.of_nat (length acc + 1)))%bool eqn:G.
    + assert (K : k = 1%nat) by (subst k; cbn [length]; lia). rewrite K. cbn [firstn skipn].
      exists h2, m2. split; [reflexivity|]. split; [|assumption].
      destruct delete; [assumption|]. cbn [rev]. rewrite <- app_assoc. assumption.
    + rewrite Hp'.
      assert (K : k = S (Nat.min (length ra) (Z.to_nat count - length (acc ++ [x])))).
      { subst k. rewrite app_length. cbn [length]. lia. }
      destruct delete.
      * destruct (IH fuel b h2 m2 (hl ++ [x]) (acc ++ [x])) as (h3 & m3 & E3 & W3 & A3); auto; try lia.
        { rewrite app_length. cbn [length]. lia. }
        exists h3, m3. rewrite E3, K. cbn [firstn skipn]. rewrite <- !app_assoc in *. cbn [app] in *.
        split; [reflexivity|]. split; [assumption|]. eapply same_attrs_trans; eauto.
      * destruct (IH fuel (x :: b) h2 m2 (hl ++ [x]) (acc ++ [x])) as (h3 & m3 & E3 & W3 & A3); auto; try lia.
        { rewrite app_length. cbn [length]. lia. }
        exists h3, m3. rewrite E3, K. cbn [firstn skipn rev]. rewrite <- !app_assoc in *. cbn [app] in *.
        split; [reflexivity|]. split; [assumption|]. eapply same_attrs_trans; eauto.
Qed.

(* ---- insertion ---- *)
Lemma put_at_app p v l1 l2 : p = Z.of_nat (length l1) -> put_at p v (l1 ++ l2) = l1 ++ v :: l2.
Proof.
  intros ->. unfold put_at. rewrite Nat2Z.id, firstn_app, firstn_all, Nat.sub_diag. cbn [firstn].
  rewrite app_nil_r, skipn_app, skipn_all, Nat.sub_diag. reflexivity.
Qed.

Lemma split_at (A : Type) (l : list A) p : 0 <= p <= Z.of_nat (length l) ->
  exists l1 l2, l = l1 ++ l2 /\ p = Z.of_nat (length l1).
Proof.
  intro H. exists (firstn (Z.to_nat p) l), (skipn (Z.to_nat p) l). rewrite firstn_skipn. split; [reflexivity|].
  rewrite firstn_length. lia.
Qed.

Lemma link_put c h m ids hl i p : WF true c h m ids hl [i] -> 0 <= p <= Z.of_nat (length ids) ->
  exists h' m' ids', link space h m p i = Some (h', m') /\ WF true c h' m' ids' hl [] /\ same_attrs m m' /\
    map c ids' = put_at p (c i) (map c ids) /\ incl ids' (i :: ids).
Proof.
  intros W Hp. destruct (split_at _ ids p Hp) as (a & b & -> & E).
  destruct (link_spec _ _ _ _ _ _ _ _ W E) as (h' & m' & E1 & W1 & A1).
  exists h', m', (a ++ i :: b). split; [assumption|]. split; [assumption|]. split; [assumption|].
  split.
  - rewrite !map_app. cbn [map]. rewrite put_at_app; [reflexivity|]. rewrite map_length. assumption.
  - intros j. cbn [In]. rewrite !in_app_iff. cbn [In]. tauto.
Qed.

Lemma removelast_put p v l t : 0 <= p <= Z.of_nat (length l) -> removelast (put_at p v (l ++ [t])) = put_at p v l.
Proof.
  intro H. destruct (split_at _ l p H) as (a & b & -> & E).
  rewrite <- app_assoc, !put_at_app by assumption.
  change (a ++ v :: b ++ [t]) with (a ++ (v :: b) ++ [t]). rewrite app_assoc. apply removelast_last.
Qed.

Lemma tl_put p v l t : 1 <= p <= Z.of_nat (length l) + 1 -> tl (put_at p v (t :: l)) = put_at (p - 1) v l.
Proof.
  intro H. destruct (split_at _ l (p - 1)) as (a & b & -> & E); [lia|].
  change (t :: a ++ b) with ((t :: a) ++ b). rewrite !put_at_app; cbn [length]; [reflexivity|lia|lia].
Qed.

Definition real_cap (maxsz : Z) (m : meta) : Z := if 0 <? mcnt m then mcnt m else maxsz.

Lemma elem_insert_spec c h m ids hl i maxsz index :
  WF true c h m ids hl [i] -> 1 <= real_cap maxsz m -> Z.of_nat (length ids) <= real_cap maxsz m ->
  - 2 ^ 31 < index ->
  let '(cd, l') := insert_result (real_cap maxsz m) (ovfl m) index (c i) (map c ids) in
  exists h' m', elem_insert space h m maxsz index i = Some (h', m', cd) /\
    match cd with
    | Success => exists ids', WF true c h' m' ids' hl [] /\ same_attrs m m' /\ map c ids' = l' /\
                   Z.of_nat (length ids') <= real_cap maxsz m /\ incl ids' (i :: ids)
    | _ => h' = h /\ m' = m /\ l' = map c ids
    end.
Proof.
  intros W Hcap Hlen Hmin. unfold insert_result, elem_insert. fold (real_cap maxsz m).
  set (cap := real_cap maxsz m) in *. set (n := size (map c ids)).
  assert (Hn : n = Z.of_nat (length ids)) by (unfold n, size; rewrite map_length; reflexivity).
  assert (Hcc : ccnt m = n) by (rewrite Hn; apply (w_cnt _ _ _ _ _ _ _ W)).
  clearbody n cap. rewrite Hcc. destruct (Z.eqb_spec index (- 2 ^ 31)); [lia|].
  assert (Eoor : (if 0 <=? index then (n <? index) || (cap - 1 <? index) else (n + 1 <? - index) || (cap <? - index))%bool
     = ((position index n <? 0) || (n <? position index n) || (if 0 <=? index then cap <=? index else cap <? - index))%bool).
  { unfold position. destruct (Z.leb_spec 0 index).
    - destruct (Z.ltb_spec index 0); [lia|]. cbn [orb]. lia.
    - lia. }
  rewrite <- Eoor.
  set (oor := (if 0 <=? index then (n <? index) || (cap - 1 <? index) else (n + 1 <? - index) || (cap <? - index))%bool) in *.
  destruct oor eqn:Oor.
  { exists h, m. auto. }
  assert (Hpos : 0 <= position index n <= n) by lia.
  assert (Hidx : if 0 <=? index then index < cap else - index <= cap) by (destruct (0 <=? index); lia).
  destruct (Z.ltb_spec n cap) as [Hlt|Hge].
  - (* room left *)
    replace (cap <=? n) with false by lia. rewrite andb_false_r. cbn [bindo].
    assert (Ei : (if index <? 0 then if index + (ccnt m + 1) <? 0 then 0 else index + (ccnt m + 1) else index) = position index n).
    { unfold position in *. rewrite Hcc. cbv zeta.
      destruct (Z.ltb_spec index 0), (Z.leb_spec 0 index); try lia.
      destruct (Z.ltb_spec (index + (n + 1)) 0); lia. }
    rewrite Ei. destruct (link_put c h m ids hl i (position index n) W) as (h' & m' & ids' & E & W' & A & M & I); [lia|].
    rewrite E. cbn [bindo]. exists h', m'. split; [reflexivity|]. exists ids'. repeat (split; [assumption|]).
    split; [|assumption].
    apply (f_equal (@length bytes)) in M. rewrite map_length in M. rewrite M.
    destruct (split_at _ (map c ids) (position index n)) as (l1 & l2 & E1 & E2); [rewrite map_length; lia|].
    rewrite E1, put_at_app by assumption. apply (f_equal (@length bytes)) in E1.
    rewrite map_length, app_length in E1. rewrite app_length. cbn [length]. lia.
  - (* full *)
    assert (Hfull : n = cap) by lia.
    replace (cap <=? n) with true by lia. rewrite andb_true_r.
    (* a deletion at either end followed by the link *)
    assert (HEAD : exists t ids1, ids = t :: ids1).
    { destruct ids as [|t ids1]; [cbn in Hn; lia|eauto]. }
    assert (TAIL : exists t ids1, ids = ids1 ++ [t]).
    { destruct ids as [|t ids1 _] using rev_ind; [cbn in Hn; lia|eauto]. }
    assert (DH : exists h1 m1 ids1, elem_delete space h m 0 1 = Some (h1, m1, 1) /\ WF true c h1 m1 ids1 hl [i] /\
        same_attrs m m1 /\ exists t, ids = t :: ids1).
    { destruct HEAD as (t & ids1 & E).
      destruct (elem_delete_spec _ _ _ _ _ _ _ 0 1 W) as (h1 & m1 & E1 & W1 & A1); [lia|lia|].
      change (1 =? 0) with false in *. cbv iota in *.
      replace (Nat.min (length ids - Z.to_nat 0) (Z.to_nat 1)) with 1%nat in * by lia.
      exists h1, m1, ids1. split; [exact E1|]. subst ids. cbn [Z.to_nat firstn app skipn Nat.add] in W1. eauto. }
    assert (DT : exists h1 m1 ids1, elem_delete space h m (n - 1) 1 = Some (h1, m1, 1) /\ WF true c h1 m1 ids1 hl [i] /\
        same_attrs m m1 /\ exists t, ids = ids1 ++ [t]).
    { destruct TAIL as (t & ids1 & E).
      destruct (elem_delete_spec _ _ _ _ _ _ _ (n - 1) 1 W) as (h1 & m1 & E1 & W1 & A1); [lia|lia|].
      change (1 =? 0) with false in *. cbv iota in *.
      replace (Nat.min (length ids - Z.to_nat (n - 1)) (Z.to_nat 1)) with 1%nat in * by lia.
      exists h1, m1, ids1. split; [exact E1|]. subst ids. rewrite app_length in Hn. cbn [length] in Hn.
      replace (Z.to_nat (n - 1)) with (length ids1) in W1 by lia.
      rewrite firstn_app, firstn_all, Nat.sub_diag in W1. cbn [firstn] in W1. rewrite app_nil_r in W1.
      rewrite (skipn_all2 (ids1 ++ [t])) in W1 by (rewrite app_length; cbn [length]; lia).
      rewrite app_nil_r in W1. eauto. }
    assert (FINH : forall h1 m1 ids1 t, WF true c h1 m1 ids1 hl [i] -> same_attrs m m1 -> ids = t :: ids1 ->
       1 <= position index n ->
       exists h2 m2, link space h1 m1 (position index n - 1) i = Some (h2, m2) /\
         exists ids', WF true c h2 m2 ids' hl [] /\ same_attrs m m2 /\
           map c ids' = tl (put_at (position index n) (c i) (map c ids)) /\ Z.of_nat (length ids') <= cap /\ incl ids' (i :: ids)).
    { intros h1 m1 ids1 t W1 A1 E Hp1. subst ids. cbn [length] in Hn.
      destruct (link_put c h1 m1 ids1 hl i (position index n - 1) W1) as (h2 & m2 & ids' & E2 & W2 & A2 & M2 & I2); [lia|].
      exists h2, m2. split; [assumption|]. exists ids'. split; [assumption|].
      split; [eapply same_attrs_trans; eauto|]. cbn [map].
      rewrite tl_put by (rewrite map_length; lia). split; [assumption|].
      split; [|intros j Hj; apply I2 in Hj; cbn in *; tauto].
      apply (f_equal (@length bytes)) in M2. rewrite map_length in M2. rewrite M2.
      destruct (split_at _ (map c ids1) (position index n - 1)) as (l1 & l2 & F1 & F2); [rewrite map_length; lia|].
      rewrite F1, put_at_app by assumption. apply (f_equal (@length bytes)) in F1.
      rewrite map_length, app_length in F1. rewrite app_length. cbn [length]. lia. }
    assert (FINT : forall h1 m1 ids1 t, WF true c h1 m1 ids1 hl [i] -> same_attrs m m1 -> ids = ids1 ++ [t] ->
       position index n <= n - 1 ->
       exists h2 m2, link space h1 m1 (position index n) i = Some (h2, m2) /\
         exists ids', WF true c h2 m2 ids' hl [] /\ same_attrs m m2 /\
           map c ids' = removelast (put_at (position index n) (c i) (map c ids)) /\ Z.of_nat (length ids') <= cap /\ incl ids' (i :: ids)).
    { intros h1 m1 ids1 t W1 A1 E Hp1. subst ids. rewrite app_length in Hn. cbn [length] in Hn.
      destruct (link_put c h1 m1 ids1 hl i (position index n) W1) as (h2 & m2 & ids' & E2 & W2 & A2 & M2 & I2); [lia|].
      exists h2, m2. split; [assumption|]. exists ids'. split; [assumption|].
      split; [eapply same_attrs_trans; eauto|]. rewrite map_app. cbn [map].
      rewrite removelast_put by (rewrite map_length; lia). split; [assumption|].
      split; [|intros j Hj; apply I2 in Hj; cbn in *; rewrite in_app_iff; tauto].
      apply (f_equal (@length bytes)) in M2. rewrite map_length in M2. rewrite M2.
      destruct (split_at _ (map c ids1) (position index n)) as (l1 & l2 & F1 & F2); [rewrite map_length; lia|].
      rewrite F1, put_at_app by assumption. apply (f_equal (@length bytes)) in F1.
      rewrite map_length, app_length in F1. rewrite app_length. cbn [length]. lia. }
    destruct DH as (hh & mh & idh & EH & WH & AH & th & IH).
    destruct DT as (ht & mt & idt & ET & WT & AT & tt & IT).
    assert (CH : ccnt mh = n - 1) by (rewrite (w_cnt _ _ _ _ _ _ _ WH), Hn, IH; cbn [length]; lia).
    assert (CT : ccnt mt = n - 1) by (rewrite (w_cnt _ _ _ _ _ _ _ WT), Hn, IT, app_length; cbn [length]; lia).
    destruct (ovfl m) eqn:OV; [exists h, m; auto| | |];
    cbn [andb]; cbv iota;
    (destruct (Z.eqb_spec index 0) as [E0|E0]; cbn [orb]);
    try (destruct (Z.eqb_spec index (-1)) as [E1|E1]);
    try lia;
    cbv zeta iota;
    rewrite ?EH, ?ET; cbn [bindo]; change (1 =? 1) with true; cbv iota; cbn [bindo];
    rewrite ?CH, ?CT;
    unfold position in *;
    match goal with
      | |- context[link space hh mh ?e i] =>
          destruct (FINH _ _ _ _ WH AH IH) as (h2 & m2 & E2 & R2); [try (destruct (Z.leb_spec 0 index)); lia|];
          replace e with ((if 0 <=? index then index else n + 1 + index) - 1)
            by (destruct (Z.leb_spec 0 index), (Z.ltb_spec 0 index), (Z.ltb_spec index 0); repeat match goal with |- context[?a <? ?b] => destruct (Z.ltb_spec a b) end; lia);
          rewrite E2; cbn [bindo]; exists h2, m2; split; [reflexivity|exact R2]
      | |- context[link space ht mt ?e i] =>
          destruct (FINT _ _ _ _ WT AT IT) as (h2 & m2 & E2 & R2); [try (destruct (Z.leb_spec 0 index)); lia|];
          replace e with (if 0 <=? index then index else n + 1 + index)
            by (destruct (Z.leb_spec 0 index), (Z.ltb_spec 0 index), (Z.ltb_spec index 0); repeat match goal with |- context[?a <? ?b] => destruct (Z.ltb_spec a b) end; lia);
          rewrite E2; cbn [bindo]; exists h2, m2; split; [reflexivity|exact R2]
      end.
Qed.

Lemma efree_spec live c h m ids hl i : WF live c h m ids hl [i] ->
  exists h', efree h i = Some h' /\ WF live c h' m ids hl [] /\ (forall j, h j = None -> h' j = None).
Proof.
  intro W. destruct (w_pend _ _ _ _ _ _ _ W i (or_introl eq_refl)) as (nd & Hi & Nid & Nhl).
  unfold efree. rewrite Hi. cbn [bindo]. rewrite (w_ref _ _ _ _ _ _ _ W _ _ Hi).
  rewrite (proj1 (count_occ_not_In Nat.eq_dec hl i) Nhl).
  eexists; split; [reflexivity|].
  assert (PW : forall j nd, hset h i None j = Some nd -> j <> i /\ h j = Some nd).
  { intros j n. unfold hset. destruct (Nat.eqb_spec i j); [discriminate|]. auto. }
  split; [constructor; try apply W|].
  - intros a y b E. destruct (w_links _ _ _ _ _ _ _ W a y b E) as (n & H1 & H2).
    exists n. rewrite hset_other; [auto|]. intro; subst y. apply Nid. rewrite E. apply in_or_app; right; left; reflexivity.
  - intros j n H. apply PW in H as [_ H]. eapply w_val; eauto.
  - intros j n H. apply PW in H as [_ H]. eapply w_ref; eauto.
  - intros j n H. apply PW in H as [H0 H]. destruct (w_where _ _ _ _ _ _ _ W _ _ H) as [I|(U1 & U2 & [I|[I|[]]])]; auto. congruence.
  - intros j Hj. rewrite hset_other by (intro; subst; tauto). apply (w_held _ _ _ _ _ _ _ W _ Hj).
  - intros j [].
  - intros j Hj. unfold hset. destruct (Nat.eqb i j); auto.
Qed.

Definition cset (c : nat -> bytes) (i : nat) (v : bytes) : nat -> bytes := fun j => if Nat.eqb i j then v else c j.

Lemma map_cset c i v ids : ~ In i ids -> map (cset c i v) ids = map c ids.
Proof.
  intro H. apply map_ext_in. intros j Hj. unfold cset. destruct (Nat.eqb_spec i j); [subst; tauto|reflexivity].
Qed.

Lemma charge_cset c i v ids : ~ In i ids -> charge (cset c i v) ids = charge c ids.
Proof.
  induction ids as [|j ids IH]; intro H; [reflexivity|]. unfold charge in *. cbn [fold_right].
  rewrite IH by (cbn in H; tauto). unfold cset. destruct (Nat.eqb_spec i j); [subst; exfalso; apply H; left; reflexivity|reflexivity].
Qed.

Lemma alloc_WF live c h m ids hl i v : WF live c h m ids hl [] -> h i = None ->
  ~ In i ids /\ ~ In i hl /\
  WF live (cset c i v) (hset h i (Some {| nprev := Unl; nnext := Unl; nval := v; nref := 0 |})) m ids hl [i].
Proof.
  intros W Hi.
  assert (Nid : ~ In i ids).
  { intro K. destruct (links_node _ _ _ (w_links _ _ _ _ _ _ _ W) K) as (nd & H). congruence. }
  assert (Nhl : ~ In i hl) by (intro K; apply (w_held _ _ _ _ _ _ _ W _ K); assumption).
  split; [assumption|]. split; [assumption|].
  constructor; try apply W.
  - intros a y b E. destruct (w_links _ _ _ _ _ _ _ W a y b E) as (n & H1 & H2).
    exists n. rewrite hset_other; [auto|]. intro; subst y. apply Nid. rewrite E. apply in_or_app; right; left; reflexivity.
  - rewrite charge_cset by assumption. apply W.
  - intros j n. unfold hset, cset. destruct (Nat.eqb_spec i j).
    + intro H; inversion H; reflexivity.
    + apply W.
  - intros j n. unfold hset. destruct (Nat.eqb_spec i j).
    + subst j. intro H; inversion H; subst. cbn. symmetry. apply count_occ_not_In. assumption.
    + apply W.
  - intros j n. unfold hset. destruct (Nat.eqb_spec i j).
    + subst j. intro H; inversion H; subst. right. cbn. auto.
    + intro H. destruct (w_where _ _ _ _ _ _ _ W _ _ H) as [I|(U1 & U2 & [I|[]])]; auto.
  - intros j Hj. rewrite hset_other by (intro; subst; tauto). apply (w_held _ _ _ _ _ _ _ W _ Hj).
  - intros j [<-|[]]. rewrite hset_same. eauto.
Qed.

Lemma WF_detach c h m ids hl pend : WF true c h m ids hl pend ->
  WF false c h (with_links m (head m) (tail m) (ccnt m) 0) ids hl pend.
Proof. intro W. constructor; try apply W. reflexivity. Qed.

Lemma drop_list_spec c h m ids hl pend : WF true c h m ids hl pend ->
  exists h' m', drop_list space h m = Some h' /\ WF false c h' m' [] hl pend.
Proof.
  intro W. apply WF_detach in W. unfold drop_list.
  set (m0 := with_links m (head m) (tail m) (ccnt m) 0) in *.
  pose proof (w_cnt _ _ _ _ _ _ _ W) as C.
  destruct (Z.ltb_spec 0 (ccnt m0)).
  - destruct (elem_delete_spec _ _ _ _ _ _ _ 0 0 W) as (h' & m' & E & W' & A); [lia|lia|].
    rewrite E. cbn [bindo]. exists h', m'. split; [reflexivity|].
    change (0 =? 0) with true in W'. cbn [Z.to_nat firstn app] in W'.
    rewrite skipn_all2 in W' by lia. exact W'.
  - assert (ids = []) by (destruct ids; [reflexivity|cbn [length] in C; lia]). subst ids. eauto.
Qed.

Lemma WF_new_meta live c h m hl pend maxsz a : WF live c h m [] hl pend ->
  WF true c h (new_meta maxsz a) [] hl pend.
Proof. intro W. constructor; try apply W; try reflexivity. Qed.

Lemma WF_change_attrs live c h m m' ids hl pend : WF live c h m ids hl pend ->
  head m' = head m -> tail m' = tail m -> ccnt m' = ccnt m -> stotal m' = stotal m ->
  WF live c h m' ids hl pend.
Proof.
  intros W H1 H2 H3 H4. constructor; try apply W.
  - rewrite H1; apply W.
  - rewrite H2; apply W.
  - rewrite H3; apply W.
  - rewrite H4; apply W.
Qed.

(* ---- nothing outside the known addresses is ever touched ---- *)
Definition fresh_ok (h : heap) (n : nat) : Prop := forall i, (n <= i)%nat -> h i = None.

(* live nodes are linked, held or pending, so an address that is none of these is free *)
Lemma WF_free live c h m ids hl pend j : WF live c h m ids hl pend ->
  ~ In j ids -> ~ In j hl -> ~ In j pend -> h j = None.
Proof.
  intros W H1 H2 H3. destruct (h j) as [nd|] eqn:E; [|reflexivity].
  destruct (w_where _ _ _ _ _ _ _ W _ _ E) as [I|(_ & _ & [I|I])]; contradiction.
Qed.

Definition known (ids hl : list nat) (n : nat) : Prop := forall j, In j ids \/ In j hl -> (j < n)%nat.

Lemma WF_known live c h m ids hl n : WF live c h m ids hl [] -> fresh_ok h n -> known ids hl n.
Proof.
  intros W F j [I|I].
  - destruct (links_node _ _ _ (w_links _ _ _ _ _ _ _ W) I) as (nd & H).
    destruct (Nat.lt_ge_cases j n) as [L|L]; [assumption|]. rewrite (F j L) in H. discriminate.
  - destruct (Nat.lt_ge_cases j n) as [L|L]; [assumption|]. exfalso. apply (w_held _ _ _ _ _ _ _ W _ I). auto.
Qed.

Lemma WF_fresh live c h m ids hl n : WF live c h m ids hl [] -> known ids hl n -> fresh_ok h n.
Proof.
  intros W K j L. eapply WF_free; eauto.
  - intro I. specialize (K j (or_introl I)). lia.
  - intro I. specialize (K j (or_intror I)). lia.
Qed.

(* ---- ranges ---- *)
Lemma between_eq l : forall i lo hi,
  between i lo hi l = firstn (Z.to_nat (hi + 1 - Z.max lo i)) (skipn (Z.to_nat (lo - i)) l).
Proof.
  induction l as [|x l IH]; intros i lo hi; cbn [between].
  - rewrite skipn_nil, firstn_nil. reflexivity.
  - destruct (Z.leb_spec lo i).
    + replace (Z.to_nat (lo - i)) with 0%nat by lia. cbn [skipn].
      destruct (Z.leb_spec i hi); cbn [andb].
      * replace (Z.to_nat (hi + 1 - Z.max lo i)) with (S (Z.to_nat (hi + 1 - Z.max lo (i + 1)))) by lia.
        cbn [firstn]. f_equal. rewrite IH. replace (Z.to_nat (lo - (i + 1))) with 0%nat by lia. reflexivity.
      * rewrite IH. replace (Z.to_nat (hi + 1 - Z.max lo i)) with 0%nat by lia.
        replace (Z.to_nat (hi + 1 - Z.max lo (i + 1))) with 0%nat by lia. reflexivity.
    + cbn [andb]. rewrite IH. replace (Z.to_nat (lo - i)) with (S (Z.to_nat (lo - (i + 1)))) by lia.
      cbn [skipn]. f_equal. lia.
Qed.

Lemma outside_eq l : forall i lo hi, lo <= hi ->
  outside i lo hi l = firstn (Z.to_nat (lo - i)) l ++ skipn (Z.to_nat (hi + 1 - i)) l.
Proof.
  induction l as [|x l IH]; intros i lo hi H; cbn [outside].
  - rewrite skipn_nil, firstn_nil. reflexivity.
  - destruct (Z.leb_spec lo i).
    + replace (Z.to_nat (lo - i)) with 0%nat by lia. cbn [firstn app].
      destruct (Z.leb_spec i hi); cbn [andb].
      * rewrite IH by assumption. replace (Z.to_nat (lo - (i + 1))) with 0%nat by lia. cbn [firstn app].
        replace (Z.to_nat (hi + 1 - i)) with (S (Z.to_nat (hi + 1 - (i + 1)))) by lia. reflexivity.
      * rewrite IH by assumption. replace (Z.to_nat (lo - (i + 1))) with 0%nat by lia.
        replace (Z.to_nat (hi + 1 - i)) with 0%nat by lia.
        replace (Z.to_nat (hi + 1 - (i + 1))) with 0%nat by lia. reflexivity.
    + cbn [andb]. rewrite IH by assumption.
      replace (Z.to_nat (lo - i)) with (S (Z.to_nat (lo - (i + 1)))) by lia.
      replace (Z.to_nat (hi + 1 - i)) with (S (Z.to_nat (hi + 1 - (i + 1)))) by lia. reflexivity.
Qed.

(* adjust_range against the positions named by from and to *)
Lemma adjust_range_spec n from to : 0 <= n ->
  let f := from_head from n in let t := from_head to n in
  match adjust_range n from to with
  | None => n = 0 \/ Z.max f t < 0 \/ n <= Z.min f t
  | Some (f', t') =>
      0 < n /\ 0 <= f' < n /\ 0 <= t' < n /\
      Z.min f' t' = Z.max 0 (Z.min f t) /\ Z.max f' t' = Z.min (n - 1) (Z.max f t) /\
      (f <= t -> f' <= t') /\ (t < f -> t' <= f')
  end.
Proof.
  intros Hn f t. unfold adjust_range. fold (from_head from n). fold (from_head to n). fold f t.
  destruct (Z.leb_spec n 0); [left; lia|].
  destruct ((f <? 0) && (t <? 0))%bool eqn:E1; [lia|].
  destruct ((0 <=? f) && (n <=? f) && (n <=? t))%bool eqn:E2; [lia|].
  destruct (Z.ltb_spec f 0), (Z.ltb_spec t 0), (Z.leb_spec n f), (Z.leb_spec n t); cbv zeta; lia.
Qed.

Lemma between_none l lo hi : (size l = 0 \/ hi < 0 \/ size l <= lo) -> between 0 lo hi l = [].
Proof.
  unfold size. intro H. rewrite between_eq, Z.sub_0_r.
  destruct H as [H|[H|H]].
  - destruct l; [|cbn in H; lia]. rewrite skipn_nil, firstn_nil. reflexivity.
  - replace (Z.to_nat (hi + 1 - Z.max lo 0)) with 0%nat by lia. reflexivity.
  - rewrite skipn_all2 by lia. apply firstn_nil.
Qed.

Lemma between_some l lo hi lo' hi' : lo' = Z.max 0 lo -> hi' = Z.min (size l - 1) hi -> lo' <= hi' ->
  between 0 lo hi l = firstn (Z.to_nat (hi' - lo' + 1)) (skipn (Z.to_nat lo') l) /\
  outside 0 lo hi l = firstn (Z.to_nat lo') l ++ skipn (Z.to_nat (hi' + 1)) l /\
  size (between 0 lo hi l) = hi' - lo' + 1 /\ between 0 lo hi l <> [].
Proof.
  unfold size. intros H1 H2 H3.
  assert (B : between 0 lo hi l = firstn (Z.to_nat (hi' - lo' + 1)) (skipn (Z.to_nat lo') l)).
  { rewrite between_eq, Z.sub_0_r. replace (Z.to_nat lo') with (Z.to_nat lo) by lia.
    destruct (Z.le_gt_cases hi (Z.of_nat (length l) - 1)).
    - f_equal. lia.
    - rewrite !firstn_all2; [reflexivity| |]; rewrite skipn_length; lia. }
  assert (L : Z.of_nat (length (between 0 lo hi l)) = hi' - lo' + 1).
  { rewrite B, firstn_length, skipn_length. lia. }
  split; [exact B|]. split; [|split; [exact L|]].
  - rewrite outside_eq by lia. rewrite !Z.sub_0_r. f_equal.
    + f_equal. lia.
    + destruct (Z.le_gt_cases hi (Z.of_nat (length l) - 1)).
      * f_equal. lia.
      * rewrite !skipn_all2 by lia. reflexivity.
  - intro K. rewrite K in L. cbn in L. lia.
Qed.

(* released elements *)
Lemma release_spec live c h m ids hl i : WF live c h m ids (i :: hl) [] ->
  exists nd h2, h i = Some nd /\
   (match pred (nref nd), nnext nd with
    | O, Unl => efree (hset h i (Some {| nprev := nprev nd; nnext := nnext nd; nval := nval nd; nref := pred (nref nd) |})) i
    | _, _ => Some (hset h i (Some {| nprev := nprev nd; nnext := nnext nd; nval := nval nd; nref := pred (nref nd) |}))
    end) = Some h2 /\ WF live c h2 m ids hl [].
Proof.
  intro W. pose proof (w_held _ _ _ _ _ _ _ W i (or_introl eq_refl)) as Hi.
  destruct (h i) as [nd|] eqn:E; [|congruence]. exists nd.
  pose proof (w_ref _ _ _ _ _ _ _ W _ _ E) as R. cbn [count_occ] in R.
  destruct (Nat.eq_dec i i) as [_|]; [|congruence].
  set (nd' := {| nprev := nprev nd; nnext := nnext nd; nval := nval nd; nref := pred (nref nd) |}).
  set (h1 := hset h i (Some nd')).
  assert (R' : nref nd' = count_occ Nat.eq_dec hl i) by (cbn; lia).
  assert (PW : forall j, h1 j = if Nat.eqb i j then Some nd' else h j) by reflexivity.
  assert (L1 : links h1 ids).
  { intros a y b K. destruct (w_links _ _ _ _ _ _ _ W a y b K) as (n & H1 & H2 & H3). rewrite PW.
    destruct (Nat.eqb_spec i y); [|eauto]. subst y. rewrite E in H1. inversion H1; subst. eexists; split; [reflexivity|]. auto. }
  destruct (in_dec Nat.eq_dec i ids) as [I|I].
  - (* still linked *)
    assert (NU : nnext nd <> Unl).
    { apply in_split in I as (a & b & K). destruct (w_links _ _ _ _ _ _ _ W a i b K) as (n & H1 & H2 & H3).
      rewrite E in H1. inversion H1; subst. rewrite H3. apply hdp_not_unl. }
    exists h1. split; [reflexivity|]. split; [destruct (pred (nref nd)), (nnext nd); congruence|].
    constructor; try apply W; [exact L1| | | | |intros j []].
    + intros j n. rewrite PW. destruct (Nat.eqb_spec i j); [subst; intro K; inversion K; subst; cbn; eapply w_val; eauto|apply W].
    + intros j n. rewrite PW. destruct (Nat.eqb_spec i j); [subst; intro K; inversion K; subst; exact R'|].
      intro K. pose proof (w_ref _ _ _ _ _ _ _ W _ _ K) as Q. cbn [count_occ] in Q. destruct (Nat.eq_dec i j); [congruence|exact Q].
    + intros j n. rewrite PW. destruct (Nat.eqb_spec i j); [subst; auto|]. intro K.
      destruct (w_where _ _ _ _ _ _ _ W _ _ K) as [Q|(Q1 & Q2 & [[Q|Q]|[]])]; auto. congruence.
    + intros j Hj. rewrite PW. destruct (Nat.eqb_spec i j); [discriminate|]. apply (w_held _ _ _ _ _ _ _ W). right; assumption.
  - destruct (w_where _ _ _ _ _ _ _ W _ _ E) as [Q|(U1 & U2 & _)]; [contradiction|].
    rewrite U2. destruct (pred (nref nd)) as [|r] eqn:Er.
    + (* freed *)
      exists (hset h1 i None). split; [reflexivity|]. split.
      { unfold efree. subst h1 nd'. rewrite U2. rewrite !hset_same. cbn [bindo nref]. reflexivity. }
      assert (Nh : ~ In i hl) by (apply (count_occ_not_In Nat.eq_dec); lia).
      assert (PW2 : forall j n, hset h1 i None j = Some n -> j <> i /\ h j = Some n).
      { intros j n. unfold hset at 1. destruct (Nat.eqb_spec i j); [discriminate|]. rewrite PW.
        destruct (Nat.eqb_spec i j); [congruence|auto]. }
      constructor; try apply W; [| | | | |intros j []].
      * intros a y b K. assert (y <> i) by (intro; subst; apply I; apply in_or_app; right; left; reflexivity).
        destruct (w_links _ _ _ _ _ _ _ W a y b K) as (n & H1 & H2 & H3). exists n.
        rewrite hset_other by auto. rewrite PW. destruct (Nat.eqb_spec i y); [congruence|auto].
      * intros j n K. apply PW2 in K as [_ K]. eapply w_val; eauto.
      * intros j n K. apply PW2 in K as [K0 K]. pose proof (w_ref _ _ _ _ _ _ _ W _ _ K) as Q.
        cbn [count_occ] in Q. destruct (Nat.eq_dec i j); [congruence|exact Q].
      * intros j n K. apply PW2 in K as [K0 K].
        destruct (w_where _ _ _ _ _ _ _ W _ _ K) as [Q|(Q1 & Q2 & [[Q|Q]|[]])]; auto. congruence.
      * intros j Hj. rewrite hset_other by (intro; subst; contradiction). rewrite PW.
        destruct (Nat.eqb_spec i j); [discriminate|]. apply (w_held _ _ _ _ _ _ _ W). right; assumption.
    + (* others still hold it *)
      exists h1. split; [reflexivity|]. split; [unfold h1, nd'; rewrite U2; reflexivity|].
      constructor; try apply W; [exact L1| | | | |intros j []].
      * intros j n. rewrite PW. destruct (Nat.eqb_spec i j); [subst; intro K; inversion K; subst; cbn; eapply w_val; eauto|apply W].
      * intros j n. rewrite PW. destruct (Nat.eqb_spec i j); [subst; intro K; inversion K; subst; rewrite <- R'; reflexivity|].
        intro K. pose proof (w_ref _ _ _ _ _ _ _ W _ _ K) as Q. cbn [count_occ] in Q. destruct (Nat.eq_dec i j); [congruence|exact Q].
      * intros j n. rewrite PW. destruct (Nat.eqb_spec i j).
        -- subst. intro K; inversion K; subst. cbn. right. split; [assumption|]. split; [assumption|]. left.
           apply (count_occ_In Nat.eq_dec). cbn in R'. lia.
        -- intro K. destruct (w_where _ _ _ _ _ _ _ W _ _ K) as [Q|(Q1 & Q2 & [[Q|Q]|[]])]; auto. congruence.
      * intros j Hj. rewrite PW. destruct (Nat.eqb_spec i j); [discriminate|]. apply (w_held _ _ _ _ _ _ _ W). right; assumption.
Qed.

Lemma WF_perm live c h m ids hl hl' pend : Permutation hl hl' -> WF live c h m ids hl pend -> WF live c h m ids hl' pend.
Proof.
  intros P W.
  assert (PI : forall j, In j hl <-> In j hl').
  { intro j. split; apply Permutation_in; [|symmetry]; assumption. }
  constructor; try apply W.
  - intros i nd K. rewrite <- (proj1 (Permutation_count_occ Nat.eq_dec hl hl') P). eapply w_ref; eauto.
  - intros i nd K. destruct (w_where _ _ _ _ _ _ _ W _ _ K) as [Q|(Q1 & Q2 & [Q|Q])]; auto.
    right. split; [assumption|]. split; [assumption|]. left. apply PI. assumption.
  - intros i K. apply (w_held _ _ _ _ _ _ _ W). apply PI. assumption.
  - intros i K. destruct (w_pend _ _ _ _ _ _ _ W _ K) as (nd & Q1 & Q2 & Q3). exists nd. rewrite <- PI. auto.
Qed.

Lemma nth_error_cut (A : Type) (l : list A) k x : nth_error l k = Some x -> l = firstn k l ++ x :: skipn (S k) l.
Proof.
  revert k. induction l as [|y l IH]; intros [|k]; cbn [nth_error]; try discriminate.
  - intro H. inversion H. reflexivity.
  - intro H. cbn [firstn app]. f_equal. apply IH. assumption.
Qed.

End S.
