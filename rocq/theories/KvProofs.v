(* Invariants of the key-value engine model. *)
From Coq Require Import Sorted.
From Verif Require Import Base UtilModel UtilSpec KvModel.
Open Scope Z_scope.
Set Default Proof Using "Type".

(* ---------- lists ---------- *)
Lemma filter_ne_in (l : list nat) i j : In j (filter (fun x => negb (Nat.eqb x i)) l) <-> In j l /\ j <> i.
Proof. rewrite filter_In, negb_true_iff, Nat.eqb_neq. reflexivity. Qed.

Lemma filter_ne_split l1 l2 i : NoDup (l1 ++ i :: l2) ->
  filter (fun x => negb (Nat.eqb x i)) (l1 ++ i :: l2) = l1 ++ l2.
Proof.
  intro ND. apply NoDup_remove in ND as [_ NI].
  rewrite filter_app. cbn [filter]. rewrite Nat.eqb_refl. cbn [negb].
  assert (K : forall l, ~ In i l -> filter (fun x => negb (Nat.eqb x i)) l = l).
  { induction l as [|x l IH]; intro H; [reflexivity|]. cbn [filter].
    destruct (Nat.eqb_spec x i) as [->|N]; [exfalso; apply H; left; reflexivity|].
    cbn [negb]. f_equal. apply IH. intro; apply H; right; assumption. }
  rewrite !K; [reflexivity| |]; intro; apply NI, in_or_app; auto.
Qed.

Lemma NoDup_filter {A} (f : A -> bool) l : NoDup l -> NoDup (filter f l).
Proof.
  induction 1 as [|x l N ND IH]; cbn [filter]; [constructor|].
  destruct (f x); [constructor; [intro H; apply filter_In in H as [H _]; tauto|]|]; assumption.
Qed.

Lemma SSorted_filter {A} (R : A -> A -> Prop) f l : StronglySorted R l -> StronglySorted R (filter f l).
Proof.
  induction 1 as [|x l S IH F]; cbn [filter]; [constructor|].
  destruct (f x); [constructor|]; try assumption.
  apply Forall_forall. intros y H. apply filter_In in H as [H _]. rewrite Forall_forall in F. auto.
Qed.

Lemma SSorted_ext {A} (R R' : A -> A -> Prop) l : StronglySorted R l ->
  (forall x y, In x l -> In y l -> R x y -> R' x y) -> StronglySorted R' l.
Proof.
  induction 1 as [|x l S IH F]; intro H; constructor.
  - apply IH. intros a b Ha Hb. apply H; right; assumption.
  - rewrite Forall_forall in *. intros y Hy. apply H; [left; reflexivity|right; assumption|auto].
Qed.

Lemma prev_in_cons a b r i : prev_in (a :: b :: r) i = if Nat.eqb b i then Some a else prev_in (b :: r) i.
Proof. reflexivity. Qed.

Lemma prev_in_notin l i : ~ In i (tl l) -> prev_in l i = None.
Proof.
  induction l as [|a [|b r] IH]; try reflexivity. intro H. rewrite prev_in_cons.
  destruct (Nat.eqb_spec b i) as [->|N]; [exfalso; apply H; left; reflexivity|].
  apply IH. intro K. apply H. right. exact K.
Qed.

Lemma prev_split l i : NoDup l -> In i l ->
  (prev_in l i = None /\ exists r, l = i :: r) \/
  exists a l1 l2, prev_in l i = Some a /\ l = l1 ++ a :: i :: l2.
Proof.
  induction l as [|a r IH]; intros ND H; [destruct H|].
  destruct (Nat.eq_dec a i) as [->|N].
  - left. split; [|eauto]. apply prev_in_notin. inversion ND; assumption.
  - destruct H as [H|H]; [congruence|]. destruct r as [|b r]; [destruct H|].
    rewrite prev_in_cons. destruct (Nat.eqb_spec b i) as [->|Nb].
    + right. exists a, [], r. split; reflexivity.
    + inversion ND; subst. destruct (IH H3 H) as [[_ [r' E]]|[x [l1 [l2 [E1 E2]]]]].
      * injection E as E _. contradiction.
      * right. exists x, (a :: l1), l2. split; [exact E1|]. rewrite E2. reflexivity.
Qed.

Lemma prev_in_In l i a : prev_in l i = Some a -> In a l.
Proof.
  induction l as [|x [|b r] IH]; cbn [prev_in]; try discriminate.
  destruct (Nat.eqb b i); [injection 1 as ->; left; reflexivity|].
  intro H. right. apply IH. exact H.
Qed.

Lemma prev_in_ne l i a : NoDup l -> prev_in l i = Some a -> a <> i.
Proof.
  intros ND H. induction l as [|x [|b r] IH]; cbn [prev_in] in H; try discriminate.
  inversion ND; subst.
  destruct (Nat.eqb_spec b i) as [->|N]; [injection H as ->; intros ->; apply H2; left; reflexivity|].
  apply IH; assumption.
Qed.

(* ---------- LRU markers ---------- *)
Definition at_or_above (l : list nat) (b a : nat) : Prop :=
  exists l1 l2, l = l1 ++ b :: l2 /\ In a (b :: l2).

(* lowMK is never above curMK, and exists whenever curMK does *)
Definition mk_ok (l : list nat) (lo cu : option nat) : Prop :=
  match lo, cu with
  | None, None => True
  | Some a, None => In a l
  | Some a, Some b => at_or_above l b a
  | None, Some _ => False
  end.

Lemma aoa_in l b a : at_or_above l b a -> In a l /\ In b l.
Proof.
  intros [l1 [l2 [-> H]]]. split; apply in_or_app; right; [exact H|left; reflexivity].
Qed.

Lemma aoa_refl l a : In a l -> at_or_above l a a.
Proof. intro H. apply in_split in H as [l1 [l2 ->]]. exists l1, l2. split; [reflexivity|left; reflexivity]. Qed.

Lemma aoa_cons x l b a : at_or_above l b a -> at_or_above (x :: l) b a.
Proof. intros [l1 [l2 [-> H]]]. exists (x :: l1), l2. split; [reflexivity|exact H]. Qed.

Lemma NoDup_app_l {A} (l1 l2 : list A) : NoDup (l1 ++ l2) -> NoDup l1.
Proof. induction l1; cbn; intro H; [constructor|]. inversion H; subst. constructor; [|auto]. intro; apply H2, in_or_app; auto. Qed.

Lemma split_unique (i : nat) l1 l2 l3 l4 : NoDup (l1 ++ i :: l2) ->
  l1 ++ i :: l2 = l3 ++ i :: l4 -> l1 = l3 /\ l2 = l4.
Proof.
  revert l3. induction l1 as [|x l1 IH]; intros [|y l3] ND E; cbn in *.
  - injection E as ->. auto.
  - injection E as -> E. exfalso. inversion ND; subst. apply H1. apply in_or_app; right; left; reflexivity.
  - injection E as -> E. exfalso. inversion ND; subst. apply H1. apply in_or_app; right; left; reflexivity.
  - injection E as -> E. inversion ND; subst. destruct (IH _ H2 E) as [-> ->]. auto.
Qed.

(* moving the upper mark up *)
Lemma aoa_prev l b a x : NoDup l -> at_or_above l b a -> prev_in l b = Some x -> at_or_above l x a.
Proof.
  intros ND [l1 [l2 [E H]]] P. assert (Hb : In b l) by (rewrite E; apply in_or_app; right; left; reflexivity).
  destruct (prev_split l b ND Hb) as [[P' _]|[y [m1 [m2 [P' E']]]]]; [congruence|].
  rewrite P in P'. injection P' as <-.
  assert (Q : l1 = m1 ++ [x] /\ l2 = m2).
  { apply (split_unique b); [rewrite <- E; exact ND|]. rewrite <- E, E', <- app_assoc. reflexivity. }
  destruct Q as [-> ->]. exists m1, (b :: m2). split; [exact E'|right; exact H].
Qed.

(* moving the lower mark up *)
Lemma aoa_prev_low l b a : NoDup l -> at_or_above l b a -> a <> b ->
  exists x, prev_in l a = Some x /\ at_or_above l b x.
Proof.
  intros ND [l1 [l2 [E H]]] N. destruct H as [H|H]; [congruence|].
  apply in_split in H as [m1 [m2 ->]].
  destruct (prev_split l a ND) as [[_ [r E']]|[y [k1 [k2 [P E']]]]].
  - rewrite E. apply in_or_app. right. right. apply in_or_app. right. left. reflexivity.
  - exfalso. rewrite E in E', ND. destruct l1 as [|z l1]; cbn in *.
    + injection E' as E' _. congruence.
    + injection E' as -> _. inversion ND; subst. apply H1.
      apply in_or_app; right; right; apply in_or_app; right; left; reflexivity.
  - exists y. split; [exact P|].
    assert (Q : (l1 ++ b :: m1) = k1 ++ [y] /\ m2 = k2).
    { apply (split_unique a). rewrite <- app_assoc; cbn; rewrite <- E; exact ND.
      rewrite <- !app_assoc. cbn. rewrite <- E. exact E'. }
    destruct Q as [Q _]. exists l1, (m1 ++ a :: m2). split; [exact E|].
    destruct m1 as [|z m1] using rev_ind.
    + apply app_inj_tail in Q as [_ ->]. left. reflexivity.
    + rewrite app_comm_cons, app_assoc in Q. apply app_inj_tail in Q as [_ ->].
      right. apply in_or_app; left; apply in_or_app; right; left; reflexivity.
Qed.

Lemma aoa_remove l b a i : NoDup l -> at_or_above l b a -> a <> i -> b <> i ->
  at_or_above (filter (fun x => negb (Nat.eqb x i)) l) b a.
Proof.
  intros ND [l1 [l2 [-> H]]] Na Nb.
  exists (filter (fun x => negb (Nat.eqb x i)) l1), (filter (fun x => negb (Nat.eqb x i)) l2).
  rewrite filter_app. cbn [filter]. destruct (Nat.eqb_spec b i) as [E|_]; [contradiction|].
  split; [reflexivity|]. destruct H as [H|H]; [left; exact H|right]. apply filter_ne_in. auto.
Qed.

Lemma mk_unlink l i lo cu : NoDup l -> In i l -> mk_ok l lo cu ->
  let p := prev_in l i in
  let lo' := if onat_eqb lo (Some i) then p else lo in
  let cu' := if onat_eqb cu (Some i) then match p with Some _ => p | None => lo' end else cu in
  mk_ok (filter (fun x => negb (Nat.eqb x i)) l) lo' cu'.
Proof.
  intros ND Hi M p lo' cu'.
  assert (Pin : forall x, p = Some x -> In x (filter (fun x => negb (Nat.eqb x i)) l)).
  { intros x E. apply filter_ne_in. split; [eapply prev_in_In; eassumption|eapply prev_in_ne; eassumption]. }
  destruct lo as [a|], cu as [b|]; cbn [mk_ok] in M; try contradiction; cbn [onat_eqb] in lo', cu'.
  - destruct (Nat.eqb_spec a i) as [->|Na], (Nat.eqb_spec b i) as [->|Nb]; subst lo' cu'.
    + destruct p as [x|] eqn:P; cbn [mk_ok]; [|exact I]. apply aoa_refl. auto.
    + destruct (aoa_prev_low l b i ND M ltac:(congruence)) as [x [P A]].
      fold p in P. rewrite P. cbn [mk_ok]. apply aoa_remove; [exact ND|exact A| |exact Nb].
      eapply prev_in_ne; eassumption.
    + destruct p as [x|] eqn:P; cbn [mk_ok].
      * apply aoa_remove; [exact ND|eapply aoa_prev; eassumption|exact Na|eapply prev_in_ne; eassumption].
      * apply aoa_refl. apply filter_ne_in. split; [apply aoa_in in M; tauto|exact Na].
    + cbn [mk_ok]. apply aoa_remove; assumption.
  - subst cu'. destruct (Nat.eqb_spec a i) as [->|Na]; subst lo'.
    + destruct p as [x|] eqn:P; cbn [mk_ok]; [auto|exact I].
    + cbn [mk_ok]. apply filter_ne_in. auto.
  - subst lo' cu'. exact I.
Qed.

(* ---------- state accessors ---------- *)
Definition time_of (s : state) (i : nat) : Z := match items s i with Some it => itime it | None => 0 end.

Lemma fset_same {A} (f : nat -> A) k x : fset f k x k = x.
Proof. unfold fset. rewrite Nat.eqb_refl. reflexivity. Qed.
Lemma fset_other {A} (f : nat -> A) k x j : j <> k -> fset f k x j = f j.
Proof. intro H. unfold fset. apply Nat.eqb_neq in H. rewrite H. reflexivity. Qed.

Lemma tfind_In k i t : tfind k t = Some i -> In (k, i) t.
Proof.
  induction t as [|[k' i'] t IH]; cbn [tfind]; [discriminate|].
  destruct (beqb_spec k k') as [->|N]; [injection 1 as ->; left; reflexivity|right; auto].
Qed.
Lemma tfind_None k t : tfind k t = None <-> ~ In k (map fst t).
Proof.
  induction t as [|[k' i'] t IH]; cbn [tfind map fst In]; [tauto|].
  destruct (beqb_spec k k') as [->|N]; [split; [discriminate|tauto]|].
  rewrite IH. split; [intros H [E|E]; [congruence|tauto]|tauto].
Qed.
Lemma In_tfind k i t : NoDup (map fst t) -> In (k, i) t -> tfind k t = Some i.
Proof.
  induction t as [|[k' i'] t IH]; cbn [tfind map fst]; intros ND H; [destruct H|].
  inversion ND; subst. destruct H as [H|H].
  - injection H as -> ->. rewrite beqb_refl. reflexivity.
  - destruct (beqb_spec k k') as [->|N]; [|auto].
    exfalso. apply H2. apply in_map_iff. exists (k', i). auto.
Qed.
Lemma In_tdel k e t : In e (tdel k t) <-> In e t /\ fst e <> k.
Proof.
  unfold tdel. rewrite filter_In, negb_true_iff, beqb_neq. intuition congruence.
Qed.
Lemma tdel_NoDup k t : NoDup (map fst t) -> NoDup (map fst (tdel k t)).
Proof.
  induction t as [|[k' i'] t IH]; cbn [tdel filter map fst]; intro ND; [constructor|].
  inversion ND; subst. destruct (beqb k k'); cbn [negb]; [apply IH; assumption|].
  cbn [map fst]. constructor; [|apply IH; assumption].
  intro H. apply in_map_iff in H as [[a b] [E H]]. cbn in E. subst a.
  apply In_tdel in H as [H _]. apply H1. apply in_map_iff. exists (k', b). auto.
Qed.

Section P.
Variable lru_class : bool -> bytes -> bytes -> nat.
Variable maxcls : nat.

Notation cls := (KvModel.cls lru_class maxcls).
Notation link_q := (KvModel.link_q lru_class maxcls).
Notation unlink_q := (KvModel.unlink_q lru_class maxcls).
Notation unlink := (KvModel.unlink lru_class maxcls).
Notation attach := (KvModel.attach lru_class maxcls).
Notation link := (KvModel.link lru_class maxcls).
Notation replace := (KvModel.replace lru_class maxcls).
Notation update := (KvModel.update lru_class maxcls).
Notation do_get := (KvModel.do_get lru_class maxcls).
Notation release := (KvModel.release lru_class maxcls).

Record Core (s : state) : Prop := {
  c_bad : bad s = false;
  c_next : forall i, (next_id s <= i)%nat -> items s i = None;
  c_nd : NoDup (map fst (table s));
  c_tab : forall k i, In (k, i) (table s) <->
            exists it, items s i = Some it /\ ilinked it = true /\ ikey it = k;
  c_lnd : forall b c, NoDup (lru s b c);
  c_lru : forall b c i, In i (lru s b c) <->
            exists it, items s i = Some it /\ inlru it = true /\ is_sticky it = b /\ cls it = c;
  c_il : forall i it, items s i = Some it -> inlru it = true -> ilinked it = true;
  c_srt : forall b c, StronglySorted (fun i j => time_of s j <= time_of s i) (lru s b c);
  c_tm : forall i it, items s i = Some it -> ilinked it = true -> itime it <= now s;
  c_mk : forall c, mk_ok (lru s false c) (lowmk s c) (curmk s c);
  c_smk : forall c i, smk s c = Some i -> In i (lru s true c);
  c_crlf : forall i it, items s i = Some it -> icoll it = false -> exists v, idata it = v ++ [13; 10]%N;
  c_casb : forall i it, items s i = Some it -> ilinked it = true -> (0 < icas it <= casid s)%N;
  c_cas : forall i j a b, items s i = Some a -> items s j = Some b ->
            ilinked a = true -> ilinked b = true -> icas a = icas b -> i = j }.

(* fields Core does not mention *)
Lemma core_frame s s' : Core s ->
  bad s' = bad s -> next_id s' = next_id s -> items s' = items s -> table s' = table s ->
  lru s' = lru s -> lowmk s' = lowmk s -> curmk s' = curmk s -> smk s' = smk s ->
  now s <= now s' -> (casid s <= casid s')%N -> Core s'.
Proof.
  intros C E1 E2 E3 E4 E5 E6 E7 E8 E9 E10. destruct C.
  split; try rewrite E1; try rewrite E2; try rewrite E3; try rewrite E4; try rewrite E5;
    try rewrite E6; try rewrite E7; try rewrite E8; try assumption.
  - intros b c. specialize (c_srt0 b c). eapply SSorted_ext; [exact c_srt0|].
    intros x y _ _. unfold time_of. rewrite E3. auto.
  - intros i it H L. specialize (c_tm0 _ _ H L). lia.
  - intros i it H L. specialize (c_casb0 _ _ H L). lia.
Qed.

(* one item changes in a way the tables do not notice *)
Lemma core_upd s i it it' : Core s -> items s i = Some it ->
  ikey it' = ikey it -> idata it' = idata it -> icoll it' = icoll it ->
  ilinked it' = ilinked it -> inlru it' = inlru it -> 
  (inlru it = true -> is_sticky it' = is_sticky it) ->
  (ilinked it = true -> icas it' = icas it) ->
  (itime it' = itime it \/ inlru it = false /\ itime it' <= now s) ->
  Core (set_item s i it').
Proof.
  intros C Hi Ek Ed Ec El Eq Es Ecas Et. pose proof C as C0. destruct C.
  assert (Ecl : cls it' = cls it) by (unfold KvModel.cls; rewrite Ek, Ed, Ec; reflexivity).
  split; cbn [set_item w_items bad next_id items table lru lowmk curmk smk now casid]; try assumption.
  - intros j H. destruct (Nat.eq_dec j i) as [->|N]; [rewrite (c_next0 _ H) in Hi; discriminate|].
    rewrite fset_other; auto.
  - intros k j. rewrite c_tab0. destruct (Nat.eq_dec j i) as [->|N].
    + rewrite fset_same. split; intros [x [H1 [H2 H3]]].
      * rewrite Hi in H1. injection H1 as <-. exists it'. rewrite El, Ek. auto.
      * injection H1 as <-. exists it. rewrite <- El, <- Ek. auto.
    + rewrite fset_other by exact N. reflexivity.
  - intros b c j. rewrite c_lru0. destruct (Nat.eq_dec j i) as [->|N].
    + rewrite fset_same. split; intros [x [H1 [H2 [H3 H4]]]].
      * rewrite Hi in H1. injection H1 as <-. exists it'. rewrite Eq, Ecl, Es by exact H2. auto.
      * injection H1 as <-. exists it. rewrite Eq in H2. rewrite Es in H3 by exact H2. rewrite <- Ecl. auto.
    + rewrite fset_other by exact N. reflexivity.
  - intros j x H. destruct (Nat.eq_dec j i) as [->|N].
    + rewrite fset_same in H. injection H as <-. rewrite Eq, El. eauto.
    + rewrite fset_other in H by exact N. eauto.
  - intros b c. eapply SSorted_ext; [apply c_srt0|]. intros x y Hx Hy.
    assert (K : forall z, In z (lru s b c) ->
              time_of (set_item s i it') z = time_of s z).
    { intros z Hz. unfold time_of. cbn [set_item w_items items].
      destruct (Nat.eq_dec z i) as [->|N]; [|rewrite fset_other by exact N; reflexivity].
      rewrite fset_same, Hi. destruct Et as [Et|[Et _]]; [exact Et|].
      apply c_lru0 in Hz as [w [H1 [H2 _]]]. rewrite Hi in H1. injection H1 as <-. congruence. }
    unfold set_item in K. rewrite !K by assumption. auto.
  - intros j x H L. destruct (Nat.eq_dec j i) as [->|N].
    + rewrite fset_same in H. injection H as <-. destruct Et as [->|[_ Et]]; [|exact Et].
      apply (c_tm0 _ _ Hi). congruence.
    + rewrite fset_other in H by exact N. eauto.
  - intros j x H. destruct (Nat.eq_dec j i) as [->|N].
    + rewrite fset_same in H. injection H as <-. rewrite Ed, Ec. eauto.
    + rewrite fset_other in H by exact N. eauto.
  - intros j x H L. destruct (Nat.eq_dec j i) as [->|N].
    + rewrite fset_same in H. injection H as <-. rewrite El in L. rewrite Ecas by exact L. eauto.
    + rewrite fset_other in H by exact N. eauto.
  - assert (K : forall j x, fset (items s) i (Some it') j = Some x -> ilinked x = true ->
                exists y, items s j = Some y /\ ilinked y = true /\ icas y = icas x).
    { intros j x H L. destruct (Nat.eq_dec j i) as [->|N].
      - rewrite fset_same in H. injection H as <-. rewrite El in L. exists it. rewrite Ecas by exact L. auto.
      - rewrite fset_other in H by exact N. eauto. }
    intros j k a b Ha Hb La Lb E. destruct (K _ _ Ha La) as [a' [A1 [A2 A3]]].
    destruct (K _ _ Hb Lb) as [b' [B1 [B2 B3]]]. eapply c_cas0; eauto. congruence.
Qed.

Lemma put_lru_same s b c l : lru (put_lru s b c l) b c = l.
Proof. unfold put_lru. cbn. rewrite Bool.eqb_reflx, Nat.eqb_refl. reflexivity. Qed.
Lemma put_lru_other s b c l b' c' : (b', c') <> (b, c) -> lru (put_lru s b c l) b' c' = lru s b' c'.
Proof.
  intro N. unfold put_lru. cbn. destruct (Bool.eqb_spec b' b) as [->|]; [|reflexivity].
  destruct (Nat.eqb_spec c' c) as [->|]; [congruence|reflexivity].
Qed.
Lemma bc_dec (b b' : bool) (c c' : nat) : {(b', c') = (b, c)} + {(b', c') <> (b, c)}.
Proof. decide equality; [apply Nat.eq_dec|apply Bool.bool_dec]. Qed.

(* ---- item_link_q ---- *)
Lemma link_q_spec s i it : Core s -> items s i = Some it -> inlru it = false -> ilinked it = true ->
  itime it = now s ->
  Core (link_q s i) /\ items (link_q s i) = fset (items s) i (Some (set_inlru it true)).
Proof.
  intros C Hi Hq Hl Ht. unfold KvModel.link_q. rewrite Hi, Hq.
  set (b := is_sticky it). set (c := cls it).
  set (s1 := if negb b && (0 <? iexp it) then _ else s).
  assert (E1 : bad s1 = bad s /\ next_id s1 = next_id s /\ items s1 = items s /\ table s1 = table s /\
               lru s1 = lru s /\ smk s1 = smk s /\ now s1 = now s /\ casid s1 = casid s).
  { subst s1. destruct (negb b && (0 <? iexp it)); [destruct (lowmk s c)|]; repeat split. }
  destruct E1 as (Eb & En & Ei & Et & El & Es & Eno & Ec).
  assert (EI : items (put_lru (set_item s1 i (set_inlru it true)) b c (i :: lru s b c))
               = fset (items s) i (Some (set_inlru it true))).
  { cbn. rewrite Ei. reflexivity. }
  split; [|exact EI].
  assert (LR : forall b' c', lru (put_lru (set_item s1 i (set_inlru it true)) b c (i :: lru s b c)) b' c' =
               if bc_dec b b' c c' then i :: lru s b c else lru s b' c').
  { intros b' c'. destruct (bc_dec b b' c c') as [E|N].
    - injection E as -> ->. apply put_lru_same.
    - rewrite put_lru_other by exact N. cbn. rewrite El. reflexivity. }
  assert (NI : forall b' c', ~ In i (lru s b' c')).
  { intros b' c' H. apply (c_lru _ C) in H as [x [H1 [H2 _]]]. rewrite Hi in H1. injection H1 as <-. congruence. }
  assert (TO : forall j, time_of (put_lru (set_item s1 i (set_inlru it true)) b c (i :: lru s b c)) j = time_of s j).
  { intro j. unfold time_of. rewrite EI. destruct (Nat.eq_dec j i) as [->|N].
    - rewrite fset_same, Hi. reflexivity.
    - rewrite fset_other by exact N. reflexivity. }
  assert (MK : forall c', mk_ok (if bc_dec b false c c' then i :: lru s b c else lru s false c')
                (lowmk s1 c') (curmk s1 c')).
  { intro c'. pose proof (c_mk _ C c') as M. subst s1. destruct (bc_dec b false c c') as [E|N].
    - assert (c' = c) by congruence. assert (Bf : b = false) by congruence. subst c'. rewrite Bf in *.
      cbn [negb andb]. destruct (0 <? iexp it).
      + destruct (lowmk s c) as [a|] eqn:LM.
        * cbn [w_lowmk w_curmk lowmk curmk]. rewrite LM. try rewrite LM in M.
          destruct (curmk s c); cbn [mk_ok] in *; [apply aoa_cons; exact M|right; exact M].
        * cbn [w_lowmk w_curmk lowmk curmk]. rewrite !fset_same. cbn [mk_ok]. apply aoa_refl. left. reflexivity.
      + destruct (lowmk s c), (curmk s c); cbn [mk_ok] in *; auto; [apply aoa_cons; exact M|right; exact M].
    - destruct (negb b && (0 <? iexp it)) eqn:Q; [|exact M].
      destruct (lowmk s c) as [a|] eqn:LM; [exact M|].
      cbn [w_lowmk w_curmk lowmk curmk]. apply andb_prop in Q as [Q _]. destruct b; [discriminate|].
      assert (c' <> c) by congruence. rewrite !fset_other by assumption. exact M. }
  pose proof C as C0. destruct C0.
  split.
  - cbn. rewrite Eb. assumption.
  - intros j H. cbn in H. rewrite En in H. rewrite EI. destruct (Nat.eq_dec j i) as [->|N].
    + rewrite (c_next0 _ H) in Hi. discriminate.
    + rewrite fset_other by exact N. auto.
  - cbn. rewrite Et. assumption.
  - intros k j. replace (table (put_lru (set_item s1 i (set_inlru it true)) b c (i :: lru s b c))) with (table s) by (cbn; congruence).
    rewrite EI, c_tab0. destruct (Nat.eq_dec j i) as [->|N].
    + rewrite fset_same, Hi. split; intros [x [H1 H2]]; injection H1 as <-; eexists; split; try reflexivity; exact H2.
    + rewrite fset_other by exact N. reflexivity.
  - intros b' c'. rewrite LR. destruct (bc_dec b b' c c'); [constructor; [apply NI|]|]; apply c_lnd0.
  - intros b' c' j. rewrite LR, EI. destruct (Nat.eq_dec j i) as [->|N].
    + rewrite fset_same. destruct (bc_dec b b' c c') as [E|Ne].
      * injection E as -> ->. split; [intros _|left; reflexivity]. eexists. repeat split; reflexivity.
      * split; [intro H; exfalso; eapply NI; exact H|]. intros [x [H1 [H2 [H3 H4]]]]. injection H1 as <-.
        exfalso. apply Ne. rewrite <- H3, <- H4. reflexivity.
    + rewrite fset_other by exact N. destruct (bc_dec b b' c c') as [E|Ne].
      * injection E as -> ->. cbn [In]. rewrite c_lru0. intuition congruence.
      * apply c_lru0.
  - intros j x H. rewrite EI in H. destruct (Nat.eq_dec j i) as [->|N].
    + rewrite fset_same in H. injection H as <-. intros _. exact Hl.
    + rewrite fset_other in H by exact N. eauto.
  - intros b' c'. rewrite LR. destruct (bc_dec b b' c c').
    + constructor.
      * eapply SSorted_ext; [apply c_srt0|]. intros. rewrite !TO. assumption.
      * apply Forall_forall. intros j Hj. rewrite !TO. unfold time_of at 2. rewrite Hi, Ht.
        apply c_lru0 in Hj as [x [H1 [H2 _]]]. unfold time_of. rewrite H1. eauto.
    + eapply SSorted_ext; [apply c_srt0|]. intros. rewrite !TO. assumption.
  - intros j x H. rewrite EI in H. replace (now (put_lru (set_item s1 i (set_inlru it true)) b c (i :: lru s b c))) with (now s) by (cbn; congruence).
    destruct (Nat.eq_dec j i) as [->|N].
    + rewrite fset_same in H. injection H as <-. cbn. lia.
    + rewrite fset_other in H by exact N. eauto.
  - intro c'. rewrite LR. apply MK.
  - intros c' j H. replace (smk (put_lru (set_item s1 i (set_inlru it true)) b c (i :: lru s b c))) with (smk s) in H by (cbn; congruence).
    rewrite LR. apply c_smk0 in H. destruct (bc_dec b true c c') as [E|]; [|exact H]. injection E as <- <-. right. exact H.
  - intros j x H. rewrite EI in H. destruct (Nat.eq_dec j i) as [->|N].
    + rewrite fset_same in H. injection H as <-. cbn. eauto.
    + rewrite fset_other in H by exact N. eauto.
  - intros j x H L. rewrite EI in H. replace (casid (put_lru (set_item s1 i (set_inlru it true)) b c (i :: lru s b c))) with (casid s) by (cbn; congruence).
    destruct (Nat.eq_dec j i) as [->|N].
    + rewrite fset_same in H. injection H as <-. cbn. eauto.
    + rewrite fset_other in H by exact N. eauto.
  - assert (K : forall j x, fset (items s) i (Some (set_inlru it true)) j = Some x ->
                exists y, items s j = Some y /\ ilinked y = ilinked x /\ icas y = icas x).
    { intros j x H. destruct (Nat.eq_dec j i) as [->|N].
      - rewrite fset_same in H. injection H as <-. exists it. auto.
      - rewrite fset_other in H by exact N. eauto. }
    intros j k x y Hx Hy Lx Ly E. rewrite EI in Hx, Hy. destruct (K _ _ Hx) as [x' [A1 [A2 A3]]].
    destruct (K _ _ Hy) as [y' [B1 [B2 B3]]]. eapply c_cas0; eauto; congruence.
Qed.

(* ---- item_unlink_q ---- *)
Lemma unlink_q_spec s i it : Core s -> items s i = Some it ->
  Core (unlink_q s i) /\ items (unlink_q s i) = (if inlru it then fset (items s) i (Some (set_inlru it false)) else items s) /\
  (forall b c, lru (unlink_q s i) b c = filter (fun j => negb (Nat.eqb j i)) (lru s b c)).
Proof.
  intros C Hi. unfold KvModel.unlink_q. rewrite Hi. destruct (inlru it) eqn:Hq; cbn [negb].
  2:{ split; [exact C|]. split; [reflexivity|]. intros b c.
      assert (NI : ~ In i (lru s b c)).
      { intro H. apply (c_lru _ C) in H as [x [H1 [H2 _]]]. rewrite Hi in H1. injection H1 as <-. congruence. }
      induction (lru s b c) as [|x l IH]; [reflexivity|]. cbn [filter].
      destruct (Nat.eqb_spec x i) as [->|N]; [exfalso; apply NI; left; reflexivity|].
      cbn [negb]. f_equal. apply IH. intro; apply NI; right; assumption. }
  set (b := is_sticky it). set (c := cls it).
  assert (Hin : In i (lru s b c)).
  { apply (c_lru _ C). exists it. auto. }
  assert (OnlyHere : forall b' c', In i (lru s b' c') -> (b', c') = (b, c)).
  { intros b' c' H. apply (c_lru _ C) in H as [x [H1 [H2 [H3 H4]]]]. rewrite Hi in H1. injection H1 as <-.
    rewrite <- H3, <- H4. reflexivity. }
  replace (existsb (Nat.eqb i) (lru s b c)) with true
    by (symmetry; apply existsb_exists; exists i; split; [exact Hin|apply Nat.eqb_refl]).
  cbn [negb].
  set (l := lru s b c) in *. set (p := prev_in l i).
  set (lo := if onat_eqb (lowmk s c) (Some i) then p else lowmk s c).
  set (s1 := if b then _ else _).
  assert (E1 : bad s1 = bad s /\ next_id s1 = next_id s /\ items s1 = items s /\ table s1 = table s /\
               lru s1 = lru s /\ now s1 = now s /\ casid s1 = casid s).
  { subst s1. destruct b; [destruct (onat_eqb (smk s c) (Some i))|]; repeat split. }
  destruct E1 as (Eb & En & Ei & Et & El & Eno & Ec).
  set (l' := filter (fun j => negb (Nat.eqb j i)) l).
  set (s' := put_lru (set_item s1 i (set_inlru it false)) b c l').
  assert (EI : items s' = fset (items s) i (Some (set_inlru it false))).
  { cbn. rewrite Ei. reflexivity. }
  assert (Fid : forall l0, ~ In i l0 -> filter (fun j => negb (Nat.eqb j i)) l0 = l0).
  { induction l0 as [|x l0 IH]; intro H; [reflexivity|]. cbn [filter].
    destruct (Nat.eqb_spec x i) as [->|N]; [exfalso; apply H; left; reflexivity|].
    cbn [negb]. f_equal. apply IH. intro; apply H; right; assumption. }
  assert (LR : forall b' c', lru s' b' c' = filter (fun j => negb (Nat.eqb j i)) (lru s b' c')).
  { intros b' c'. destruct (bc_dec b b' c c') as [E|N].
    - injection E as -> ->. unfold s'. rewrite put_lru_same. reflexivity.
    - unfold s'. rewrite put_lru_other by exact N. cbn. rewrite El. symmetry. apply Fid. intro H. apply N. auto. }
  assert (TO : forall j, time_of s' j = time_of s j).
  { intro j. unfold time_of. rewrite EI. destruct (Nat.eq_dec j i) as [->|N].
    - rewrite fset_same, Hi. reflexivity.
    - rewrite fset_other by exact N. reflexivity. }
  assert (MK : forall c', mk_ok (lru s' false c') (lowmk s1 c') (curmk s1 c')).
  { intro c'. rewrite LR. pose proof (c_mk _ C c') as M. subst s1.
    destruct b eqn:B.
    - assert (lowmk (if onat_eqb (smk s c) (Some i) then w_smk s (fset (smk s) c p) else s) = lowmk s /\
              curmk (if onat_eqb (smk s c) (Some i) then w_smk s (fset (smk s) c p) else s) = curmk s) as [-> ->]
        by (destruct (onat_eqb (smk s c) (Some i)); split; reflexivity).
      rewrite Fid; [exact M|]. intro H. apply OnlyHere in H. discriminate.
    - cbn [w_lowmk w_curmk lowmk curmk]. destruct (Nat.eq_dec c' c) as [->|N].
      + rewrite !fset_same. subst lo p. apply mk_unlink; [apply (c_lnd _ C)|exact Hin|exact M].
      + rewrite !fset_other by exact N. rewrite Fid; [exact M|]. intro H. apply OnlyHere in H. congruence. }
  split; [|split; [exact EI|exact LR]].
  pose proof C as C0. destruct C0.
  split.
  - cbn. rewrite Eb. assumption.
  - intros j H. cbn in H. rewrite En in H. rewrite EI. destruct (Nat.eq_dec j i) as [->|N].
    + rewrite (c_next0 _ H) in Hi. discriminate.
    + rewrite fset_other by exact N. auto.
  - cbn. rewrite Et. assumption.
  - intros k j. replace (table s') with (table s) by (cbn; congruence).
    rewrite EI, c_tab0. destruct (Nat.eq_dec j i) as [->|N].
    + rewrite fset_same, Hi. split; intros [x [H1 H2]]; injection H1 as <-; eexists; split; try reflexivity; exact H2.
    + rewrite fset_other by exact N. reflexivity.
  - intros b' c'. rewrite LR. apply NoDup_filter, c_lnd0.
  - intros b' c' j. rewrite LR, EI, filter_ne_in, c_lru0. destruct (Nat.eq_dec j i) as [->|N].
    + rewrite fset_same. split; [tauto|]. intros [x [H1 [H2 _]]]. injection H1 as <-. discriminate.
    + rewrite fset_other by exact N. tauto.
  - intros j x H. rewrite EI in H. destruct (Nat.eq_dec j i) as [->|N].
    + rewrite fset_same in H. injection H as <-. discriminate.
    + rewrite fset_other in H by exact N. eauto.
  - intros b' c'. rewrite LR. apply SSorted_filter.
    eapply SSorted_ext; [apply c_srt0|]. intros. rewrite !TO. assumption.
  - intros j x H. rewrite EI in H. replace (now s') with (now s) by (cbn; congruence).
    destruct (Nat.eq_dec j i) as [->|N].
    + rewrite fset_same in H. injection H as <-. cbn. eauto.
    + rewrite fset_other in H by exact N. eauto.
  - exact MK.
  - intros c' j H. rewrite LR. apply filter_ne_in.
    assert (SM : smk s' = smk s1) by reflexivity. rewrite SM in H. subst s1. destruct b eqn:B.
    + destruct (onat_eqb (smk s c) (Some i)) eqn:Q.
      * cbn [w_smk smk] in H. destruct (Nat.eq_dec c' c) as [->|N].
        -- rewrite fset_same in H. subst p. split; [eapply prev_in_In; exact H|].
           eapply prev_in_ne; [apply c_lnd0|exact H].
        -- rewrite fset_other in H by exact N. split; [auto|]. intros ->.
           apply c_smk0, OnlyHere in H. congruence.
      * split; [auto|]. intros ->. pose proof (OnlyHere _ _ (c_smk0 _ _ H)) as E. injection E as ->.
        rewrite H in Q. cbn in Q. rewrite Nat.eqb_refl in Q. discriminate.
    + cbn in H. split; [auto|]. intros ->. apply c_smk0, OnlyHere in H. congruence.
  - intros j x H. rewrite EI in H. destruct (Nat.eq_dec j i) as [->|N].
    + rewrite fset_same in H. injection H as <-. cbn. eauto.
    + rewrite fset_other in H by exact N. eauto.
  - intros j x H L. rewrite EI in H. replace (casid s') with (casid s) by (cbn; congruence).
    destruct (Nat.eq_dec j i) as [->|N].
    + rewrite fset_same in H. injection H as <-. cbn. eauto.
    + rewrite fset_other in H by exact N. eauto.
  - assert (K : forall j x, fset (items s) i (Some (set_inlru it false)) j = Some x ->
                exists y, items s j = Some y /\ ilinked y = ilinked x /\ icas y = icas x).
    { intros j x H. destruct (Nat.eq_dec j i) as [->|N].
      - rewrite fset_same in H. injection H as <-. exists it. auto.
      - rewrite fset_other in H by exact N. eauto. }
    intros j k x y Hx Hy Lx Ly E. rewrite EI in Hx, Hy. destruct (K _ _ Hx) as [x' [A1 [A2 A3]]].
    destruct (K _ _ Hy) as [y' [B1 [B2 B3]]]. eapply c_cas0; eauto; congruence.
Qed.


(* ---- fields the list operations do not touch ---- *)
Definition env_same (s s' : state) : Prop :=
  next_id s' = next_id s /\ now s' = now s /\ oldest s' = oldest s /\ casid s' = casid s /\
  held s' = held s /\ lost s' = lost s /\ repaired s' = repaired s.

Lemma env_refl s : env_same s s.
Proof. repeat split. Qed.
Lemma env_trans s1 s2 s3 : env_same s1 s2 -> env_same s2 s3 -> env_same s1 s3.
Proof. unfold env_same. intuition congruence. Qed.

Lemma link_q_env s i : env_same s (link_q s i) /\ table (link_q s i) = table s /\
  pold (link_q s i) = pold s /\ evicted (link_q s i) = evicted s.
Proof.
  unfold KvModel.link_q. destruct (items s i) as [it|]; [|repeat split].
  destruct (inlru it); [repeat split|].
  destruct (negb (is_sticky it) && (0 <? iexp it)); [destruct (lowmk s (cls it))|]; repeat split.
Qed.
Lemma unlink_q_env s i : env_same s (unlink_q s i) /\ table (unlink_q s i) = table s /\
  pold (unlink_q s i) = pold s /\ evicted (unlink_q s i) = evicted s.
Proof.
  unfold KvModel.unlink_q. destruct (items s i) as [it|]; [|repeat split].
  destruct (negb (inlru it)); [repeat split|].
  destruct (negb (existsb (Nat.eqb i) (lru s (is_sticky it) (cls it)))); [repeat split|].
  destruct (is_sticky it); [destruct (onat_eqb (smk s (cls it)) (Some i))|]; repeat split.
Qed.

(* ---- taking an item out of the hash table ---- *)
Lemma obeqb_eq a b : obeqb a b = true <-> a = b.
Proof.
  destruct a, b; cbn; try (split; congruence). rewrite beqb_eq. split; congruence.
Qed.

Lemma core_detach s i it : Core s -> items s i = Some it -> ilinked it = true -> inlru it = false ->
  Core (set_item (w_table s (tdel (ikey it) (table s))) i (set_linked it false)).
Proof.
  intros C Hi Hl Hq. pose proof C as C0. destruct C0.
  set (s' := set_item _ _ _).
  assert (EI : items s' = fset (items s) i (Some (set_linked it false))) by reflexivity.
  assert (TO : forall j, time_of s' j = time_of s j).
  { intro j. unfold time_of. rewrite EI. destruct (Nat.eq_dec j i) as [->|N].
    - rewrite fset_same, Hi. reflexivity.
    - rewrite fset_other by exact N. reflexivity. }
  split; try assumption.
  - intros j H. rewrite EI. destruct (Nat.eq_dec j i) as [->|N].
    + cbn in H. rewrite (c_next0 _ H) in Hi. discriminate.
    + rewrite fset_other by exact N. auto.
  - cbn. apply tdel_NoDup. assumption.
  - intros k j. change (table s') with (tdel (ikey it) (table s)). rewrite In_tdel, EI, c_tab0. cbn [fst].
    destruct (Nat.eq_dec j i) as [->|N].
    + rewrite fset_same. split.
      * intros [[x [H1 [H2 H3]]] H4]. rewrite Hi in H1. injection H1 as <-. congruence.
      * intros [x [H1 [H2 _]]]. injection H1 as <-. discriminate.
    + rewrite fset_other by exact N. split; [tauto|]. intros H. split; [exact H|].
      intros ->. destruct H as [x [H1 [H2 H3]]]. apply N.
      assert (T1 : In (ikey it, j) (table s)) by (apply c_tab0; eauto).
      assert (T2 : In (ikey it, i) (table s)) by (apply c_tab0; eauto).
      apply In_tfind in T1; [|assumption]. apply In_tfind in T2; [|assumption]. congruence.
  - intros b c j. change (lru s') with (lru s). rewrite EI, c_lru0. destruct (Nat.eq_dec j i) as [->|N].
    + rewrite fset_same. split; intros [x [H1 [H2 H3]]].
      * rewrite Hi in H1. injection H1 as <-. congruence.
      * injection H1 as <-. cbn in H2. congruence.
    + rewrite fset_other by exact N. reflexivity.
  - intros j x H. rewrite EI in H. destruct (Nat.eq_dec j i) as [->|N].
    + rewrite fset_same in H. injection H as <-. cbn. congruence.
    + rewrite fset_other in H by exact N. eauto.
  - intros b c. eapply SSorted_ext; [apply c_srt0|]. intros. rewrite !TO. assumption.
  - intros j x H L. rewrite EI in H. destruct (Nat.eq_dec j i) as [->|N].
    + rewrite fset_same in H. injection H as <-. discriminate.
    + rewrite fset_other in H by exact N. cbn. eauto.
  - intros j x H. rewrite EI in H. destruct (Nat.eq_dec j i) as [->|N].
    + rewrite fset_same in H. injection H as <-. cbn. eauto.
    + rewrite fset_other in H by exact N. eauto.
  - intros j x H L. rewrite EI in H. destruct (Nat.eq_dec j i) as [->|N].
    + rewrite fset_same in H. injection H as <-. discriminate.
    + rewrite fset_other in H by exact N. cbn. eauto.
  - intros j k x y Hx Hy Lx Ly E. rewrite EI in Hx, Hy.
    assert (j <> i) by (intros ->; rewrite fset_same in Hx; injection Hx as <-; discriminate).
    assert (k <> i) by (intros ->; rewrite fset_same in Hy; injection Hy as <-; discriminate).
    rewrite fset_other in Hx, Hy by assumption. eauto.
Qed.

Lemma core_drop s p : Core s -> Core (drop_prefix s p).
Proof.
  intro C. unfold drop_prefix. destruct p; [|exact C]. destruct (pfx_exists s (Some b)); [exact C|].
  apply (core_frame s); try reflexivity; try assumption.
Qed.
Lemma drop_fields s p : items (drop_prefix s p) = items s /\ table (drop_prefix s p) = table s /\
  lru (drop_prefix s p) = lru s /\ env_same s (drop_prefix s p) /\ evicted (drop_prefix s p) = evicted s /\
  (forall q, pold (drop_prefix s p) q = pold s q \/ pold (drop_prefix s p) q = 0 /\ pfx_exists s q = false).
Proof.
  unfold drop_prefix. destruct p as [p|]; [|repeat split; auto].
  destruct (pfx_exists s (Some p)) eqn:E; [repeat split; auto|]. repeat split.
  intro q. cbn [w_pold pold]. destruct (obeqb q (Some p)) eqn:Q; [|auto].
  apply obeqb_eq in Q as ->. right. auto.
Qed.

Lemma pfx_exists_linked s i it : Core s -> items s i = Some it -> ilinked it = true ->
  pfx_exists s (pfx (ikey it)) = true.
Proof.
  intros C Hi Hl. unfold pfx_exists. destruct (pfx (ikey it)) eqn:E; [|reflexivity].
  apply existsb_exists. exists (ikey it, i). split; [apply (c_tab _ C); eauto|].
  cbn [fst]. rewrite E. apply obeqb_eq. reflexivity.
Qed.

Lemma core_free s i it : Core s -> items s i = Some it -> ilinked it = false ->
  Core (w_items s (fset (items s) i None)).
Proof.
  intros C Hi Hl. pose proof C as C0. destruct C0.
  assert (Hq : inlru it = false).
  { destruct (inlru it) eqn:Q; [|reflexivity]. rewrite (c_il0 _ _ Hi Q) in Hl. discriminate. }
  set (s' := w_items _ _).
  assert (EI : items s' = fset (items s) i None) by reflexivity.
  assert (TO : forall j, j <> i -> time_of s' j = time_of s j).
  { intros j N. unfold time_of. rewrite EI, fset_other by exact N. reflexivity. }
  assert (K : forall j x, items s' j = Some x -> items s j = Some x /\ j <> i).
  { intros j x H. rewrite EI in H. destruct (Nat.eq_dec j i) as [->|N]; [rewrite fset_same in H; discriminate|].
    rewrite fset_other in H by exact N. auto. }
  assert (NI : forall b c, ~ In i (lru s b c)).
  { intros b c H. apply c_lru0 in H as [x [H1 [H2 _]]]. rewrite Hi in H1. injection H1 as <-. congruence. }
  split; try assumption.
  - intros j H. rewrite EI. destruct (Nat.eq_dec j i) as [->|N]; [apply fset_same|].
    rewrite fset_other by exact N. auto.
  - intros k j. change (table s') with (table s). rewrite c_tab0. split; intros [x [H1 H2]].
    + exists x. split; [|exact H2]. rewrite EI, fset_other; [exact H1|]. intros ->. rewrite Hi in H1. injection H1 as <-. destruct H2; congruence.
    + apply K in H1 as [H1 _]. eauto.
  - intros b c j. change (lru s') with (lru s). rewrite c_lru0. split; intros [x [H1 H2]].
    + exists x. split; [|exact H2]. rewrite EI, fset_other; [exact H1|]. intros ->. rewrite Hi in H1. injection H1 as <-. destruct H2; congruence.
    + apply K in H1 as [H1 _]. eauto.
  - intros j x H. apply K in H as [H _]. eauto.
  - intros b c. eapply SSorted_ext; [apply c_srt0|]. intros x y Hx Hy.
    rewrite !TO; [auto| |]; intros ->; eapply NI; eassumption.
  - intros j x H. apply K in H as [H _]. cbn. eauto.
  - intros j x H. apply K in H as [H _]. cbn. eauto.
  - intros j x H. apply K in H as [H _]. cbn. eauto.
  - intros j k x y Hx Hy. apply K in Hx as [Hx _]. apply K in Hy as [Hy _]. eauto.
Qed.

Lemma free_spec s i it : Core s -> items s i = Some it -> ilinked it = false -> iref it = 0%nat ->
  free s i = w_items s (fset (items s) i None).
Proof.
  intros C Hi Hl Hr. unfold free. rewrite Hi, Hl, Hr.
  destruct (inlru it) eqn:Q; [rewrite (c_il _ C _ _ Hi Q) in Hl; discriminate|reflexivity].
Qed.

(* ---- putting an item into the hash table ---- *)
Lemma attach_spec s i it c : Core s -> items s i = Some it -> ilinked it = false ->
  tfind (ikey it) (table s) = None -> (0 < c <= casid s)%N ->
  (forall j x, items s j = Some x -> ilinked x = true -> (icas x < c)%N) ->
  Core (attach s i c) /\
  items (attach s i c) i = Some (set_inlru (set_time (set_linked (set_cas it c) true) (now s)) true) /\
  (forall j, j <> i -> items (attach s i c) j = items s j) /\
  table (attach s i c) = (ikey it, i) :: table s /\
  env_same s (attach s i c) /\ pold (attach s i c) = pold s /\ evicted (attach s i c) = evicted s.
Proof.
  intros C Hi Hl Ht Hc Hnew. unfold KvModel.attach. rewrite Hi, Ht.
  set (it2 := set_time (set_linked (set_cas it c) true) (now s)).
  set (s1 := set_item (w_table s ((ikey it, i) :: table s)) i it2).
  assert (Hq : inlru it = false).
  { destruct (inlru it) eqn:Q; [|reflexivity]. rewrite (c_il _ C _ _ Hi Q) in Hl. discriminate. }
  assert (EI : items s1 = fset (items s) i (Some it2)) by reflexivity.
  assert (NI : forall b c', ~ In i (lru s b c')).
  { intros b c' H. apply (c_lru _ C) in H as [x [H1 [H2 _]]]. rewrite Hi in H1. injection H1 as <-. congruence. }
  assert (C1 : Core s1).
  { pose proof C as C0. destruct C0. split; try assumption.
    - intros j H. rewrite EI. destruct (Nat.eq_dec j i) as [->|N].
      + cbn in H. rewrite (c_next0 _ H) in Hi. discriminate.
      + rewrite fset_other by exact N. auto.
    - cbn. constructor; [apply tfind_None; exact Ht|assumption].
    - intros k j. change (table s1) with ((ikey it, i) :: table s). cbn [In]. rewrite EI, c_tab0.
      destruct (Nat.eq_dec j i) as [->|N].
      + rewrite fset_same. split.
        * intros [H|[x [H1 [H2 H3]]]]; [injection H as <-; exists it2; auto|].
          rewrite Hi in H1. injection H1 as <-. congruence.
        * intros [x [H1 [H2 H3]]]. injection H1 as <-. left. cbn in H3. congruence.
      + rewrite fset_other by exact N. split; [intros [H|H]; [injection H; congruence|exact H]|auto].
    - intros b c' j. change (lru s1) with (lru s). rewrite EI, c_lru0. destruct (Nat.eq_dec j i) as [->|N].
      + rewrite fset_same. split; intros [x [H1 [H2 H3]]].
        * rewrite Hi in H1. injection H1 as <-. congruence.
        * injection H1 as <-. cbn in H2. congruence.
      + rewrite fset_other by exact N. reflexivity.
    - intros j x H. rewrite EI in H. destruct (Nat.eq_dec j i) as [->|N].
      + rewrite fset_same in H. injection H as <-. reflexivity.
      + rewrite fset_other in H by exact N. eauto.
    - intros b c'. eapply SSorted_ext; [apply c_srt0|]. intros x y Hx Hy. unfold time_of. rewrite EI.
      rewrite !fset_other; [auto| |]; intros ->; eapply NI; eassumption.
    - intros j x H L. rewrite EI in H. destruct (Nat.eq_dec j i) as [->|N].
      + rewrite fset_same in H. injection H as <-. cbn. lia.
      + rewrite fset_other in H by exact N. cbn. eauto.
    - intros j x H. rewrite EI in H. destruct (Nat.eq_dec j i) as [->|N].
      + rewrite fset_same in H. injection H as <-. cbn. eauto.
      + rewrite fset_other in H by exact N. eauto.
    - intros j x H L. rewrite EI in H. destruct (Nat.eq_dec j i) as [->|N].
      + rewrite fset_same in H. injection H as <-. cbn. lia.
      + rewrite fset_other in H by exact N. cbn. eauto.
    - intros j k x y Hx Hy Lx Ly E. rewrite EI in Hx, Hy.
      destruct (Nat.eq_dec j i) as [->|Nj], (Nat.eq_dec k i) as [->|Nk];
        rewrite ?fset_same in *; try rewrite fset_other in Hx by assumption;
        try rewrite fset_other in Hy by assumption.
      + reflexivity.
      + injection Hx as <-. cbn in E. specialize (Hnew _ _ Hy Ly). lia.
      + injection Hy as <-. cbn in E. specialize (Hnew _ _ Hx Lx). lia.
      + eauto. }
  assert (H2 : items s1 i = Some it2) by (rewrite EI; apply fset_same).
  destruct (link_q_spec s1 i it2 C1 H2) as [C2 E2]; [exact Hq|reflexivity|reflexivity|].
  split; [exact C2|]. rewrite E2. split; [apply fset_same|]. split.
  - intros j N. rewrite fset_other by exact N. rewrite EI, fset_other by exact N. reflexivity.
  - destruct (link_q_env s1 i) as (A & B & D & F). split; [exact B|]. split; [exact A|]. split; assumption.
Qed.

(* ---------- references ---------- *)
Record RefInv (s : state) (refs : list nat) : Prop := {
  r_cnt : forall i it, items s i = Some it -> iref it = count_occ Nat.eq_dec refs i;
  r_zero : forall i it, items s i = Some it -> iref it = 0%nat -> ilinked it = true /\ inlru it = true;
  r_in : forall i, In i refs -> items s i <> None }.

Definition content (it : item) := (ikey it, idata it, iflags it, iexp it, icas it, icoll it).

Definition notflushed (s : state) (it : item) : bool :=
  negb (flushed_by (oldest s) (now s) it) && negb (flushed_by (pold s (pfx (ikey it))) (now s) it).
Definition notexpired (s : state) (it : item) : bool := negb (negb (iexp it =? 0) && (iexp it <=? now s)).
Lemma isvalid_split s it : isvalid s it = notexpired s it && notflushed s it.
Proof. unfold isvalid, notexpired, notflushed. rewrite andb_assoc. reflexivity. Qed.

(* what may happen to an item when nothing is added to the cache *)
Inductive change (s s' : state) (j : nat) (it : item) : Prop :=
| ch_keep it' : items s' j = Some it' -> content it' = content it -> ilinked it' = ilinked it ->
    iref it' = iref it -> (iref it = 0%nat -> inlru it = true -> inlru it' = true) ->
    (ilinked it = true -> itime it' = itime it \/ itime it' = now s /\ notflushed s it = true) ->
    change s s' j it
| ch_gone : ilinked it = true ->
    (iref it = 0%nat /\ items s' j = None \/
     iref it <> 0%nat /\ exists it', items s' j = Some it' /\ content it' = content it /\
       ilinked it' = false /\ iref it' = iref it) ->
    (isvalid s it = false \/
     (isvalid s it = true /\ In (ikey it, j) (evicted s') /\ iref it = 0%nat /\ is_sticky it = false)) ->
    change s s' j it
| ch_free : ilinked it = false -> iref it = 0%nat -> items s' j = None -> change s s' j it.

Record Dn (s s' : state) : Prop := {
  d_env : env_same s s';
  d_ev : incl (evicted s) (evicted s');
  d_ev' : forall k j, In (k, j) (evicted s') -> In (k, j) (evicted s) \/
            exists it, items s j = Some it /\ ikey it = k /\ ilinked it = true /\
              isvalid s it = true /\ iref it = 0%nat /\ is_sticky it = false /\ items s' j = None;
  d_fwd : forall j it, items s j = Some it -> change s s' j it;
  d_bwd : forall j it', items s' j = Some it' -> items s j <> None;
  d_pold : forall j it', items s' j = Some it' -> ilinked it' = true ->
             pold s' (pfx (ikey it')) = pold s (pfx (ikey it'));
  d_pold' : forall q, pold s' q = pold s q \/ pold s' q = 0 }.

Lemma content_eq a b : content a = content b ->
  ikey a = ikey b /\ idata a = idata b /\ iflags a = iflags b /\ iexp a = iexp b /\ icas a = icas b /\ icoll a = icoll b.
Proof. unfold content. intro H. injection H. intuition. Qed.

Lemma flushed_now o t it it' : itime it <= t -> flushed_by o t it = false -> itime it' = t ->
  flushed_by o t it' = false.
Proof. unfold flushed_by. lia. Qed.

Lemma keep_valid s s' j it it' : Core s -> Dn s s' -> items s j = Some it -> items s' j = Some it' ->
  ilinked it = true -> content it' = content it -> ilinked it' = true ->
  (ilinked it = true -> itime it' = itime it \/ itime it' = now s /\ notflushed s it = true) ->
  notflushed s' it' = notflushed s it /\ notexpired s' it' = notexpired s it.
Proof.
  intros C D Hi Hi' L E L' T. specialize (T L). apply content_eq in E as (Ek & _ & _ & Ee & _).
  destruct (d_env _ _ D) as (_ & En & Eo & _).
  split.
  - unfold notflushed. rewrite (d_pold _ _ D _ _ Hi' L'), Ek, En, Eo.
    destruct T as [T|[T F]].
    + unfold flushed_by. rewrite T. reflexivity.
    + pose proof (c_tm _ C _ _ Hi L) as Tm. unfold notflushed in F. rewrite F.
      apply andb_prop in F as [F1 F2]. apply negb_true_iff in F1, F2.
      rewrite !(flushed_now _ (now s) it it') by assumption. reflexivity.
  - unfold notexpired. rewrite Ee, En. reflexivity.
Qed.

Lemma Dn_refl s : Dn s s.
Proof.
  split; auto using env_refl, incl_refl.
  - intros j it H. eapply ch_keep; eauto.
  - congruence.
Qed.

Lemma Dn_trans s s1 s2 : Core s -> Core s1 -> Dn s s1 -> Dn s1 s2 -> Dn s s2.
Proof.
  intros C C1 D1 D2. split.
  - eapply env_trans; [apply D1|apply D2].
  - eapply incl_tran; [apply D1|apply D2].
  - intros k j H. apply (d_ev' _ _ D2) in H as [H|[it1 (H1 & Hk & Hl & Hv & Hr & Hs & H2)]].
    + apply (d_ev' _ _ D1) in H as [H|[it (A1 & A2 & A3 & A4 & A5 & A6 & A7)]]; [auto|].
      right. exists it. repeat split; auto.
      destruct (items s2 j) as [x|] eqn:E; [|reflexivity]. exfalso. apply (d_bwd _ _ D2 _ _ E). exact A7.
    + right. destruct (items s j) as [it|] eqn:E; [|exfalso; eapply (d_bwd _ _ D1); eassumption].
      destruct (d_fwd _ _ D1 _ _ E) as [it1' K1 K2 K3 K4 K5 K6|K1 K2 K3|K1 K2 K3].
      * rewrite H1 in K1. injection K1 as <-. exists it.
        destruct (keep_valid _ _ _ _ _ C D1 E H1) as [V1 V2]; auto; try congruence.
        apply content_eq in K2 as (Ek & _ & _ & Ee & _).
        rewrite isvalid_split in *. unfold is_sticky in *.
        repeat split; try congruence.
      * destruct K2 as [[_ K2]|[Hn [x [Kx [_ [Lx _]]]]]]; [congruence|].
        rewrite H1 in Kx. injection Kx as <-. congruence.
      * congruence.
  - intros j it E. destruct (d_fwd _ _ D1 _ _ E) as [it1 K1 K2 K3 K4 K5 K6|K1 K2 K3|K1 K2 K3].
    + destruct (d_fwd _ _ D2 _ _ K1) as [it2 L1 L2 L3 L4 L5 L6|L1 L2 L3|L1 L2 L3].
      * apply (ch_keep s s2 j it it2); try congruence.
        -- intros Z Q. apply L5; [congruence|]. apply K5; assumption.
        -- intro Lk. destruct (d_env _ _ D1) as (_ & En & _).
           destruct (keep_valid _ _ _ _ _ C D1 E K1) as [V1 _]; auto; try congruence.
           destruct L6 as [L6|[L6 F]]; [congruence|rewrite L6; auto|]. right. split; congruence.
      * destruct (keep_valid _ _ _ _ _ C D1 E K1) as [V1 V2]; auto; try congruence.
        apply content_eq in K2 as (Ek & Ed & Ef & Ee & Ec & Eco).
        apply ch_gone; [congruence| |].
        -- destruct L2 as [[Z L2]|[Z [x [X1 [X2 [X3 X4]]]]]]; [left; split; congruence|right].
           split; [congruence|]. exists x. repeat split; try congruence.
           unfold content in *. congruence.
        -- rewrite !isvalid_split in *. unfold is_sticky in *. rewrite Ek, Ee, V1, V2, K4 in L3. exact L3.
      * apply ch_free; congruence.
    + apply ch_gone; [exact K1| |].
      * destruct K2 as [[Z K2]|[Z [x [X1 [X2 [X3 X4]]]]]].
        -- left. split; [exact Z|]. destruct (items s2 j) as [y|] eqn:F; [|reflexivity].
           exfalso. apply (d_bwd _ _ D2 _ _ F). exact K2.
        -- right. split; [exact Z|]. destruct (d_fwd _ _ D2 _ _ X1) as [y L1 L2 L3 L4 L5 L6|L1 L2 L3|L1 L2 L3]; [|congruence|congruence].
           exists y. repeat split; congruence.
      * destruct K3 as [K3|(A & B & G)]; [auto|right]. repeat split; try tauto. apply (d_ev _ _ D2). exact B.
    + apply ch_free; try assumption. destruct (items s2 j) as [y|] eqn:F; [|reflexivity].
      exfalso. apply (d_bwd _ _ D2 _ _ F). exact K3.
  - intros j it2 E. destruct (items s1 j) as [x|] eqn:F; [|exfalso; eapply (d_bwd _ _ D2); eassumption].
    eapply (d_bwd _ _ D1). exact F.
  - intros j it2 E L. rewrite (d_pold _ _ D2 _ _ E L).
    destruct (items s1 j) as [it1|] eqn:F; [|exfalso; eapply (d_bwd _ _ D2); eassumption].
    destruct (d_fwd _ _ D2 _ _ F) as [y L1 L2 L3 L4 L5 L6|L1 L2 L3|L1 L2 L3].
    + rewrite E in L1. injection L1 as <-. apply content_eq in L2 as (Ek & _). rewrite Ek.
      apply (d_pold _ _ D1 _ _ F). congruence.
    + destruct L2 as [[_ L2]|[_ [y [Y1 [_ [Y3 _]]]]]]; congruence.
    + congruence.
  - intro q. destruct (d_pold' _ _ D2 q) as [H|H]; [|auto]. rewrite H. apply (d_pold' _ _ D1).
Qed.

Lemma RefInv_Dn s s' refs : RefInv s refs -> Dn s s' -> RefInv s' refs.
Proof.
  intros R D. split.
  - intros i it' H. destruct (items s i) as [it|] eqn:E; [|exfalso; eapply (d_bwd _ _ D); eassumption].
    rewrite <- (r_cnt _ _ R _ _ E).
    destruct (d_fwd _ _ D _ _ E) as [x K1 K2 K3 K4 K5 K6|K1 [[K2 K3]|[K2 [x [X1 [X2 [X3 X4]]]]]] K4|K1 K2 K3]; congruence.
  - intros i it' H Z. destruct (items s i) as [it|] eqn:E; [|exfalso; eapply (d_bwd _ _ D); eassumption].
    destruct (d_fwd _ _ D _ _ E) as [x K1 K2 K3 K4 K5 K6|K1 [[K2 K3]|[K2 [x [X1 [X2 [X3 X4]]]]]] K4|K1 K2 K3]; try congruence.
    rewrite H in K1. injection K1 as <-. rewrite Z in K4. symmetry in K4.
    destruct (r_zero _ _ R _ _ E K4). split; [congruence|]. apply K5; assumption.
  - intros i H. destruct (items s i) as [it|] eqn:E; [|exfalso; eapply (r_in _ _ R); eassumption].
    assert (iref it <> 0%nat).
    { rewrite (r_cnt _ _ R _ _ E). apply count_occ_In with (eq_dec := Nat.eq_dec) in H. lia. }
    destruct (d_fwd _ _ D _ _ E) as [x K1 K2 K3 K4 K5 K6|K1 [[K2 K3]|[K2 [x [X1 [X2 [X3 X4]]]]]] K4|K1 K2 K3]; congruence.
Qed.

Lemma Dn_frame s s' : items s' = items s -> env_same s s' -> evicted s' = evicted s -> pold s' = pold s -> Dn s s'.
Proof.
  intros EI EN EV EP. split; auto.
  - rewrite EV. apply incl_refl.
  - intros k j. rewrite EV. auto.
  - intros j it H. apply (ch_keep s s' j it it); auto. congruence.
  - intros j it' H. rewrite EI in H. congruence.
  - intros. rewrite EP. reflexivity.
  - intro q. rewrite EP. auto.
Qed.

Lemma Dn_one s s' i it : items s i = Some it -> (forall j, j <> i -> items s' j = items s j) ->
  env_same s s' ->
  (evicted s' = evicted s \/ (evicted s' = (ikey it, i) :: evicted s /\ ilinked it = true /\ isvalid s it = true /\
     iref it = 0%nat /\ is_sticky it = false /\ items s' i = None)) ->
  change s s' i it ->
  (forall j it', items s' j = Some it' -> ilinked it' = true -> pold s' (pfx (ikey it')) = pold s (pfx (ikey it'))) ->
  (forall q, pold s' q = pold s q \/ pold s' q = 0) -> Dn s s'.
Proof.
  intros Hi Ho EN EV CH P1 P2. split; auto.
  - destruct EV as [->|[-> _]]; [apply incl_refl|apply incl_tl, incl_refl].
  - intros k j. destruct EV as [->|[-> V]]; [auto|]. intros [H|H]; [|auto].
    injection H as <- <-. right. exists it. tauto.
  - intros j x H. destruct (Nat.eq_dec j i) as [->|N].
    + rewrite Hi in H. injection H as <-. exact CH.
    + apply (ch_keep s s' j x x); auto. rewrite Ho by exact N. exact H.
  - intros j it' H. destruct (Nat.eq_dec j i) as [->|N]; [congruence|]. rewrite Ho in H by exact N. congruence.
Qed.

Lemma unlink_q_dn s i it : Core s -> items s i = Some it -> iref it <> 0%nat -> Dn s (unlink_q s i).
Proof.
  intros C Hi Hr. destruct (unlink_q_spec s i it C Hi) as (C1 & EI & _).
  destruct (unlink_q_env s i) as (A & B & D & F).
  apply (Dn_one s _ i it); auto.
  - intros j N. rewrite EI. destruct (inlru it); [apply fset_other; exact N|reflexivity].
  - destruct (inlru it) eqn:Q.
    + apply (ch_keep _ _ _ _ (set_inlru it false)); auto. rewrite EI, fset_same. reflexivity.
    + apply (ch_keep _ _ _ _ it); auto. rewrite EI. exact Hi.
  - intros. rewrite D. reflexivity.
  - intro q. rewrite D. auto.
Qed.

(* ---- do_item_unlink ---- *)
Lemma unlink_spec s i it : Core s -> items s i = Some it -> ilinked it = true ->
  Core (unlink s i) /\
  (if Nat.eqb (iref it) 0 then items (unlink s i) i = None
   else items (unlink s i) i = Some (set_linked (set_inlru it false) false)) /\
  (forall j, j <> i -> items (unlink s i) j = items s j) /\
  table (unlink s i) = tdel (ikey it) (table s) /\
  (forall b c, lru (unlink s i) b c = filter (fun j => negb (Nat.eqb j i)) (lru s b c)) /\
  env_same s (unlink s i) /\ evicted (unlink s i) = evicted s /\
  (forall q, pold (unlink s i) q = pold s q \/ pold (unlink s i) q = 0 /\ pfx_exists (unlink s i) q = false).
Proof.
  intros C Hi Hl. unfold KvModel.unlink. rewrite Hi, Hl. cbn [negb].
  destruct (unlink_q_spec s i it C Hi) as (C1 & EI & EL).
  destruct (unlink_q_env s i) as (A & B & D & F).
  set (s1 := unlink_q s i) in *. set (it1 := set_inlru it false).
  assert (H1 : items s1 i = Some it1).
  { rewrite EI. destruct (inlru it) eqn:Q; [apply fset_same|]. subst it1.
    rewrite Hi. f_equal. destruct it; cbn in *. subst. reflexivity. }
  assert (Ho : forall j, j <> i -> items s1 j = items s j).
  { intros j N. rewrite EI. destruct (inlru it); [apply fset_other; exact N|reflexivity]. }
  unfold detach. rewrite H1. set (s2 := set_item _ i _).
  assert (C2 : Core s2).
  { unfold s2. apply core_detach; [exact C1|exact H1|exact Hl|reflexivity]. }
  destruct (drop_fields s2 (pfx (ikey it1))) as (G1 & G2 & G3 & G4 & G5 & G6).
  pose proof (core_drop s2 (pfx (ikey it1)) C2) as C3. set (s3 := drop_prefix s2 _) in *.
  assert (H3 : items s3 i = Some (set_linked it1 false)) by (rewrite G1; apply fset_same).
  assert (Ho3 : forall j, j <> i -> items s3 j = items s j).
  { intros j N. rewrite G1. cbn. rewrite fset_other by exact N. apply Ho; exact N. }
  assert (T3 : table s3 = tdel (ikey it) (table s)).
  { rewrite G2. cbn. rewrite B. reflexivity. }
  assert (L3 : forall b c, lru s3 b c = filter (fun j => negb (Nat.eqb j i)) (lru s b c)).
  { intros b c. rewrite G3. cbn. apply EL. }
  assert (E3 : env_same s s3).
  { apply (env_trans s s1); [exact A|]. apply (env_trans s1 s2); [repeat split|exact G4]. }
  assert (V3 : evicted s3 = evicted s) by (rewrite G5; cbn; exact F).
  assert (P3 : forall q, pold s3 q = pold s q \/ pold s3 q = 0 /\ pfx_exists s3 q = false).
  { intro q. destruct (G6 q) as [E|[E1 E2]].
    - left. rewrite E. cbn. rewrite D. reflexivity.
    - right. split; [exact E1|]. unfold pfx_exists in *. rewrite G2. exact E2. }
  destruct (Nat.eqb_spec (iref it) 0) as [Z|NZ].
  - rewrite (free_spec s3 i (set_linked it1 false) C3 H3); [|reflexivity|exact Z].
    split; [eapply core_free; [exact C3|exact H3|reflexivity]|].
    split; [cbn; apply fset_same|]. split; [intros j N; cbn; rewrite fset_other by exact N; apply Ho3; exact N|].
    repeat split; try assumption; apply E3.
  - split; [exact C3|]. split; [exact H3|]. repeat split; try assumption; apply E3.
Qed.

Lemma pold_linked s s' : Core s' ->
  (forall q, pold s' q = pold s q \/ pold s' q = 0 /\ pfx_exists s' q = false) ->
  forall j it', items s' j = Some it' -> ilinked it' = true -> pold s' (pfx (ikey it')) = pold s (pfx (ikey it')).
Proof.
  intros C P j it' H L. destruct (P (pfx (ikey it'))) as [E|[_ E]]; [exact E|].
  rewrite (pfx_exists_linked _ _ _ C H L) in E. discriminate.
Qed.

Lemma unlink_dn s i it : Core s -> items s i = Some it -> isvalid s it = false -> 
  Core (unlink s i) /\ Dn s (unlink s i).
Proof.
  intros C Hi V. destruct (ilinked it) eqn:Hl.
  2:{ unfold KvModel.unlink. rewrite Hi, Hl. cbn [negb]. split; [exact C|apply Dn_refl]. }
  destruct (unlink_spec s i it C Hi Hl) as (C1 & X & Ho & T & L & E & Ev & P).
  split; [exact C1|]. apply (Dn_one s _ i it); auto.
  - apply ch_gone; auto. destruct (Nat.eqb_spec (iref it) 0); [auto|right]. split; [assumption|].
    eexists. split; [exact X|]. repeat split.
  - apply pold_linked; assumption.
  - intro q. destruct (P q) as [?|[? _]]; auto.
Qed.

Lemma evict_dn s i it : Core s -> items s i = Some it -> ilinked it = true -> isvalid s it = true ->
  iref it = 0%nat -> is_sticky it = false ->
  Core (KvModel.evict lru_class maxcls s i) /\ Dn s (KvModel.evict lru_class maxcls s i) /\
  (forall b c, lru (KvModel.evict lru_class maxcls s i) b c = filter (fun j => negb (Nat.eqb j i)) (lru s b c)) /\
  evicted (KvModel.evict lru_class maxcls s i) = (ikey it, i) :: evicted s.
Proof.
  intros C Hi Hl V R St. unfold KvModel.evict. rewrite Hi.
  set (s0 := w_evicted s _).
  assert (C0 : Core s0) by (apply (core_frame s); try reflexivity; assumption).
  destruct (unlink_spec s0 i it C0 Hi Hl) as (C1 & X & Ho & T & L & E & Ev & P).
  split; [exact C1|]. split; [|split; [exact L|exact Ev]].
  rewrite R in X. cbn [Nat.eqb] in X.
  apply (Dn_one s _ i it); auto.
  - right. repeat split; try assumption.
  - apply ch_gone; auto. right. repeat split; try assumption. rewrite Ev. left. reflexivity.
  - apply (pold_linked s); assumption.
  - intro q. destruct (P q) as [?|[? _]]; auto.
Qed.

(* ---- the memory reclaim loops ---- *)
Definition Good (s s' : state) : Prop := Core s' /\ Dn s s'.
Lemma Good_refl s : Core s -> Good s s.
Proof. split; [assumption|apply Dn_refl]. Qed.
Lemma Good_trans s s1 s2 : Core s -> Good s s1 -> Good s1 s2 -> Good s s2.
Proof. intros C [C1 D1] [C2 D2]. split; [exact C2|]. exact (Dn_trans s s1 s2 C C1 D1 D2). Qed.

Lemma core_marks s s' : Core s -> bad s' = bad s -> next_id s' = next_id s -> items s' = items s ->
  table s' = table s -> lru s' = lru s -> now s' = now s -> casid s' = casid s ->
  (forall c, mk_ok (lru s false c) (lowmk s' c) (curmk s' c)) ->
  (forall c i, smk s' c = Some i -> In i (lru s true c)) -> Core s'.
Proof.
  intros C E1 E2 E3 E4 E5 E6 E7 M1 M2. destruct C.
  split; try rewrite E1; try rewrite E2; try rewrite E3; try rewrite E4; try rewrite E5;
    try rewrite E6; try rewrite E7; try assumption.
  intros b c. eapply SSorted_ext; [apply c_srt0|]. intros x y _ _. unfold time_of. rewrite E3. auto.
Qed.

Lemma smk_prev_good s c i : Core s -> smk s c = Some i ->
  Good s (w_smk s (fset (smk s) c (prev_in (lru s true c) i))).
Proof.
  intros C H. split; [|apply Dn_frame; repeat split].
  apply (core_marks s); try reflexivity; try assumption; [apply C|].
  intros c' j. cbn. destruct (Nat.eq_dec c' c) as [->|N].
  - rewrite fset_same. apply prev_in_In.
  - rewrite fset_other by exact N. apply C.
Qed.

Lemma cur_prev_good s c i : Core s -> curmk s c = Some i ->
  Good s (w_curmk s (fset (curmk s) c (prev_in (lru s false c) i))).
Proof.
  intros C H. split; [|apply Dn_frame; repeat split].
  apply (core_marks s); try reflexivity; try assumption; [|apply C].
  intros c'. cbn. pose proof (c_mk _ C c') as M. destruct (Nat.eq_dec c' c) as [->|N].
  - rewrite fset_same. rewrite H in M. destruct (lowmk s c) as [a|]; [|contradiction].
    cbn [mk_ok] in M. destruct (prev_in (lru s false c) i) eqn:P; cbn [mk_ok].
    + eapply aoa_prev; [apply C|exact M|exact P].
    + apply aoa_in in M. tauto.
  - rewrite fset_other by exact N. exact M.
Qed.

Lemma low_prev_good s c i : Core s -> lowmk s c = Some i -> curmk s c <> Some i ->
  Good s (w_lowmk s (fset (lowmk s) c (prev_in (lru s false c) i))).
Proof.
  intros C H N. split; [|apply Dn_frame; repeat split].
  apply (core_marks s); try reflexivity; try assumption; [|apply C].
  intros c'. cbn. pose proof (c_mk _ C c') as M. destruct (Nat.eq_dec c' c) as [->|Nc].
  - rewrite fset_same. rewrite H in M. destruct (curmk s c) as [b|] eqn:B; cbn [mk_ok] in M.
    + destruct (aoa_prev_low _ b i (c_lnd _ C _ _) M) as [x [P A]]; [congruence|].
      rewrite P. exact A.
    + destruct (prev_in (lru s false c) i) eqn:P; cbn [mk_ok]; [eapply prev_in_In; exact P|exact I].
  - rewrite fset_other by exact Nc. exact M.
Qed.

Lemma cur_reset_good s c : Core s -> curmk s c = None ->
  Good s (w_curmk s (fset (curmk s) c (lowmk s c))).
Proof.
  intros C H. split; [|apply Dn_frame; repeat split].
  apply (core_marks s); try reflexivity; try assumption; [|apply C].
  intros c'. cbn. pose proof (c_mk _ C c') as M. destruct (Nat.eq_dec c' c) as [->|Nc].
  - rewrite fset_same. rewrite H in M. destruct (lowmk s c); cbn [mk_ok] in *; [apply aoa_refl; exact M|exact I].
  - rewrite fset_other by exact Nc. exact M.
Qed.

Lemma in_lru_item s b c i : Core s -> In i (lru s b c) ->
  exists it, items s i = Some it /\ ilinked it = true /\ inlru it = true /\ is_sticky it = b /\ cls it = c.
Proof.
  intros C H. apply (c_lru _ C) in H as [it (H1 & H2 & H3 & H4)]. exists it.
  split; [exact H1|]. split; [eapply (c_il _ C); eassumption|]. auto.
Qed.

Lemma dead_unlink s i : Core s -> dead s i = true ->
  Good s (unlink s i) /\ (forall j, j <> i -> items (unlink s i) j = items s j) /\
  (forall b c, lru (unlink s i) b c = filter (fun j => negb (Nat.eqb j i)) (lru s b c)).
Proof.
  intros C H. unfold dead in H. destruct (items s i) as [it|] eqn:Hi; [|discriminate].
  apply andb_prop in H as [H1 H2]. apply negb_true_iff in H2.
  destruct (unlink_dn s i it C Hi H2) as [C1 D1]. split; [split; assumption|].
  destruct (ilinked it) eqn:Hl.
  - destruct (unlink_spec s i it C Hi Hl) as (_ & _ & Ho & _ & L & _). auto.
  - unfold KvModel.unlink. rewrite Hi, Hl. cbn [negb]. split; [reflexivity|].
    intros b c. destruct (unlink_q_spec s i it C Hi) as (_ & _ & L).
    rewrite <- L. unfold KvModel.unlink_q. rewrite Hi.
    destruct (inlru it) eqn:Q; [rewrite (c_il _ C _ _ Hi Q) in Hl; discriminate|]. reflexivity.
Qed.

Lemma reclaim_good s i c ora s' got ora' : Core s -> dead s i = true ->
  KvModel.reclaim lru_class maxcls s i c ora = (s', got, ora') ->
  s' = unlink s i /\ Good s s'.
Proof.
  intros C D. unfold KvModel.reclaim. destruct (dead_unlink s i C D) as [G _].
  destruct (Nat.eqb c 0); [destruct (popb ora)|]; injection 1 as <- _ _; auto.
Qed.

Lemma invalidate_good s o : Core s -> (forall i, o = Some i -> items s i <> None) ->
  Good s (KvModel.invalidate_if_dead lru_class maxcls s o).
Proof.
  intros C H. destruct o as [i|]; cbn [KvModel.invalidate_if_dead]; [|apply Good_refl; exact C].
  destruct (items s i) eqn:E; [|exfalso; eapply H; eauto].
  destruct (dead s i) eqn:D; [apply dead_unlink; assumption|apply Good_refl; exact C].
Qed.

Lemma regain_good n : forall l s c, Core s -> NoDup l -> (forall i, In i l -> In i (lru s false c)) ->
  Good s (KvModel.regain lru_class maxcls n l s).
Proof.
  induction n as [|n IH]; intros [|i l] s c C ND H; cbn [KvModel.regain]; try (apply Good_refl; exact C).
  destruct (in_lru_item s false c i C (H i (or_introl eq_refl))) as [it (Hi & Hl & Hq & Hs & Hc)].
  rewrite Hi. inversion ND; subst.
  set (s1 := if Nat.eqb (iref it) 0 then _ else _).
  assert (K : Good s s1 /\ forall b c, lru s1 b c = filter (fun j => negb (Nat.eqb j i)) (lru s b c)).
  { subst s1. destruct (Nat.eqb_spec (iref it) 0) as [Z|Z].
    - destruct (isvalid s it) eqn:V.
      + destruct (evict_dn s i it C Hi Hl V Z Hs) as (A & B & L & _). split; [split; assumption|exact L].
      + destruct (unlink_dn s i it C Hi V) as [A B]. split; [split; assumption|].
        destruct (unlink_spec s i it C Hi Hl) as (_ & _ & _ & _ & L & _). exact L.
    - destruct (unlink_q_spec s i it C Hi) as (A & _ & L). split; [|exact L].
      split; [exact A|]. eapply unlink_q_dn; eassumption. }
  destruct K as [G L]. eapply Good_trans; [exact C|exact G|].
  apply IH with (c := cls it); [apply G|assumption|]. intros j Hj. rewrite L. apply filter_ne_in.
  split; [apply H; right; exact Hj|]. intros ->. contradiction.
Qed.

Lemma sticky_loop_good n : forall s c ora s' got ora', Core s ->
  KvModel.sticky_loop lru_class maxcls n s c ora = (s', got, ora') -> Good s s'.
Proof.
  induction n as [|n IH]; intros s c ora s' got ora' C; cbn [KvModel.sticky_loop].
  { injection 1 as <- _ _. apply Good_refl; exact C. }
  destruct (smk s c) as [i|] eqn:M; [|injection 1 as <- _ _; apply Good_refl; exact C].
  destruct (in_lru_item s true c i C (c_smk _ C _ _ M)) as [it (Hi & _)]. rewrite Hi.
  pose proof (smk_prev_good s c i C M) as G1. set (s1 := w_smk s _) in *.
  destruct (dead s1 i) eqn:D.
  - destruct (KvModel.reclaim lru_class maxcls s1 i c ora) as [[s2 g] o2] eqn:R.
    destruct (reclaim_good _ _ _ _ _ _ _ (proj1 G1) D R) as [_ G2].
    assert (G : Good s s2) by (eapply Good_trans; eassumption).
    destruct g; [injection 1 as <- _ _; exact G|]. intro H.
    eapply Good_trans; [exact C|exact G|]. eapply IH; [apply G|exact H].
  - intro H. eapply Good_trans; [exact C|exact G1|]. eapply IH; [apply G1|exact H].
Qed.

Lemma step2_loop_good n : forall s c ora s' got ora', Core s ->
  KvModel.step2_loop lru_class maxcls n s c ora = (s', got, ora') -> Good s s'.
Proof.
  induction n as [|n IH]; intros s c ora s' got ora' C; cbn [KvModel.step2_loop].
  { injection 1 as <- _ _. apply Good_refl; exact C. }
  destruct (curmk s c) as [i|] eqn:M; [|injection 1 as <- _ _; apply Good_refl; exact C].
  assert (Hin : In i (lru s false c)).
  { pose proof (c_mk _ C c) as K. rewrite M in K. destruct (lowmk s c); [|contradiction]. apply aoa_in in K. tauto. }
  destruct (in_lru_item s false c i C Hin) as [it (Hi & _)]. rewrite Hi.
  pose proof (cur_prev_good s c i C M) as G1. set (s1 := w_curmk s _) in *.
  destruct (dead s1 i) eqn:D.
  - destruct (KvModel.reclaim lru_class maxcls s1 i c ora) as [[s2 g] o2] eqn:R.
    destruct (reclaim_good _ _ _ _ _ _ _ (proj1 G1) D R) as [_ G2].
    assert (G : Good s s2) by (eapply Good_trans; eassumption).
    destruct g; [injection 1 as <- _ _; exact G|]. intro H.
    eapply Good_trans; [exact C|exact G|]. eapply IH; [apply G|exact H].
  - intro H. eapply Good_trans; [exact C|exact G1|]. eapply IH; [apply G1|exact H].
Qed.

Lemma onat_eqb_eq a b : onat_eqb a b = true <-> a = b.
Proof. destruct a, b; cbn; try (split; congruence). rewrite Nat.eqb_eq. split; congruence. Qed.

Lemma step1_loop_good n : forall s c search prv ora s' got prv' tr ora', Core s ->
  (forall i, search = Some i -> In i (lru s false c)) ->
  KvModel.step1_loop lru_class maxcls n s c search prv ora = (s', got, prv', tr, ora') ->
  Good s s' /\ (got = true -> forall i, prv' = Some i -> In i (lru s' false c)).
Proof.
  induction n as [|n IH]; intros s c search prv ora s' got prv' tr ora' C Hs; cbn [KvModel.step1_loop].
  { injection 1 as <- <- _ _ _. split; [apply Good_refl; exact C|discriminate]. }
  destruct search as [i|]; [|injection 1 as <- <- _ _ _; split; [apply Good_refl; exact C|discriminate]].
  destruct (onat_eqb (Some i) (curmk s c)) eqn:Q;
    [injection 1 as <- <- _ _ _; split; [apply Good_refl; exact C|discriminate]|].
  specialize (Hs i eq_refl). destruct (in_lru_item s false c i C Hs) as [it (Hi & _)]. rewrite Hi.
  set (p := prev_in (lru s false c) i).
  destruct (dead s i) eqn:D.
  - destruct (KvModel.reclaim lru_class maxcls s i c ora) as [[s2 g] o2] eqn:R.
    destruct (reclaim_good _ _ _ _ _ _ _ C D R) as [-> G2].
    destruct (dead_unlink s i C D) as (_ & _ & L).
    assert (Hp : forall x, p = Some x -> In x (lru (unlink s i) false c)).
    { intros x E. rewrite L. apply filter_ne_in. split; [eapply prev_in_In; exact E|].
      eapply prev_in_ne; [apply C|exact E]. }
    destruct g; [injection 1 as <- <- <- _ _; split; [exact G2|intros _; exact Hp]|].
    intro H. destruct (IH _ _ _ _ _ _ _ _ _ _ (proj1 G2) Hp H) as [G3 P3].
    split; [eapply Good_trans; eassumption|exact P3].
  - set (s1 := if (iexp it =? 0) && _ then _ else s).
    assert (G1 : Good s s1 /\ lru s1 = lru s).
    { subst s1. destruct ((iexp it =? 0) && onat_eqb (Some i) (lowmk s c)) eqn:B.
      - apply andb_prop in B as [_ B]. apply onat_eqb_eq in B. split; [|reflexivity].
        apply low_prev_good; [exact C|auto|]. intro E. rewrite E in Q. cbn in Q. rewrite Nat.eqb_refl in Q. discriminate.
      - split; [apply Good_refl; exact C|reflexivity]. }
    destruct G1 as [G1 L1]. intro H.
    destruct (IH _ _ _ _ _ _ _ _ _ _ (proj1 G1) ltac:(rewrite L1; intros x E; eapply prev_in_In; exact E) H) as [G3 P3].
    split; [eapply Good_trans; eassumption|exact P3].
Qed.

Lemma evict_loop_good n : forall l s c c0 ora s' got ora', Core s -> NoDup l ->
  (forall i, In i l -> In i (lru s false c0)) ->
  KvModel.evict_loop lru_class maxcls n l s c ora = (s', got, ora') -> Good s s'.
Proof.
  induction n as [|n IH]; intros [|i l] s c c0 ora s' got ora' C ND H; cbn [KvModel.evict_loop];
    try (injection 1 as <- _ _; apply Good_refl; exact C).
  destruct (in_lru_item s false c0 i C (H i (or_introl eq_refl))) as [it (Hi & Hl & Hq & Hs & Hc)].
  rewrite Hi. inversion ND; subst. destruct (Nat.eqb_spec (iref it) 0) as [Z|Z].
  - destruct (if isvalid s it then _ else _) as [[s2 g] o2] eqn:E.
    assert (K : Good s s2 /\ forall b c, lru s2 b c = filter (fun j => negb (Nat.eqb j i)) (lru s b c)).
    { destruct (isvalid s it) eqn:V.
      - destruct (popb ora). injection E as <- _ _.
        destruct (evict_dn s i it C Hi Hl V Z Hs) as (A & B & L & _). split; [split; assumption|exact L].
      - assert (D : dead s i = true) by (unfold dead; rewrite Hi, Z, V; reflexivity).
        destruct (reclaim_good _ _ _ _ _ _ _ C D E) as [-> G]. split; [exact G|].
        apply dead_unlink; assumption. }
    destruct K as [G L]. destruct g; [injection 1 as <- _ _; exact G|]. intro R.
    eapply Good_trans; [exact C|exact G|]. eapply (IH l); [apply G|assumption| |exact R].
    instantiate (1 := cls it). intros j Hj. rewrite L. apply filter_ne_in.
    split; [apply H; right; exact Hj|]. intros ->. contradiction.
  - destruct (unlink_q_spec s i it C Hi) as (A & _ & L).
    assert (G : Good s (unlink_q s i)) by (split; [exact A|eapply unlink_q_dn; eassumption]).
    intro R. eapply Good_trans; [exact C|exact G|]. eapply (IH l); [apply G|assumption| |exact R].
    instantiate (1 := cls it). intros j Hj. rewrite L. apply filter_ne_in.
    split; [apply H; right; exact Hj|]. intros ->. contradiction.
Qed.

Lemma free_repaired s i : repaired (free s i) = repaired s.
Proof. unfold free. destruct (items s i); [destruct (_ || _)|]; reflexivity. Qed.
Lemma drop_repaired s p : repaired (drop_prefix s p) = repaired s.
Proof. apply drop_fields. Qed.
Lemma detach_repaired s i : repaired (detach s i) = repaired s.
Proof. unfold detach. destruct (items s i); [rewrite drop_repaired|]; reflexivity. Qed.
Lemma unlink_repaired s i : repaired (unlink s i) = repaired s.
Proof.
  unfold KvModel.unlink. destruct (items s i) as [it|]; [|reflexivity].
  destruct (negb (ilinked it)); [reflexivity|].
  destruct (Nat.eqb (iref it) 0); rewrite ?free_repaired, detach_repaired; apply unlink_q_env.
Qed.

Lemma repair_loop_flag n : forall l s ora s' got ora',
  KvModel.repair_loop lru_class maxcls n l s ora = (s', got, ora') ->
  repaired s = true -> repaired s' = true.
Proof.
  induction n as [|n IH]; intros [|i l] s ora s' got ora'; cbn [KvModel.repair_loop];
    try (injection 1 as <- _ _; auto).
  destruct (items s i) as [it|] eqn:Hi; [|injection 1 as <- _ _; auto].
  destruct (negb (Nat.eqb (iref it) 0) && (itime it + 10800 <? now s)); [|eauto].
  assert (K : repaired (KvModel.repair lru_class maxcls s i) = true).
  { unfold KvModel.repair. rewrite Hi, unlink_repaired. reflexivity. }
  destruct (popb ora) as [b o2]. destruct b; [injection 1 as <- _ _; auto|]. intros H _. eauto.
Qed.

Lemma repair_loop_good n : forall l s ora s' got ora', Core s -> (forall i, In i l -> items s i <> None) ->
  KvModel.repair_loop lru_class maxcls n l s ora = (s', got, ora') -> repaired s' = false ->
  s' = s.
Proof.
  induction n as [|n IH]; intros [|i l] s ora s' got ora' C H; cbn [KvModel.repair_loop];
    try (injection 1 as <- _ _; auto).
  destruct (items s i) as [it|] eqn:Hi; [|exfalso; eapply (H i); [left; reflexivity|exact Hi]].
  destruct (negb (Nat.eqb (iref it) 0) && (itime it + 10800 <? now s)).
  - assert (K : repaired (KvModel.repair lru_class maxcls s i) = true).
    { unfold KvModel.repair. rewrite Hi, unlink_repaired. reflexivity. }
    destruct (popb ora) as [b o2]. destruct b.
    + injection 1 as <- _ _. congruence.
    + intros R F. apply repair_loop_flag in R; [congruence|exact K].
  - intros R F. eapply IH; [exact C| |exact R|exact F]. intros j Hj. apply H. right. exact Hj.
Qed.

Lemma mem_reclaim_good s c ora s' got ora' : Core s ->
  KvModel.mem_reclaim lru_class maxcls s c ora = (s', got, ora') -> Good s s'.
Proof.
  intro C. unfold KvModel.mem_reclaim.
  destruct (curmk s c) as [cu|] eqn:CU; [|injection 1 as <- _ _; apply Good_refl; exact C].
  pose proof (c_mk _ C c) as M. rewrite CU in M. destruct (lowmk s c) as [lo|] eqn:LO; [|contradiction].
  cbn [mk_ok] in M. apply aoa_in in M as [M _].
  destruct (KvModel.step1_loop lru_class maxcls 10 s c (Some lo) None ora) as [[[[s1 g] prv] tr] o1] eqn:S1.
  assert (Hlo : forall i, Some lo = Some i -> In i (lru s false c)) by (intros i E; injection E as <-; exact M).
  destruct (step1_loop_good _ _ _ _ _ _ _ _ _ _ _ C Hlo S1) as [G1 P1].
  destruct g.
  - injection 1 as <- _ _. eapply Good_trans; [exact C|exact G1|]. apply invalidate_good; [apply G1|].
    intros i E. apply P1 in E; [|reflexivity]. apply in_lru_item in E as [it [E _]]; [congruence|apply G1].
  - destruct (KvModel.step2_loop lru_class maxcls (tr + 20) s1 c o1) as [[s2 g2] o2] eqn:S2.
    pose proof (step2_loop_good _ _ _ _ _ _ _ (proj1 G1) S2) as G2.
    assert (G02 : Good s s2) by (eapply Good_trans; eassumption).
    set (s3 := match curmk s2 c with Some _ => s2 | None => _ end).
    assert (G3 : Good s s3).
    { subst s3. destruct (curmk s2 c) eqn:CU2; [exact G02|].
      eapply Good_trans; [exact C|exact G02|]. apply cur_reset_good; [apply G02|exact CU2]. }
    destruct g2.
    + injection 1 as <- _ _. eapply Good_trans; [exact C|exact G3|]. apply invalidate_good; [apply G3|].
      intros i E. pose proof (c_mk _ (proj1 G3) c) as M3. rewrite E in M3.
      destruct (lowmk s3 c); [|contradiction]. apply aoa_in in M3 as [_ M3].
      apply in_lru_item in M3 as [it [M3 _]]; [congruence|apply G3].
    + injection 1 as <- _ _. exact G3.
Qed.

Lemma NoDup_rev_l {A} (l : list A) : NoDup l -> NoDup (rev l).
Proof. apply NoDup_rev. Qed.

Variable evict_on : bool.
Lemma mem_alloc_good s c o s' got : Core s -> repaired s = false ->
  KvModel.mem_alloc lru_class maxcls evict_on s c o = (s', got) -> repaired s' = false -> Good s s'.
Proof.
  intros C RF. unfold KvModel.mem_alloc.
  set (s0 := if evict_on && Nat.eqb c 0 then _ else s).
  assert (G0 : Good s s0).
  { subst s0. destruct (evict_on && Nat.eqb c 0); [|apply Good_refl; exact C].
    apply regain_good with (c := 0%nat); [exact C|apply NoDup_rev, C|]. intros i H. apply in_rev. exact H. }
  destruct (KvModel.sticky_loop lru_class maxcls 10 s0 c (o_slabs o)) as [[s1 g1] o1] eqn:E1.
  pose proof (sticky_loop_good _ _ _ _ _ _ _ (proj1 G0) E1) as G1'.
  assert (G1 : Good s s1) by (eapply Good_trans; eassumption).
  destruct g1.
  { injection 1 as <- _. intros _. eapply Good_trans; [exact C|exact G1|]. apply invalidate_good; [apply G1|].
    intros i E. apply (c_smk _ (proj1 G1)) in E. apply in_lru_item in E as [it [E _]]; [congruence|apply G1]. }
  destruct (KvModel.mem_reclaim lru_class maxcls s1 c o1) as [[s2 g2] o2] eqn:E2.
  pose proof (mem_reclaim_good _ _ _ _ _ _ (proj1 G1) E2) as G2'.
  assert (G2 : Good s s2) by (eapply Good_trans; eassumption).
  destruct g2; [injection 1 as <- _; auto|].
  destruct (popb o2) as [b o3]. destruct b; [injection 1 as <- _; auto|].
  destruct (negb evict_on); [injection 1 as <- _; auto|].
  destruct (KvModel.evict_loop lru_class maxcls 200 (rev (lru s2 false c)) s2 c o3) as [[s4 g4] o4] eqn:E4.
  assert (G4' : Good s2 s4).
  { eapply evict_loop_good; [apply G2| | |exact E4].
    - apply NoDup_rev, G2.
    - instantiate (1 := c). intros i H. apply in_rev. exact H. }
  assert (G4 : Good s s4) by (eapply Good_trans; eassumption).
  destruct g4; [injection 1 as <- _; auto|].
  destruct (Nat.eqb c 0); [injection 1 as <- _; auto|].
  destruct (KvModel.repair_loop lru_class maxcls 50 (rev (lru s4 false c)) s4 o4) as [[s5 g5] o5] eqn:E5.
  injection 1 as <- _. intro F.
  assert (s5 = s4) as ->; [|exact G4].
  eapply (repair_loop_good 50 (rev (lru s4 false c))); [apply G4| |exact E5|exact F].
  intros i H. apply in_rev in H. apply in_lru_item in H as [it [H _]]; [congruence|apply G4].
Qed.
End P.
