(* Every operation of the table: the map it holds and the visited areas of the scans. *)
From Verif Require Import Base AssocModel AssocSpec AssocProofs AssocScan.
Local Open Scope N_scope.

Lemma take_spec asz elim ccnt : forall l out ec cost seen out' ec' cost' stop,
  take asz elim ccnt l out ec cost seen = (out', ec', cost', stop) ->
  exists l1 l2, l = l1 ++ l2 /\ out' = out ++ its l1 /\
    match stop with None => l2 = [] | Some (sn, r) => sn = seen ++ l1 /\ r = l2 /\ its l1 <> [] end.
Proof.
  induction l as [|[k v|s] l IH]; intros out ec cost seen out' ec' cost' stop H; cbn [take] in H.
  - injection H as <- <- <- <-. exists [], []. split; [reflexivity|]. split; [rewrite app_nil_r; reflexivity|reflexivity].
  - assert (STOP : forall e2, (out ++ [(k, v)], e2, cost, Some (seen ++ [It k v], l)) = (out', ec', cost', stop) ->
       exists l1 l2, It k v :: l = l1 ++ l2 /\ out' = out ++ its l1 /\
         match stop with None => l2 = [] | Some (sn, r) => sn = seen ++ l1 /\ r = l2 /\ its l1 <> [] end).
    { intros e2 E. injection E as <- _ _ <-. exists [It k v], l. split; [reflexivity|]. split; [reflexivity|]. split; [reflexivity|]. split; [reflexivity|discriminate]. }
    assert (GO : forall e2, take asz elim ccnt l (out ++ [(k, v)]) e2 (cost + 1) (seen ++ [It k v]) = (out', ec', cost', stop) ->
       exists l1 l2, It k v :: l = l1 ++ l2 /\ out' = out ++ its l1 /\
         match stop with None => l2 = [] | Some (sn, r) => sn = seen ++ l1 /\ r = l2 /\ its l1 <> [] end).
    { intros e2 E. apply IH in E as (l1 & l2 & -> & -> & K). exists (It k v :: l1), l2. split; [reflexivity|].
      split; [rewrite <- app_assoc; reflexivity|]. destruct stop as [(sn, r)|]; [|exact K]. destruct K as (-> & -> & _).
      split; [rewrite <- app_assoc; reflexivity|]. split; [reflexivity|discriminate]. }
    destruct (asz <=? N.of_nat (length (out ++ [(k, v)]))); [apply (STOP _ H)|].
    destruct (if 0 <? elim then ccnt v else None) as [n|]; [|apply (GO _ H)].
    destruct (elim <? ec + n); [apply (STOP _ H)|apply (GO _ H)].
  - apply IH in H as (l1 & l2 & -> & -> & K). exists (Ph s :: l1), l2. split; [reflexivity|]. split; [reflexivity|].
    destruct stop as [(sn, r)|]; [|exact K]. destruct K as (-> & -> & NE). split; [rewrite <- app_assoc; reflexivity|]. split; [reflexivity|exact NE].
Qed.

Section Run.
Variables (hp : N) (hash : bytes -> N).
Notation hsize := (hsize hp).
Notation bkt k := (bucket_of hp (hash k)).
Notation X k := (N.shiftr (hash k) hp).
Notation cur := (cur hp hash).
Notation base := (base hp hash).
Notation geo := (geo hp).
Notation sinv := (sinv hp).
Notation vis := (vis hp hash).
Notation same_vis := (same_vis hp hash).
Notation scan_ok := (scan_ok hp).

(* a chain changes for one key only *)
Lemma vis_chain a a' k0 l' k : (forall k', cur a' k' = cur a k') -> scans a' = scans a ->
  tab a' = upd (tab a) (cur a k0) (bkt k0) l' ->
  (forall s, In k (kbef s l') <-> In k (kbef s (tab a (cur a k0) (bkt k0)))) -> same_vis a a' k.
Proof.
  intros C SC T K s sc H1 H2. unfold vis, AssocScan.vis. rewrite C. replace (existsb (beqb k) (kbef s (tab a' (cur a k) (bkt k))))
    with (existsb (beqb k) (kbef s (tab a (cur a k) (bkt k)))); [reflexivity|].
  apply existsb_ext_in. rewrite T. unfold upd. destruct ((cur a k =? cur a k0) && (bkt k =? bkt k0)) eqn:E; [|reflexivity].
  apply andb_true_iff in E as [E1 E2]. apply N.eqb_eq in E1, E2. rewrite E1, E2. symmetry. apply K.
Qed.
Lemma same_vis_trans a a1 a2 k : scans a1 = scans a -> same_vis a a1 k -> same_vis a1 a2 k -> same_vis a a2 k.
Proof. intros E H1 H2 s sc N O. rewrite (H2 s sc) by (try exact O; rewrite E; exact N). apply H1; assumption. Qed.

Lemma phs_upd a t0 b0 l' : phs l' = phs (tab a t0 b0) -> forall t b, phs (upd (tab a) t0 b0 l' t b) = phs (tab a t b).
Proof.
  intros E t b. unfold upd. destruct ((t =? t0) && (b =? b0)) eqn:D; [|reflexivity].
  apply andb_true_iff in D as [D1 D2]. apply N.eqb_eq in D1, D2. congruence.
Qed.

Lemma insert_step a m k v m1 m2 : base a m -> stable a -> sinv a -> lookup m k = None ->
  exists a', insert hp hash a k v m1 m2 = Some a' /\ base a' ((k, v) :: m) /\ stable a' /\ sinv a' /\ scans a' = scans a /\
    (forall k', k' <> k -> same_vis a a' k').
Proof.
  intros B ST S N. unfold insert. rewrite (find_ok hp hash a m k B), N. fold (cur a k).
  set (a1 := set_items _ _).
  pose proof (base_insert0 hp hash a m k v B N) as B1. fold a1 in B1.
  assert (S1 : sinv a1).
  { apply (sinv_tab hp a); try reflexivity; [exact S| |intros sc _ _ H; exact H]. apply phs_upd. reflexivity. }
  assert (V1 : forall k', k' <> k -> same_vis a a1 k').
  { intros k' NE. apply (vis_chain a a1 k (It k v :: tab a (cur a k) (bkt k)) k'); try reflexivity.
    intro s. apply (kbef_item s [] k v _ k' NE). }
  destruct (expg a1) eqn:E.
  - destruct (refc a1 (ebkt a1) =? 0) eqn:R.
    + destruct (redistribute_scan hp hash a1 _ B1 S1 E (ST E) ltac:(apply N.eqb_eq; exact R)) as (B2 & ST2 & S2 & SC2 & V2).
      eexists. split; [reflexivity|]. split; [exact B2|]. split; [exact ST2|]. split; [exact S2|]. split; [rewrite SC2; reflexivity|].
      intros k' NE. apply (same_vis_trans a a1); [reflexivity|apply V1; exact NE|apply V2].
    + eexists. split; [reflexivity|]. split; [exact B1|]. split; [exact ST|]. split; [exact S1|]. split; [reflexivity|]. exact V1.
  - destruct (negb (limit a1 =? 0) && (limit a1 <? items a1)) eqn:L.
    + destruct (expand_scan hp hash a1 _ m1 m2 B1 S1 E ltac:(intro H; rewrite H in L; discriminate)) as (B2 & ST2 & S2 & SC2 & V2).
      eexists. split; [reflexivity|]. split; [exact B2|]. split; [exact ST2|]. split; [exact S2|]. split; [rewrite SC2; reflexivity|].
      intros k' NE. apply (same_vis_trans a a1); [reflexivity|apply V1; exact NE|apply V2].
    + eexists. split; [reflexivity|]. split; [exact B1|]. split; [exact ST|]. split; [exact S1|]. split; [reflexivity|]. exact V1.
Qed.

Lemma before_stored a m k : base a m -> stored m k = true -> exists p q, before k (tab a (cur a k) (bkt k)) = Some (p, q).
Proof.
  intros B H. apply stored_in in H. apply in_map_iff in H as ((k', v) & E & H). cbn in E. subst k'.
  apply (b_map hp hash a m B) in H. destruct (before k (tab a (cur a k) (bkt k))) as [(p, q)|] eqn:E; [eauto|].
  exfalso. apply before_none in E. apply E. apply keys_in. exists v. exact H.
Qed.

Lemma delete_step a m k : base a m -> stable a -> sinv a -> stored m k = true ->
  exists a', delete hp hash a k = Some a' /\ base a' (without m k) /\ stable a' /\ sinv a' /\ scans a' = scans a /\
    (forall k', k' <> k -> same_vis a a' k').
Proof.
  intros B ST S I. destruct (before_stored a m k B I) as (p & q & E). unfold delete. fold (cur a k). rewrite E.
  eexists. split; [reflexivity|]. split; [apply (base_delete hp hash a m k p q B E)|]. split; [exact ST|].
  destruct (chain_cell hp hash a m k p q B E) as (v & C & _ & _).
  assert (P : phs (p ++ q) = phs (tab a (cur a k) (bkt k))) by (rewrite C, !phs_app; reflexivity).
  split; [|split; [reflexivity|]].
  - apply (sinv_tab hp a); try reflexivity; [exact S| |intros sc _ _ H; exact H]. apply phs_upd. exact P.
  - intros k' NE. apply (vis_chain a _ k (p ++ q) k'); try reflexivity. intro s. rewrite C. symmetry. apply kbef_item. exact NE.
Qed.

Lemma replace_step a m k v' : base a m -> stable a -> sinv a -> stored m k = true ->
  exists a', replace hp hash a k v' = Some a' /\ base a' ((k, v') :: without m k) /\ stable a' /\ sinv a' /\ scans a' = scans a /\
    (forall k', same_vis a a' k').
Proof.
  intros B ST S I. destruct (before_stored a m k B I) as (p & q & E). unfold replace. fold (cur a k). rewrite E.
  eexists. split; [reflexivity|]. split; [apply (base_replace hp hash a m k v' p q B E)|]. split; [exact ST|].
  destruct (chain_cell hp hash a m k p q B E) as (v & C & _ & _).
  assert (P : phs (p ++ It k v' :: q) = phs (tab a (cur a k) (bkt k))) by (rewrite C, !phs_app; reflexivity).
  split; [|split; [reflexivity|]].
  - apply (sinv_tab hp a); try reflexivity; [exact S| |intros sc _ _ H; exact H]. apply phs_upd. exact P.
  - intros k'. apply (vis_chain a _ k (p ++ It k v' :: q) k'); try reflexivity. intro s. rewrite C.
    change (It k v' :: q) with ([It k v'] ++ q). change (It k v :: q) with ([It k v] ++ q).
    rewrite (kbef_ext s p [It k v'] [It k v] q); [reflexivity|reflexivity|intros []|reflexivity].
Qed.

(* ---------- one call of a scan ---------- *)
Definition W (a : assoc) (s : nat) (sc : scan) : assoc := set_scans a (set_nth (scans a) s sc).

(* the scan goes from sc to sc' and returns d *)
Record adv (s : nat) (m : list (bytes * N)) (a : assoc) (sc : scan) (a' : assoc) (sc' : scan) (d : list (bytes * N)) : Prop := {
  ad_its : forall t b, its (tab a' t b) = its (tab a t b);
  ad_bef : forall s2 t b, s2 <> s -> kbef s2 (tab a' t b) = kbef s2 (tab a t b);
  ad_f1 : rpow a' = rpow a /\ psz a' = psz a /\ rtsz a' = rtsz a /\ expg a' = expg a;
  ad_f2 : ebkt a' = ebkt a /\ etab a' = etab a /\ items a' = items a /\ limit a' = limit a;
  ad_scans : scans a' = scans a;
  ad_vis : forall k, In k (map fst m) -> vis a' s sc' k = vis a s sc k || existsb (beqb k) (map fst d);
  ad_in : forall p, In p d -> In p m;
  ad_nd : NoDup (map fst d);
  ad_new : forall k, In k (map fst d) -> vis a s sc k = false
}.

Lemma adv_cur s m a sc a' sc' d : adv s m a sc a' sc' d -> forall k, cur a' k = cur a k.
Proof.
  intros A k. destruct (ad_f1 _ _ _ _ _ _ _ A) as (E1 & E2 & E3 & E4). destruct (ad_f2 _ _ _ _ _ _ _ A) as (E5 & E6 & _).
  unfold cur, AssocProofs.cur, cur_tabidx, pmask, rmask, rsize. rewrite E1, E2, E4, E5, E6. reflexivity.
Qed.
Lemma adv_base s m a sc a' sc' d : adv s m a sc a' sc' d -> base a m -> base a' m.
Proof.
  intros A B. destruct (ad_f1 _ _ _ _ _ _ _ A) as (E1 & E2 & E3 & E4). destruct (ad_f2 _ _ _ _ _ _ _ A) as (E5 & E6 & E7 & E8).
  apply (base_same hp hash a); try assumption. apply (ad_its _ _ _ _ _ _ _ A).
Qed.
Lemma existsb_app_keys k (l1 l2 : list bytes) : existsb (beqb k) (l1 ++ l2) = existsb (beqb k) l1 || existsb (beqb k) l2.
Proof. apply existsb_app. Qed.

Lemma adv_trans s m a sc a1 sc1 d1 a2 sc2 d2 : adv s m a sc a1 sc1 d1 -> adv s m a1 sc1 a2 sc2 d2 -> adv s m a sc a2 sc2 (d1 ++ d2).
Proof.
  intros A1 A2. destruct A1 as [I1 B1 F1 G1 S1 V1 M1 N1 W1], A2 as [I2 B2 F2 G2 S2 V2 M2 N2 W2]. constructor.
  - intros. rewrite I2, I1. reflexivity.
  - intros. rewrite B2, B1 by assumption. reflexivity.
  - destruct F1 as (? & ? & ? & ?), F2 as (? & ? & ? & ?). repeat split; congruence.
  - destruct G1 as (? & ? & ? & ?), G2 as (? & ? & ? & ?). repeat split; congruence.
  - congruence.
  - intros k H. rewrite V2, V1 by exact H. rewrite map_app, existsb_app_keys, orb_assoc. reflexivity.
  - intros p H. apply in_app_or in H as [H|H]; auto.
  - rewrite map_app. apply nodup_app3. split; [exact N1|]. split; [exact N2|]. intros k H1 H2. specialize (W2 k H2).
    assert (IM : In k (map fst m)) by (apply in_map_iff in H1 as (x & E & H1); apply in_map_iff; exists x; auto).
    rewrite V1 in W2 by exact IM. apply orb_false_iff in W2 as [_ W2]. apply existsb_in in H1. congruence.
  - intros k H. rewrite map_app in H. apply in_app_or in H as [H|H]; [auto|]. specialize (W2 k H).
    assert (IM : In k (map fst m)) by (apply in_map_iff in H as (x & E & H'); apply in_map_iff; exists x; auto).
    rewrite V1 in W2 by exact IM. apply orb_false_iff in W2. tauto.
Qed.
Lemma adv_refl s m a sc : adv s m a sc a sc [].
Proof. constructor; try reflexivity; try (repeat split; reflexivity); [intros; rewrite orb_false_r; reflexivity|intros ? []|constructor|intros ? []]. Qed.

(* the scan of one chain *)
Lemma chain_adv s m a sc l1 l2 pre sc' l' : base a m -> nth_error (scans a) s <> None -> sinv (W a s sc) -> s_on sc = true ->
  0 < s_tabcnt sc -> s_bucket sc < hsize -> s_tabidx sc < s_tabcnt sc ->
  (if s_linked sc then tab a (s_tabidx sc) (s_bucket sc) = pre ++ Ph s :: l1 ++ l2 /\ ~ In s (phs pre)
   else pre = [] /\ tab a (s_tabidx sc) (s_bucket sc) = l1 ++ l2) ->
  (l2 <> [] /\ sc' = mkScan (s_bucket sc) (s_tabcnt sc) (s_tabidx sc) true true /\ l' = pre ++ l1 ++ Ph s :: l2) \/
  (l2 = [] /\ sc' = mkScan (s_bucket sc) (s_tabcnt sc) (s_tabidx sc + 1) false true /\ l' = pre ++ l1 ++ l2) ->
  let a' := set_tab a (upd (tab a) (s_tabidx sc) (s_bucket sc) l') in
  adv s m a sc a' sc' (its l1) /\ sinv (W a' s sc').
Proof.
  intros B NS S ON T BL TI CH CASE. cbv zeta. set (t := s_tabidx sc) in *. set (b := s_bucket sc) in *. set (l := tab a t b) in *.
  set (a' := set_tab _ _).
  assert (TA : forall t' b', tab a' t' b' = if (t' =? t) && (b' =? b) then l' else tab a t' b') by reflexivity.
  destruct (nth_error (scans a) s) as [sc0|] eqn:NS0; [clear NS|congruence].
  assert (NW : forall s2, nth_error (scans (W a s sc)) s2 = if Nat.eqb s s2 then Some sc else nth_error (scans a) s2).
  { intro s2. unfold W. cbn [set_scans scans]. rewrite nth_set_nth, NS0. reflexivity. }
  (* the placeholder in the chain *)
  assert (PHL : In s (phs l) <-> s_linked sc = true).
  { unfold l. change (tab a) with (tab (W a s sc)). rewrite (si_ph hp _ S). split.
    - intros (sc1 & H1 & _ & H3 & _). rewrite NW, Nat.eqb_refl in H1. congruence.
    - intro H. exists sc. rewrite NW, Nat.eqb_refl. repeat split; assumption. }
  assert (NDP : NoDup (phs l)) by (apply (si_nd hp _ S)).
  assert (ITL : its l = its pre ++ its l1 ++ its l2).
  { destruct (s_linked sc); destruct CH as [C1 C2]; [rewrite C1|rewrite C1, C2]; rewrite ?its_app; cbn [its flat_map app]; fold (its (l1 ++ l2)); rewrite ?its_app; reflexivity. }
  assert (ITL' : its l' = its l).
  { rewrite ITL. destruct CASE as [(_ & _ & ->)|(_ & _ & ->)]; rewrite !its_app; reflexivity. }
  assert (NPRE : ~ In s (phs (pre ++ l1 ++ l2))).
  { destruct (s_linked sc) eqn:LK.
    - destruct CH as [C1 C2]. rewrite C1, phs_app in NDP. cbn [phs flat_map app] in NDP. fold (phs (l1 ++ l2)) in NDP.
      rewrite phs_app. apply (NoDup_remove_2 _ _ _ NDP).
    - destruct CH as [-> C2]. cbn [app]. rewrite <- C2. intro H. apply PHL in H. discriminate. }
  assert (OTH : forall s2, s2 <> s -> kbef s2 l = kbef s2 (pre ++ l1 ++ l2) /\ kbef s2 l' = kbef s2 (pre ++ l1 ++ l2)).
  { intros s2 NE. split.
    - destruct (s_linked sc); destruct CH as [C1 C2]; [rewrite C1; apply kbef_ph; exact NE|rewrite C1, C2; reflexivity].
    - destruct CASE as [(_ & _ & ->)|(_ & _ & ->)]; [|reflexivity]. rewrite !app_assoc. apply kbef_ph. exact NE. }
  assert (PHS2 : forall s2, s2 <> s -> In s2 (phs l') <-> In s2 (phs l)).
  { intros s2 NE.
    assert (A1 : In s2 (phs l) <-> In s2 (phs (pre ++ l1 ++ l2))).
    { destruct (s_linked sc); destruct CH as [C1 C2]; [|rewrite C1, C2; reflexivity]. rewrite C1, !phs_app, !in_app_iff. cbn [phs flat_map app In].
      fold (phs (l1 ++ l2)). rewrite phs_app, in_app_iff. split; [|tauto]. intros [H|[H|H]]; [tauto|congruence|tauto]. }
    rewrite A1. destruct CASE as [(_ & _ & ->)|(_ & _ & ->)]; [|reflexivity]. rewrite !phs_app, !in_app_iff. cbn [phs flat_map app In]. fold (phs l2).
    split; [|tauto]. intros [H|[H|[H|H]]]; [tauto|tauto|congruence|tauto]. }
  assert (NDP' : NoDup (phs (pre ++ l1 ++ l2))).
  { destruct (s_linked sc); destruct CH as [C1 C2]; [|rewrite C1; cbn [app]; rewrite <- C2; exact NDP].
    rewrite C1, phs_app in NDP. cbn [phs flat_map app] in NDP. fold (phs (l1 ++ l2)) in NDP. rewrite phs_app. apply (NoDup_remove_1 _ _ _ NDP). }
  assert (CURL : forall k v, In (k, v) (its l) -> bkt k = b /\ cur a k = t).
  { intros k v H. destruct (b_loc hp hash a m B _ _ _ _ H). auto. }
  assert (NDK : NoDup (keys l)) by (apply (b_nd hp hash a m B)).
  assert (KL : keys l = keys pre ++ keys l1 ++ keys l2) by (unfold keys; rewrite ITL, !map_app; reflexivity).
  rewrite KL in NDK.
  assert (KB : s_linked sc = true -> kbef s l = keys pre).
  { intro H. rewrite H in CH. destruct CH as [C1 C2]. unfold kbef. rewrite C1, cut_ph_app by exact C2. reflexivity. }
  assert (VB : forall k, bkt k = b -> cur a k = t -> vis a s sc k = s_linked sc && existsb (beqb k) (keys pre)).
  { intros k E1 E2. unfold vis, AssocScan.vis. fold b t. rewrite E1, E2, N.ltb_irrefl, N.eqb_refl, N.ltb_irrefl, N.eqb_refl.
    replace (s_tabcnt sc =? 0) with false by (symmetry; apply N.eqb_neq; lia). cbn [orb andb negb]. fold l.
    destruct (s_linked sc) eqn:LK; [|reflexivity]. rewrite KB by reflexivity. reflexivity. }
  assert (PREU : s_linked sc = false -> pre = []) by (intro H; rewrite H in CH; tauto).
  split.
  - constructor; try (repeat split; reflexivity).
    + intros t' b'. rewrite TA. destruct ((t' =? t) && (b' =? b)) eqn:D; [|reflexivity]. apply andb_true_iff in D as [D1 D2].
      apply N.eqb_eq in D1, D2. subst t' b'. exact ITL'.
    + intros s2 t' b' NE. rewrite TA. destruct ((t' =? t) && (b' =? b)) eqn:D; [|reflexivity]. apply andb_true_iff in D as [D1 D2].
      apply N.eqb_eq in D1, D2. subst t' b'. destruct (OTH s2 NE) as [O1 O2]. fold l. congruence.
    + intros k IM. assert (C' : cur a' k = cur a k) by reflexivity.
      destruct (N.eq_dec (bkt k) b) as [E1|NE1].
      * destruct (N.eq_dec (cur a k) t) as [E2|NE2].
        -- rewrite VB by assumption.
           assert (INL : In k (keys pre ++ keys l1 ++ keys l2)).
           { rewrite <- KL. apply in_map_iff in IM as ((k', v) & E & IM). cbn in E. subst k'. apply (b_map hp hash a m B) in IM. rewrite E1, E2 in IM.
             apply keys_in. exists v. exact IM. }
           apply nodup_app3 in NDK as (N1 & N2 & N3).
           destruct CASE as [(NE2 & -> & EL)|(E0 & -> & EL)].
           ++ unfold vis, AssocScan.vis. cbn [s_bucket s_tabcnt s_tabidx s_linked]. rewrite C', E1, E2, N.ltb_irrefl, N.eqb_refl, N.ltb_irrefl, N.eqb_refl.
              replace (s_tabcnt sc =? 0) with false by (symmetry; apply N.eqb_neq; lia). cbn [orb andb negb].
              rewrite TA, !N.eqb_refl. cbn [andb]. rewrite EL. unfold kbef. rewrite app_assoc, cut_ph_app.
              ** rewrite keys_app, existsb_app_keys. unfold keys at 2. destruct (s_linked sc) eqn:LK; [reflexivity|].
                 rewrite (PREU eq_refl). reflexivity.
              ** rewrite phs_app. rewrite !phs_app in NPRE. rewrite !in_app_iff in *. tauto.
           ++ unfold vis, AssocScan.vis. cbn [s_bucket s_tabcnt s_tabidx s_linked]. rewrite C', E1, E2, N.ltb_irrefl, N.eqb_refl.
              replace (s_tabcnt sc =? 0) with false by (symmetry; apply N.eqb_neq; lia). cbn [orb andb negb].
              replace (t <? t + 1) with true by lia. cbn [orb]. symmetry. subst l2. cbn [keys its flat_map map] in INL. rewrite app_nil_r in INL.
              apply orb_true_iff. apply in_app_or in INL as [I|I].
              ** left. destruct (s_linked sc) eqn:LK; [apply existsb_in; exact I|]. rewrite (PREU eq_refl) in I. destruct I.
              ** right. apply existsb_in. exact I.
        -- assert (NI : existsb (beqb k) (map fst (its l1)) = false).
           { apply not_true_is_false. intro H. apply existsb_in in H. apply keys_in in H as (v & H). apply NE2.
             apply (CURL k v). rewrite ITL. apply in_or_app. right. apply in_or_app. left. exact H. }
           rewrite NI, orb_false_r. unfold vis, AssocScan.vis.
           destruct CASE as [(_ & -> & EL)|(E0 & -> & EL)]; cbn [s_bucket s_tabcnt s_tabidx s_linked]; fold b t; rewrite C'.
           ++ replace (cur a k =? t) with false by (symmetry; apply N.eqb_neq; exact NE2). reflexivity.
           ++ replace (cur a k =? t) with false by (symmetry; apply N.eqb_neq; exact NE2). rewrite andb_false_r.
              replace (cur a k <? t + 1) with (cur a k <? t) by lia. reflexivity.
      * assert (NI : existsb (beqb k) (map fst (its l1)) = false).
        { apply not_true_is_false. intro H. apply existsb_in in H. apply keys_in in H as (v & H). apply NE1.
          apply (CURL k v). rewrite ITL. apply in_or_app. right. apply in_or_app. left. exact H. }
        rewrite NI, orb_false_r. unfold vis, AssocScan.vis. destruct CASE as [(_ & -> & EL)|(E0 & -> & EL)]; cbn [s_bucket s_tabcnt s_tabidx s_linked]; fold b;
          replace (bkt k =? b) with false by (symmetry; apply N.eqb_neq; exact NE1); reflexivity.
    + intros (k, v) H. apply (b_map hp hash a m B). assert (IL : In (k, v) (its l)) by (rewrite ITL; apply in_or_app; right; apply in_or_app; left; exact H).
      destruct (CURL _ _ IL) as [-> ->]. exact IL.
    + apply nodup_app3 in NDK as (_ & N2 & _). apply nodup_app3 in N2 as (N2 & _). exact N2.
    + intros k H. pose proof H as H0. apply keys_in in H as (v & H).
      assert (IL : In (k, v) (its l)) by (rewrite ITL; apply in_or_app; right; apply in_or_app; left; exact H).
      destruct (CURL _ _ IL) as [E1 E2]. rewrite VB by assumption. apply andb_false_iff. right. apply not_true_is_false. intro D. apply existsb_in in D.
      apply nodup_app3 in NDK as (_ & _ & N3). apply (N3 k D). apply in_or_app. left. exact H0.
  - assert (BU : forall b', busy b' sc' = busy b' sc).
    { intro b'. unfold busy. rewrite ON. destruct CASE as [(_ & -> & _)|(_ & -> & _)]; reflexivity. }
    constructor.
    + intros t' b' s2. change (tab (W a' s sc')) with (tab a'). rewrite TA.
      assert (NW' : nth_error (scans (W a' s sc')) s2 = if Nat.eqb s s2 then Some sc' else nth_error (scans a) s2).
      { unfold W. cbn [set_scans scans]. rewrite nth_set_nth. change (scans a') with (scans a). rewrite NS0. reflexivity. }
      rewrite NW'. clear NW'. destruct (Nat.eqb_spec s s2) as [EQ|NE]; [subst s2|].
      * split.
        -- intro H. exists sc'. split; [reflexivity|]. destruct ((t' =? t) && (b' =? b)) eqn:D.
           ++ apply andb_true_iff in D as [D1 D2]. apply N.eqb_eq in D1, D2. subst t' b'.
              destruct CASE as [(_ & -> & EL)|(_ & -> & EL)]; [repeat split; reflexivity|]. exfalso. rewrite EL in H. exact (NPRE H).
           ++ exfalso. change (tab a) with (tab (W a s sc)) in H. apply (si_ph hp _ S) in H as (sc1 & H1 & H2 & H3 & H4 & H5).
              rewrite NW, Nat.eqb_refl in H1. injection H1 as <-. fold t in H4. fold b in H5. subst t' b'. rewrite !N.eqb_refl in D. discriminate.
        -- intros (sc1 & H1 & H2 & H3 & H4 & H5). injection H1 as <-. destruct CASE as [(_ & -> & EL)|(_ & -> & EL)]; [|discriminate].
           cbn in H4, H5. subst t' b'. fold t b. rewrite !N.eqb_refl. cbn [andb]. rewrite EL, !phs_app. apply in_or_app. right. apply in_or_app. right. left. reflexivity.
      * assert (IFF : In s2 (phs (if (t' =? t) && (b' =? b) then l' else tab a t' b')) <-> In s2 (phs (tab a t' b'))).
        { destruct ((t' =? t) && (b' =? b)) eqn:D; [|reflexivity]. apply andb_true_iff in D as [D1 D2]. apply N.eqb_eq in D1, D2. subst t' b'. apply PHS2. congruence. }
        rewrite IFF. change (tab a) with (tab (W a s sc)). rewrite (si_ph hp _ S). rewrite NW. destruct (Nat.eqb_spec s s2); [congruence|]. reflexivity.
    + intros t' b'. change (tab (W a' s sc')) with (tab a'). rewrite TA. destruct ((t' =? t) && (b' =? b)); [|apply (si_nd hp _ S)].
      destruct CASE as [(_ & _ & ->)|(_ & _ & ->)]; [|exact NDP'].
      rewrite !phs_app in *. cbn [phs flat_map app]. fold (phs l2). rewrite app_assoc in *. apply NoDup_Add with (a := s) (l := (phs pre ++ phs l1) ++ phs l2).
      * apply Add_app.
      * split; [exact NDP'|exact NPRE].
    + intro b'. change (refc (W a' s sc')) with (refc (W a s sc)). rewrite (si_ref hp _ S). f_equal. unfold W. cbn [set_scans scans].
      change (scans a') with (scans a).
      pose proof (count_set_nth (busy b') (scans a) s sc0 sc NS0) as C1. pose proof (count_set_nth (busy b') (scans a) s sc0 sc' NS0) as C2.
      rewrite BU in C2. lia.
    + intros s2 sc2 H1 H2. unfold W in H1. cbn [set_scans scans] in H1. change (scans a') with (scans a) in H1. rewrite nth_set_nth, NS0 in H1.
      destruct (Nat.eqb_spec s s2) as [EQ|NE]; [subst s2|].
      * injection H1 as <-. pose proof (si_ok hp _ S s sc) as K. rewrite NW, Nat.eqb_refl in K. specialize (K eq_refl ON).
        destruct K as [(K & _)|(_ & _ & K1 & K2 & K3)]; [lia|]. right.
        destruct CASE as [(_ & -> & _)|(_ & -> & _)]; cbn [s_tabcnt s_bucket s_tabidx s_linked]; fold t b; repeat split; try assumption; try lia; try discriminate; exact K3.
      * pose proof (si_ok hp _ S s2 sc2) as K. rewrite NW in K. destruct (Nat.eqb_spec s s2); [congruence|]. specialize (K H1 H2). exact K.
Qed.

Lemma nth_W a s sc sc0 : nth_error (scans a) s = Some sc0 -> forall s2, nth_error (scans (W a s sc)) s2 = if Nat.eqb s s2 then Some sc else nth_error (scans a) s2.
Proof. intros H s2. unfold W. cbn [set_scans scans]. rewrite nth_set_nth, H. reflexivity. Qed.

(* a scan without placeholder changes its place and the reference counts follow *)
Lemma sinv_move a a' s sc sc' sc0 : nth_error (scans a) s = Some sc0 -> sinv (W a s sc) -> s_linked sc = false -> s_linked sc' = false ->
  tab a' = tab a -> scans a' = scans a -> (forall x, scan_ok a x -> scan_ok a' x) ->
  (forall b, refc a' b + (if busy b sc then 1 else 0) = refc a b + (if busy b sc' then 1 else 0)) ->
  (s_on sc' = true -> scan_ok a' sc') -> sinv (W a' s sc').
Proof.
  intros N S L L' T SC KO R OK. pose proof (nth_W a s sc sc0 N) as NW.
  assert (N' : nth_error (scans a') s = Some sc0) by (rewrite SC; exact N). pose proof (nth_W a' s sc' sc0 N') as NW'. rewrite SC in NW'. constructor.
  - intros t b s2. change (tab (W a' s sc')) with (tab a'). rewrite T. change (tab a) with (tab (W a s sc)). rewrite (si_ph hp _ S).
    rewrite NW, NW'. destruct (Nat.eqb s s2); [|reflexivity]. split; intros (x & E & _ & H & _); injection E as <-; congruence.
  - intros t b. change (tab (W a' s sc')) with (tab a'). rewrite T. apply (si_nd hp _ S).
  - intro b. change (refc (W a' s sc')) with (refc a'). pose proof (si_ref hp _ S b) as E. change (refc (W a s sc)) with (refc a) in E.
    specialize (R b). unfold W in E |- *. cbn [set_scans scans] in E |- *. rewrite SC.
    pose proof (count_set_nth (busy b) (scans a) s sc0 sc N) as C1. pose proof (count_set_nth (busy b) (scans a) s sc0 sc' N) as C2.
    destruct (busy b sc), (busy b sc'), (busy b sc0); lia.
  - intros s2 x H1 H2. rewrite NW' in H1. destruct (Nat.eqb s s2) eqn:D.
    + injection H1 as <-. auto.
    + apply KO. apply (si_ok hp _ S s2 x); [rewrite NW, D; exact H1|exact H2].
Qed.

Lemma set_nth_same {A} (l : list A) i x : nth_error l i = Some x -> set_nth l i x = l.
Proof. revert i; induction l as [|y l IH]; intros [|i] H; cbn in *; try discriminate; [congruence|]. rewrite IH by exact H. reflexivity. Qed.
Lemma set_nth_twice {A} (l : list A) i x y : set_nth (set_nth l i x) i y = set_nth l i y.
Proof. revert i; induction l as [|z l IH]; intros [|i]; cbn; try reflexivity. rewrite IH. reflexivity. Qed.
Lemma W_same a s sc : nth_error (scans a) s = Some sc -> W a s sc = a.
Proof. intro H. unfold W. rewrite set_nth_same by exact H. destruct a; reflexivity. Qed.

(* the placeholder of a scan leaves its chain *)
Lemma sinv_unlink a s sc sc0 p q : nth_error (scans a) s = Some sc0 -> sinv (W a s sc) -> s_on sc = true -> s_linked sc = true ->
  tab a (s_tabidx sc) (s_bucket sc) = p ++ Ph s :: q -> ~ In s (phs p) ->
  sinv (W (set_tab a (upd (tab a) (s_tabidx sc) (s_bucket sc) (p ++ q))) s (mkScan (s_bucket sc) (s_tabcnt sc) (s_tabidx sc) false true)).
Proof.
  intros N S ON LK C NI. set (t := s_tabidx sc) in *. set (b := s_bucket sc) in *. set (sc' := mkScan _ _ _ _ _). set (a' := set_tab _ _).
  pose proof (nth_W a s sc sc0 N) as NW. pose proof (nth_W a' s sc' sc0 N) as NW'. change (scans a') with (scans a) in NW'.
  assert (ND : NoDup (phs (tab a t b))) by (apply (si_nd hp _ S)). rewrite C, phs_app in ND. cbn [phs flat_map app] in ND. fold (phs q) in ND.
  assert (TA : forall t' b', tab (W a' s sc') t' b' = if (t' =? t) && (b' =? b) then p ++ q else tab a t' b') by reflexivity.
  constructor.
  - intros t' b' s2. rewrite TA, NW'.
    assert (OLD : In s2 (phs (tab a t' b')) <-> exists x, (if Nat.eqb s s2 then Some sc else nth_error (scans a) s2) = Some x /\ s_on x = true /\ s_linked x = true /\ s_tabidx x = t' /\ s_bucket x = b').
    { rewrite <- NW. apply (si_ph hp _ S). }
    destruct (Nat.eqb_spec s s2) as [EQ|NE]; [subst s2|].
    + split; [|intros (x & E & _ & H & _); injection E as <-; discriminate]. intro H. exfalso.
      destruct ((t' =? t) && (b' =? b)) eqn:D.
      * apply (NoDup_remove_2 _ _ _ ND). rewrite phs_app in H. exact H.
      * apply OLD in H as (x & E & _ & _ & E1 & E2). injection E as <-. fold t in E1. fold b in E2. subst t' b'. rewrite !N.eqb_refl in D. discriminate.
    + rewrite <- OLD. destruct ((t' =? t) && (b' =? b)) eqn:D; [|reflexivity]. apply andb_true_iff in D as [D1 D2]. apply N.eqb_eq in D1, D2. subst t' b'.
      rewrite C, !phs_app, !in_app_iff. cbn [phs flat_map app In]. fold (phs q). split; [tauto|]. intros [H|[H|H]]; [tauto|congruence|tauto].
  - intros t' b'. rewrite TA. destruct ((t' =? t) && (b' =? b)); [|apply (si_nd hp _ S)]. rewrite phs_app. apply (NoDup_remove_1 _ _ _ ND).
  - intro b'. change (refc (W a' s sc')) with (refc (W a s sc)). rewrite (si_ref hp _ S). f_equal. unfold W. cbn [set_scans scans]. change (scans a') with (scans a).
    assert (BU : busy b' sc' = busy b' sc) by (unfold busy; rewrite ON; reflexivity).
    pose proof (count_set_nth (busy b') (scans a) s sc0 sc N) as C1. pose proof (count_set_nth (busy b') (scans a) s sc0 sc' N) as C2. rewrite BU in C2. lia.
  - intros s2 x H1 H2. rewrite NW' in H1. destruct (Nat.eqb s s2) eqn:D.
    + injection H1 as <-. pose proof (si_ok hp _ S s sc) as K. rewrite NW, Nat.eqb_refl in K. specialize (K eq_refl ON).
      destruct K as [(_ & K & _)|(K1 & K2 & K3 & K4 & K5)]; [congruence|]. right. cbn [sc' s_tabcnt s_bucket s_tabidx s_linked].
      repeat split; try assumption. discriminate.
    + apply (si_ok hp _ S s2 x); [rewrite NW, D; exact H1|exact H2].
Qed.

Lemma cur_tabcnt a sc k : geo a -> cnt_ok a sc -> bkt k = s_bucket sc -> cur a k < s_tabcnt sc.
Proof.
  intros G [E|(E & P & L)] B; [rewrite E; apply cur_lt; exact G|].
  rewrite cur_eq by exact G. destruct (g_exp hp a G E) as (P0 & P1 & _). rewrite P, P1.
  replace (split hp hash a k) with false; [apply N.mod_upper_bound; pose proof (pow_pos (rpow a - 1)); lia|].
  unfold split. rewrite E, B. cbn [negb orb]. destruct L as [L|[L1 L2]].
  - replace (ebkt a <? s_bucket sc) with false by lia. replace (ebkt a =? s_bucket sc) with false by lia. reflexivity.
  - rewrite L2. replace (ebkt a <? s_bucket sc) with false by lia. cbn [orb]. symmetry. apply andb_false_iff. right.
    destruct (X k mod 2 ^ (rpow a - 1)); reflexivity.
Qed.

Lemma rsize_pos a : 0 < rsize a.
Proof. apply pow_pos. Qed.

(* the scan enters a bucket *)
Lemma start_adv s m a sc sc0 : nth_error (scans a) s = Some sc0 -> sinv (W a s sc) -> s_on sc = true -> s_tabcnt sc = 0 -> s_bucket sc < hsize ->
  let a1 := set_refc a (upd1 (refc a) (s_bucket sc) (refc a (s_bucket sc) + 1)) in
  let sc1 := mkScan (s_bucket sc) (rsize a) 0 (s_linked sc) true in
  adv s m a sc a1 sc1 [] /\ sinv (W a1 s sc1) /\ s_linked sc = false.
Proof.
  intros N S ON Z BL a1 sc1.
  assert (LK : s_linked sc = false).
  { pose proof (si_ok hp _ S s sc) as K. rewrite (nth_W a s sc sc0 N), Nat.eqb_refl in K. destruct (K eq_refl ON) as [(_ & K1 & _)|(K1 & _)]; [exact K1|lia]. }
  split; [|split; [|exact LK]].
  - constructor; try (repeat split; reflexivity); try (intros ? []); [|constructor].
    intros k _. cbn [map existsb]. rewrite orb_false_r. unfold vis, AssocScan.vis. cbn [sc1 s_bucket s_tabcnt s_tabidx s_linked].
    rewrite Z, LK. change (cur a1 k) with (cur a k). destruct (cur a k); cbn [N.ltb N.compare N.eqb orb andb negb]; rewrite ?andb_false_r; reflexivity.
  - apply (sinv_move a a1 s sc sc1 sc0); try assumption; try reflexivity; [intros x H; exact H| |].
    + intro b. unfold a1, upd1, busy. cbn [set_refc refc]. cbn [sc1 s_on s_tabcnt s_bucket]. rewrite ON, Z. pose proof (rsize_pos a).
      replace (0 <? rsize a) with true by lia. cbn [andb N.ltb N.compare]. rewrite (N.eqb_sym (s_bucket sc) b). destruct (b =? s_bucket sc) eqn:D; [apply N.eqb_eq in D; subst b|]; lia.
    + intros _. right. cbn [sc1 s_on s_tabcnt s_bucket s_tabidx s_linked]. pose proof (rsize_pos a). repeat split; try lia. left. reflexivity.
Qed.

(* the scan leaves a bucket *)
Lemma finish_adv s m a sc sc0 : nth_error (scans a) s = Some sc0 -> base a m -> sinv (W a s sc) -> s_on sc = true -> 0 < s_tabcnt sc -> s_bucket sc < hsize ->
  s_tabidx sc = s_tabcnt sc ->
  let a1 := set_refc a (upd1 (refc a) (s_bucket sc) (refc a (s_bucket sc) - 1)) in
  let sc1 := mkScan (s_bucket sc + 1) 0 (s_tabidx sc) (s_linked sc) true in
  adv s m a sc a1 sc1 [] /\ sinv (W a1 s sc1).
Proof.
  intros N B S ON P BL TI a1 sc1.
  pose proof (si_ok hp _ S s sc) as K. rewrite (nth_W a s sc sc0 N), Nat.eqb_refl in K. specialize (K eq_refl ON).
  destruct K as [(K & _)|(_ & _ & _ & K4 & K5)]; [lia|].
  assert (LK : s_linked sc = false) by (destruct (s_linked sc); [specialize (K4 eq_refl); lia|reflexivity]).
  split.
  - constructor; try (repeat split; reflexivity); try (intros ? []); [|constructor].
    intros k _. cbn [map existsb]. rewrite orb_false_r. unfold vis, AssocScan.vis. cbn [sc1 s_bucket s_tabcnt s_tabidx s_linked].
    change (cur a1 k) with (cur a k). rewrite N.eqb_refl. cbn [negb]. rewrite andb_false_r, orb_false_r. cbn [andb].
    replace (s_tabcnt sc =? 0) with false by lia. cbn [negb]. rewrite LK, andb_false_r. cbn [andb]. rewrite orb_false_r, andb_true_r.
    destruct (bkt k =? s_bucket sc) eqn:D.
    + apply N.eqb_eq in D. assert (cur a k < s_tabcnt sc) by (apply cur_tabcnt; [exact (b_geo hp hash a m B)|exact K5|exact D]).
      replace (cur a k <? s_tabidx sc) with true by lia. lia.
    + cbn [andb]. lia.
  - apply (sinv_move a a1 s sc sc1 sc0); try assumption; try reflexivity; [intros x H; exact H| |].
    + intro b. unfold a1, upd1. cbn [set_refc refc].
      replace (busy b sc1) with false by (unfold busy; cbn [sc1 s_on s_tabcnt]; reflexivity).
      assert (BU : busy b sc = (b =? s_bucket sc)).
      { unfold busy. rewrite ON, N.eqb_sym. replace (0 <? s_tabcnt sc) with true by lia. reflexivity. }
      rewrite BU. destruct (b =? s_bucket sc) eqn:D; [apply N.eqb_eq in D; subst b|lia].
      assert (0 < refc a (s_bucket sc)); [|lia].
      pose proof (si_ref hp _ S (s_bucket sc)) as E. change (refc (W a s sc)) with (refc a) in E. rewrite E. unfold W. cbn [set_scans scans].
      pose proof (count_set_nth (busy (s_bucket sc)) (scans a) s sc0 sc N) as C1. rewrite BU in C1.
      pose proof (count_set_nth (busy (s_bucket sc)) (scans a) s sc0 (mkScan 0 0 0 false false) N) as C2.
      change (busy (s_bucket sc) (mkScan 0 0 0 false false)) with false in C2.
      destruct (busy (s_bucket sc) sc0); lia.
    + intros _. left. cbn [sc1 s_on s_tabcnt s_bucket s_tabidx s_linked]. repeat split; [exact LK|lia].
Qed.

Lemma tabs_adv s m asz elim ccnt : forall n a sc out ec cost sc0,
  nth_error (scans a) s = Some sc0 -> base a m -> sinv (W a s sc) -> s_on sc = true -> 0 < s_tabcnt sc -> s_bucket sc < hsize ->
  n = N.to_nat (s_tabcnt sc - s_tabidx sc) ->
  exists a' sc' d ec' cost' fin, scan_tabs n asz elim ccnt s a sc out ec cost = Some (a', sc', out ++ d, ec', cost', fin) /\
    adv s m a sc a' sc' d /\ sinv (W a' s sc') /\ s_on sc' = true /\ s_bucket sc' = s_bucket sc /\ s_tabcnt sc' = s_tabcnt sc /\
    refc a' = refc a /\ (fin = false -> s_tabidx sc' = s_tabcnt sc') /\ (fin = true -> out ++ d <> []).
Proof.
  induction n as [|n IH]; intros a sc out ec cost sc0 N B S ON P BL En.
  - exists a, sc, [], ec, cost, false. rewrite app_nil_r. split; [reflexivity|]. split; [apply adv_refl|]. split; [exact S|]. split; [exact ON|].
    split; [reflexivity|]. split; [reflexivity|]. split; [reflexivity|]. split; [|discriminate]. intros _.
    pose proof (si_ok hp _ S s sc) as K. rewrite (nth_W a s sc sc0 N), Nat.eqb_refl in K. destruct (K eq_refl ON) as [(K1 & _)|(_ & _ & K1 & _)]; lia.
  - cbn [scan_tabs]. destruct ((2 * asz <? cost) && negb match out with [] => true | _ => false end) eqn:BRK.
    { exists a, sc, [], ec, cost, true. rewrite app_nil_r. split; [reflexivity|]. split; [apply adv_refl|]. split; [exact S|]. split; [exact ON|].
      split; [reflexivity|]. split; [reflexivity|]. split; [reflexivity|]. split; [discriminate|]. intros _ H. subst out. rewrite andb_false_r in BRK. discriminate. }
    clear BRK. set (t := s_tabidx sc) in *. set (b := s_bucket sc) in *.
    assert (TL : t < s_tabcnt sc) by lia.
    assert (ST : exists pre todo, (if s_linked sc then cut_ph s (tab a t b) else Some ([], tab a t b)) = Some (pre, todo) /\
       (if s_linked sc then tab a t b = pre ++ Ph s :: todo /\ ~ In s (phs pre) else pre = [] /\ tab a t b = todo)).
    { destruct (s_linked sc) eqn:LK; [|exists [], (tab a t b); repeat split; reflexivity].
      assert (I : In s (phs (tab (W a s sc) t b))).
      { apply (si_ph hp _ S). exists sc. rewrite (nth_W a s sc sc0 N), Nat.eqb_refl. repeat split; assumption. }
      change (tab (W a s sc)) with (tab a) in I. apply cut_ph_in in I as (p & q & E). exists p, q. rewrite E. split; [reflexivity|].
      apply cut_ph_some. exact E. }
    destruct ST as (pre & todo & E1 & CH). rewrite E1.
    destruct (take asz elim ccnt todo out ec (cost + 1) []) as [[[out' ec'] cost'] stop] eqn:TK.
    apply take_spec in TK as (l1 & l2 & -> & -> & K). cbn [app] in K.
    assert (NN : nth_error (scans a) s <> None) by congruence.
    destruct stop as [(sn, rst)|].
    + destruct K as (-> & -> & NE). destruct l2 as [|c l2].
      * destruct (chain_adv s m a sc l1 [] pre (mkScan b (s_tabcnt sc) (t + 1) false true) (pre ++ l1 ++ [])) as [A S']; try assumption.
        { right. repeat split; reflexivity. }
        do 3 eexists. exists ec', cost', true. split; [reflexivity|]. split; [exact A|]. split; [exact S'|].
        split; [reflexivity|]. split; [reflexivity|]. split; [reflexivity|]. split; [reflexivity|]. split; [discriminate|]. intros _ H. apply app_eq_nil in H as [_ H]. contradiction.
      * destruct (chain_adv s m a sc l1 (c :: l2) pre (mkScan b (s_tabcnt sc) t true true) (pre ++ l1 ++ Ph s :: c :: l2)) as [A S']; try assumption.
        { left. repeat split; [discriminate]. }
        do 3 eexists. exists ec', cost', true. split; [reflexivity|]. split; [exact A|]. split; [exact S'|].
        split; [reflexivity|]. split; [reflexivity|]. split; [reflexivity|]. split; [reflexivity|]. split; [discriminate|]. intros _ H. apply app_eq_nil in H as [_ H]. contradiction.
    + subst l2.
      destruct (chain_adv s m a sc l1 [] pre (mkScan b (s_tabcnt sc) (t + 1) false true) (pre ++ l1 ++ [])) as [A S']; try assumption.
      { right. repeat split; reflexivity. }
      fold t b in A, S'. set (a1 := set_tab a (upd (tab a) t b (pre ++ l1 ++ []))) in *. set (sc1 := mkScan b (s_tabcnt sc) (t + 1) false true) in *.
      destruct (IH a1 sc1 (out ++ its l1) ec' cost' sc0 N (adv_base _ _ _ _ _ _ _ A B) S' eq_refl P BL) as (a' & sc' & d & ec2 & cost2 & fin & R & A2 & S2 & ON2 & B2 & T2 & R2 & F1 & F2).
      { cbn [sc1 s_tabcnt s_tabidx]. lia. }
      exists a', sc', (its l1 ++ d), ec2, cost2, fin. rewrite R, <- app_assoc. split; [reflexivity|]. split; [apply (adv_trans _ _ _ _ _ _ _ _ _ _ A A2)|].
      split; [exact S2|]. split; [exact ON2|]. split; [exact B2|]. split; [exact T2|]. split; [exact R2|]. split; [exact F1|].
      intro H. rewrite app_assoc. apply F2. exact H.
Qed.

Lemma buckets_adv s m asz elim ccnt : forall n a sc out ec cost sc0,
  nth_error (scans a) s = Some sc0 -> base a m -> sinv (W a s sc) -> s_on sc = true -> n = N.to_nat (hsize - s_bucket sc) ->
  exists a' sc' d, scan_buckets n asz elim ccnt s a sc out ec cost = Some (a', sc', out ++ d) /\
    adv s m a sc a' sc' d /\ sinv (W a' s sc') /\ s_on sc' = true /\ (s_tabcnt sc' = 0 -> s_bucket sc' = hsize) /\ (out ++ d = [] -> s_bucket sc' = hsize).
Proof.
  induction n as [|n IH]; intros a sc out ec cost sc0 N B S ON En.
  - exists a, sc, []. rewrite app_nil_r. split; [reflexivity|]. split; [apply adv_refl|]. split; [exact S|]. split; [exact ON|].
    pose proof (si_ok hp _ S s sc) as K. rewrite (nth_W a s sc sc0 N), Nat.eqb_refl in K.
    assert (s_bucket sc = hsize) by (destruct (K eq_refl ON) as [(K1 & _ & K2)|(_ & K1 & _)]; lia). tauto.
  - assert (BL : s_bucket sc < hsize) by lia. cbn [scan_buckets]. set (b := s_bucket sc) in *.
    set (a1 := if s_tabcnt sc =? 0 then set_refc a (upd1 (refc a) b (refc a b + 1)) else a).
    set (sc1 := if s_tabcnt sc =? 0 then mkScan b (rsize a) 0 (s_linked sc) true else sc).
    assert (FIRST : adv s m a sc a1 sc1 [] /\ sinv (W a1 s sc1) /\ s_on sc1 = true /\ 0 < s_tabcnt sc1 /\ s_bucket sc1 = b).
    { unfold a1, sc1. destruct (s_tabcnt sc =? 0) eqn:Z.
      - apply N.eqb_eq in Z. destruct (start_adv s m a sc sc0 N S ON Z BL) as (A & S1 & _). split; [exact A|]. split; [exact S1|]. cbn. split; [reflexivity|]. split; [apply rsize_pos|reflexivity].
      - apply N.eqb_neq in Z. split; [apply adv_refl|]. split; [exact S|]. split; [exact ON|]. split; [lia|reflexivity]. }
    destruct FIRST as (A1 & S1 & ON1 & P1 & B1).
    assert (N1 : nth_error (scans a1) s = Some sc0) by (rewrite (ad_scans _ _ _ _ _ _ _ A1); exact N).
    pose proof (adv_base _ _ _ _ _ _ _ A1 B) as BA1.
    destruct (tabs_adv s m asz elim ccnt _ a1 sc1 out ec cost sc0 N1 BA1 S1 ON1 P1 ltac:(rewrite B1; exact BL) eq_refl)
      as (a2 & sc2 & d & ec2 & cost2 & fin & R & A2 & S2 & ON2 & B2 & T2 & R2 & F1 & F2).
    rewrite R. destruct fin.
    + exists a2, sc2, d. split; [reflexivity|]. split; [apply (adv_trans _ _ _ _ _ _ [] _ _ _ A1 A2)|]. split; [exact S2|]. split; [exact ON2|].
      split; [lia|]. intro H. exfalso. apply F2; [reflexivity|exact H].
    + assert (N2 : nth_error (scans a2) s = Some sc0) by (rewrite (ad_scans _ _ _ _ _ _ _ A2); exact N1).
      pose proof (adv_base _ _ _ _ _ _ _ A2 BA1) as BA2. rewrite B1 in B2.
      destruct (finish_adv s m a2 sc2 sc0 N2 BA2 S2 ON2 ltac:(lia) ltac:(lia) (F1 eq_refl)) as [A3 S3]. rewrite B2 in A3, S3.
      set (a3 := set_refc a2 _) in *. set (sc3 := mkScan (b + 1) 0 _ _ true) in *.
      assert (N3 : nth_error (scans a3) s = Some sc0) by exact N2.
      destruct (IH a3 sc3 (out ++ d) ec2 cost2 sc0 N3 (adv_base _ _ _ _ _ _ _ A3 BA2) S3 eq_refl) as (a4 & sc4 & d4 & R4 & A4 & S4 & ON4 & Z4 & F4).
      { cbn [sc3 s_bucket]. lia. }
      exists a4, sc4, (d ++ d4). rewrite R4, <- app_assoc. split; [reflexivity|].
      split.
      { pose proof (adv_trans _ _ _ _ _ _ _ _ _ _ (adv_trans _ _ _ _ _ _ _ _ _ _ (adv_trans _ _ _ _ _ _ _ _ _ _ A1 A2) A3) A4) as A. rewrite app_nil_r in A. exact A. }
      split; [exact S4|]. split; [exact ON4|]. split; [exact Z4|]. rewrite app_assoc. exact F4.
Qed.

Lemma scan_next_step a m s asz elim ccnt sc : base a m -> stable a -> sinv a -> nth_error (scans a) s = Some sc -> s_on sc = true -> asz <> 0 ->
  exists a' sc' r, scan_next hp a s asz elim ccnt = Some (a', r) /\ base a' m /\ stable a' /\ sinv a' /\ scans a' = set_nth (scans a) s sc' /\ s_on sc' = true /\
    (forall s2 x k, s2 <> s -> nth_error (scans a) s2 = Some x -> vis a' s2 x k = vis a s2 x k) /\
    (s_tabcnt sc' = 0 -> s_bucket sc' = hsize) /\
    let d := match r with Some l => l | None => [] end in
    (forall k, In k (map fst m) -> vis a' s sc' k = vis a s sc k || existsb (beqb k) (map fst d)) /\
    (forall p, In p d -> In p m) /\ NoDup (map fst d) /\ (forall k, In k (map fst d) -> vis a s sc k = false) /\
    (r = None -> s_bucket sc' = hsize) /\ r <> Some [].
Proof.
  intros B ST S N ON Z. unfold scan_next. rewrite N, ON. replace (asz =? 0) with false by lia. cbn [negb orb].
  destruct (buckets_adv s m asz elim ccnt _ a sc [] 0 0 sc N B ltac:(rewrite W_same by exact N; exact S) ON eq_refl) as (a' & sc' & d & R & A & S' & ON' & E' & F').
  rewrite R. cbn [app] in *. pose proof (ad_scans _ _ _ _ _ _ _ A) as SC. fold (W a' s sc').
  exists (W a' s sc'), sc', (match d with [] => if hsize <=? s_bucket sc' then None else Some [] | _ => Some d end). split; [reflexivity|].
  assert (DD : match match d with [] => if hsize <=? s_bucket sc' then None else Some [] | _ => Some d end with Some l => l | None => [] end = d).
  { destruct d; [destruct (hsize <=? s_bucket sc'); reflexivity|reflexivity]. }
  destruct (ad_f1 _ _ _ _ _ _ _ A) as (G1 & G2 & G3 & G4). destruct (ad_f2 _ _ _ _ _ _ _ A) as (G5 & G6 & G7 & G8).
  split; [apply (base_same hp hash a'); try reflexivity; apply (adv_base _ _ _ _ _ _ _ A B)|].
  split; [intro H; change (expg (W a' s sc')) with (expg a') in H; change (etab (W a' s sc')) with (etab a'); change (psz (W a' s sc')) with (psz a'); rewrite G6, G2; apply ST; congruence|].
  split; [exact S'|]. split; [unfold W; cbn [set_scans scans]; rewrite SC; reflexivity|]. split; [exact ON'|].
  split. { intros s2 x k NE H. unfold vis, AssocScan.vis. change (cur (W a' s sc') k) with (cur a' k). change (tab (W a' s sc')) with (tab a').
    rewrite (adv_cur _ _ _ _ _ _ _ A), (ad_bef _ _ _ _ _ _ _ A) by exact NE. reflexivity. }
  split; [exact E'|]. rewrite DD. cbv zeta.
  split; [intros k H; change (vis (W a' s sc') s sc' k) with (vis a' s sc' k); apply (ad_vis _ _ _ _ _ _ _ A); exact H|].
  split; [apply (ad_in _ _ _ _ _ _ _ A)|]. split; [apply (ad_nd _ _ _ _ _ _ _ A)|]. split; [apply (ad_new _ _ _ _ _ _ _ A)|].
  destruct d; [|split; discriminate]. rewrite (F' eq_refl), N.leb_refl. split; [reflexivity|discriminate].
Qed.

Lemma scan_init_step a m s g sc : base a m -> stable a -> sinv a -> nth_error (scans a) s = Some sc -> s_on sc = false ->
  let a' := scan_init a s g in
  base a' m /\ stable a' /\ sinv a' /\ scans a' = set_nth (scans a) s (mkScan 0 0 g false true) /\
  (forall s2 x k, vis a' s2 x k = vis a s2 x k) /\ (forall k, vis a' s (mkScan 0 0 g false true) k = false).
Proof.
  intros B ST S N OFF a'. split; [apply (base_same hp hash a); try reflexivity; exact B|]. split; [exact ST|].
  split; [|split; [reflexivity|split; [reflexivity|]]].
  - change a' with (W a s (mkScan 0 0 g false true)). set (z := mkScan (s_bucket sc) 0 0 false false).
    assert (S0 : sinv (W a s z)).
    { pose proof (nth_W a s z sc N) as NW. constructor.
      - intros t b s2. change (tab (W a s z)) with (tab a). rewrite (si_ph hp a S), NW. destruct (Nat.eqb_spec s s2) as [EQ|NE]; [subst s2|reflexivity].
        rewrite N. split; intros (x & E & O & _); injection E as <-; [congruence|discriminate].
      - intros t b. apply (si_nd hp a S).
      - intro b. change (refc (W a s z)) with (refc a). rewrite (si_ref hp a S). unfold W. cbn [set_scans scans].
        pose proof (count_set_nth (busy b) (scans a) s sc z N) as C. unfold busy at 2 4 in C. rewrite OFF in C. cbn [z s_on andb] in C. lia.
      - intros s2 x H1 H2. rewrite NW in H1. destruct (Nat.eqb s s2); [injection H1 as <-; discriminate|]. apply (si_ok hp a S s2 x H1 H2). }
    apply (sinv_move a a s z _ sc); try assumption; try reflexivity; [intros x H; exact H|intros _; left; cbn; repeat split; lia].
  - intro k. unfold vis, AssocScan.vis. cbn [s_bucket s_tabcnt]. rewrite andb_false_r. cbn [andb]. rewrite orb_false_r. destruct (bkt k); reflexivity.
Qed.

Lemma scan_final_step a m s sc : base a m -> stable a -> sinv a -> nth_error (scans a) s = Some sc -> s_on sc = true ->
  exists a' sc', scan_final hp a s = Some a' /\ base a' m /\ stable a' /\ sinv a' /\ scans a' = set_nth (scans a) s sc' /\ s_on sc' = false /\
    (forall s2 x k, s2 <> s -> vis a' s2 x k = vis a s2 x k).
Proof.
  intros B ST S N ON. unfold scan_final. rewrite N, ON. cbn [negb].
  assert (U : exists a1, (if s_linked sc then match cut_ph s (tab a (s_tabidx sc) (s_bucket sc)) with None => None
                    | Some (p, q) => Some (set_tab a (upd (tab a) (s_tabidx sc) (s_bucket sc) (p ++ q))) end else Some a) = Some a1 /\
     base a1 m /\ stable a1 /\ scans a1 = scans a /\ refc a1 = refc a /\ (forall k, cur a1 k = cur a k) /\
     (forall s2 t b, s2 <> s -> kbef s2 (tab a1 t b) = kbef s2 (tab a t b)) /\
     sinv (W a1 s (mkScan (s_bucket sc) (s_tabcnt sc) (s_tabidx sc) false true))).
  { destruct (s_linked sc) eqn:LK.
    - assert (I : In s (phs (tab a (s_tabidx sc) (s_bucket sc)))) by (apply (si_ph hp a S); exists sc; repeat split; assumption).
      apply cut_ph_in in I as (p & q & E). rewrite E. eexists. split; [reflexivity|]. apply cut_ph_some in E as [E NI].
      assert (SAME : forall t b, its (upd (tab a) (s_tabidx sc) (s_bucket sc) (p ++ q) t b) = its (tab a t b)).
      { intros t b. unfold upd. destruct ((t =? s_tabidx sc) && (b =? s_bucket sc)) eqn:D; [|reflexivity]. apply andb_true_iff in D as [D1 D2]. apply N.eqb_eq in D1, D2.
        subst t b. rewrite E, !its_app. reflexivity. }
      split; [apply (base_same hp hash a); try reflexivity; [exact B|exact SAME]|]. split; [exact ST|]. split; [reflexivity|]. split; [reflexivity|]. split; [reflexivity|].
      split.
      + intros s2 t b NE. cbn [set_tab tab]. unfold upd. destruct ((t =? s_tabidx sc) && (b =? s_bucket sc)) eqn:D; [|reflexivity]. apply andb_true_iff in D as [D1 D2]. apply N.eqb_eq in D1, D2.
        subst t b. rewrite E. symmetry. apply kbef_ph. exact NE.
      + apply (sinv_unlink a s sc sc); try assumption. rewrite W_same by exact N. exact S.
    - exists a. split; [reflexivity|]. split; [exact B|]. split; [exact ST|]. split; [reflexivity|]. split; [reflexivity|]. split; [reflexivity|]. split; [reflexivity|].
      replace (mkScan (s_bucket sc) (s_tabcnt sc) (s_tabidx sc) false true) with sc by (destruct sc; cbn in *; congruence). rewrite W_same by exact N. exact S. }
  destruct U as (a1 & -> & B1 & ST1 & SC1 & RF1 & CU1 & KB1 & S1). set (sc1 := mkScan _ _ _ false true) in S1.
  set (a2 := if (s_bucket sc <? hsize) && (0 <? s_tabcnt sc) then _ else a1).
  assert (N1 : nth_error (scans a1) s = Some sc) by (rewrite SC1; exact N).
  assert (OK1 : scan_ok a1 sc1).
  { apply (si_ok hp _ S1 s sc1); [|reflexivity]. rewrite (nth_W a1 s sc1 sc N1), Nat.eqb_refl. reflexivity. }
  assert (T2 : tab a2 = tab a1 /\ scans a2 = scans a1 /\ (forall k, cur a2 k = cur a1 k) /\ (forall x, scan_ok a1 x -> scan_ok a2 x) /\ base a2 m /\ stable a2).
  { unfold a2. destruct ((s_bucket sc <? hsize) && (0 <? s_tabcnt sc)); (split; [reflexivity|split; [reflexivity|split; [reflexivity|split; [intros x H; exact H|split; [|exact ST1]]]]]).
    - apply (base_same hp hash a1); try reflexivity. exact B1.
    - exact B1. }
  destruct T2 as (T2 & SC2 & CU2 & KO2 & B2 & ST2).
  exists (W a2 s (mkScan (s_bucket sc) (s_tabcnt sc) (s_tabidx sc) false false)), (mkScan (s_bucket sc) (s_tabcnt sc) (s_tabidx sc) false false).
  split; [reflexivity|]. split; [apply (base_same hp hash a2); try reflexivity; exact B2|]. split; [exact ST2|].
  split; [|split; [unfold W; cbn [set_scans scans]; rewrite SC2, SC1; reflexivity|split; [reflexivity|]]].
  - apply (sinv_move a1 a2 s sc1 _ sc); try assumption; try reflexivity; [|discriminate].
    intro b. set (z := mkScan (s_bucket sc) (s_tabcnt sc) (s_tabidx sc) false false). change (busy b z) with false.
    assert (BU : busy b sc1 = (0 <? s_tabcnt sc) && (b =? s_bucket sc)) by (unfold busy; cbn [sc1 s_on s_tabcnt s_bucket andb]; rewrite (N.eqb_sym b); reflexivity).
    assert (C : 0 < s_tabcnt sc -> s_bucket sc < hsize /\ 0 < refc a1 (s_bucket sc)).
    { intro P. split; [destruct OK1 as [(K & _)|(_ & K & _)]; cbn in K; lia|].
      pose proof (si_ref hp _ S (s_bucket sc)) as E. rewrite RF1, E.
      pose proof (count_set_nth (busy (s_bucket sc)) (scans a) s sc z N) as C2. change (busy (s_bucket sc) z) with false in C2.
      assert (busy (s_bucket sc) sc = true) as BB by (unfold busy; rewrite ON, N.eqb_refl; replace (0 <? s_tabcnt sc) with true by lia; reflexivity).
      rewrite BB in C2. lia. }
    rewrite BU. unfold a2. destruct (0 <? s_tabcnt sc) eqn:P.
    + destruct (C ltac:(lia)) as [C1 C2]. replace (s_bucket sc <? hsize) with true by lia. cbn [andb set_refc refc]. unfold upd1.
      destruct (b =? s_bucket sc) eqn:D; [apply N.eqb_eq in D; subst b|]; lia.
    + rewrite andb_false_r. cbn [andb]. lia.
  - intros s2 x k NE. unfold vis, AssocScan.vis. change (cur (W a2 s _) k) with (cur a2 k). change (tab (W a2 s _)) with (tab a2).
    rewrite CU2, CU1, T2, KB1 by exact NE. reflexivity.
Qed.
End Run.
