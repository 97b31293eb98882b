(* The items in the table: every key is in the chain its hash leads to, at every stage of expansion. *)
From Verif Require Import Base AssocModel AssocSpec.
Local Open Scope N_scope.

Definition its (l : list cell) : list (bytes * N) :=
  flat_map (fun c => match c with It k v => [(k, v)] | Ph _ => [] end) l.
Definition keys (l : list cell) : list bytes := map fst (its l).

Lemma its_app l1 l2 : its (l1 ++ l2) = its l1 ++ its l2.
Proof. apply flat_map_app. Qed.
Lemma keys_app l1 l2 : keys (l1 ++ l2) = keys l1 ++ keys l2.
Proof. unfold keys. rewrite its_app. apply map_app. Qed.
Lemma its_in k v l : In (k, v) (its l) <-> In (It k v) l.
Proof.
  unfold its. rewrite in_flat_map. split.
  - intros ([k' v'|s] & H & E); [|contradiction]. destruct E as [E|[]]. congruence.
  - intro H. exists (It k v). split; [exact H|left; reflexivity].
Qed.
Lemma keys_in k l : In k (keys l) <-> exists v, In (k, v) (its l).
Proof.
  unfold keys. rewrite in_map_iff. split.
  - intros ((k', v) & E & H). cbn in E. subst. exists v. exact H.
  - intros (v & H). exists (k, v). auto.
Qed.
Lemma nodup_fst_fun (l : list (bytes * N)) k v w : NoDup (map fst l) -> In (k, v) l -> In (k, w) l -> v = w.
Proof.
  induction l as [|(k', v') l IH]; intros ND H1 H2; [contradiction|]. inversion ND as [|? ? NI ND']; subst. cbn in NI.
  destruct H1 as [E1|H1], H2 as [E2|H2].
  - congruence.
  - exfalso. apply NI. apply in_map_iff. exists (k, w). split; [cbn; congruence|exact H2].
  - exfalso. apply NI. apply in_map_iff. exists (k, v). split; [cbn; congruence|exact H1].
  - apply IH; assumption.
Qed.

Lemma lookup_in m k v : NoDup (map fst m) -> lookup m k = Some v <-> In (k, v) m.
Proof.
  induction m as [|(k', v') m IH]; intro ND; cbn [lookup]; [split; [discriminate|contradiction]|].
  inversion ND as [|? ? NI ND']; subst. cbn in NI. destruct (beqb_spec k k') as [->|NE].
  - split.
    + intro E. injection E as ->. left; reflexivity.
    + intros [E|H]; [congruence|]. exfalso. apply NI. apply in_map_iff. exists (k', v). auto.
  - rewrite IH by exact ND'. split; [intro; right; assumption|]. intros [E|H]; [congruence|exact H].
Qed.
Lemma lookup_none m k : lookup m k = None <-> ~ In k (map fst m).
Proof.
  induction m as [|(k', v') m IH]; cbn [lookup map fst]; [split; auto|].
  destruct (beqb_spec k k') as [->|NE]; [split; [discriminate|intros H; exfalso; apply H; left; reflexivity]|].
  rewrite IH. split; intros H; [intros [E|I]; [congruence|tauto]|intro I; apply H; right; exact I].
Qed.
Lemma stored_in m k : stored m k = true <-> In k (map fst m).
Proof.
  unfold stored. destruct (lookup m k) eqn:E.
  - split; [intros _|reflexivity]. destruct (in_dec (list_eq_dec N.eq_dec) k (map fst m)) as [I|NI]; [exact I|].
    apply lookup_none in NI. congruence.
  - apply lookup_none in E. split; [discriminate|tauto].
Qed.
Lemma without_in m k k' v : In (k', v) (without m k) <-> In (k', v) m /\ k' <> k.
Proof.
  unfold without. rewrite filter_In. cbn [fst]. rewrite negb_true_iff, beqb_neq. split; intros [H1 H2]; split; auto.
Qed.
Lemma map_filter_nodup {A B} (f : A -> B) p (l : list A) : NoDup (map f l) -> NoDup (map f (filter p l)).
Proof.
  induction l as [|x l IH]; intro ND; [constructor|]. inversion ND as [|? ? NI ND']; subst. cbn [filter].
  destruct (p x); [|auto]. cbn [map]. constructor; [|auto].
  intro H. apply NI. apply in_map_iff in H as (y & E & H). apply filter_In in H as [H _]. apply in_map_iff. exists y; auto.
Qed.
Lemma without_length m k : NoDup (map fst m) -> In k (map fst m) -> length m = S (length (without m k)).
Proof.
  induction m as [|(k', v') m IH]; intros ND I; [contradiction|]. inversion ND as [|? ? NI ND']; subst. cbn in NI.
  unfold without. cbn [filter fst]. destruct (beqb_spec k k') as [->|NE]; cbn [negb].
  - cbn [length]. f_equal. clear IH I ND ND'. induction m as [|(k2, v2) m IH]; [reflexivity|]. cbn [filter fst].
    destruct (beqb_spec k' k2) as [->|NE2]; [exfalso; apply NI; left; reflexivity|]. cbn [negb length]. f_equal. apply IH.
    intro H; apply NI; right; exact H.
  - cbn [length]. f_equal. apply IH; [exact ND'|]. destruct I as [E|I]; [cbn in E; congruence|exact I].
Qed.

Lemma land_mask x n : N.land x (2 ^ n - 1) = x mod 2 ^ n.
Proof. rewrite N.sub_1_r, <- N.ones_equiv. apply N.land_ones. Qed.
Lemma pow_pos n : 0 < 2 ^ n.
Proof. apply N.neq_0_lt_0, N.pow_nonzero. discriminate. Qed.
Lemma mod_mod_pow x a b : a <= b -> (x mod 2 ^ b) mod 2 ^ a = x mod 2 ^ a.
Proof.
  intro H. rewrite <- !land_mask. apply N.bits_inj. intro i. rewrite !N.land_spec.
  rewrite !N.sub_1_r, <- !N.ones_equiv. destruct (i <? a) eqn:L.
  - rewrite !N.ones_spec_low by lia. rewrite !andb_true_r. reflexivity.
  - rewrite (N.ones_spec_high a) by lia. rewrite !andb_false_r. reflexivity.
Qed.
Lemma pow_half n : 0 < n -> 2 ^ n = 2 * 2 ^ (n - 1).
Proof. intro H. rewrite <- N.pow_succ_r'. f_equal. lia. Qed.

Lemma upd_same f t b l : upd f t b l t b = l.
Proof. unfold upd. rewrite !N.eqb_refl. reflexivity. Qed.
Lemma upd_other f t b l t' b' : (t', b') <> (t, b) -> upd f t b l t' b' = f t' b'.
Proof.
  intro H. unfold upd. destruct ((t' =? t) && (b' =? b)) eqn:E; [|reflexivity].
  apply andb_true_iff in E as [E1 E2]. apply N.eqb_eq in E1, E2. congruence.
Qed.

Lemma nth_set_nth {A} (l : list A) i j x :
  nth_error (set_nth l i x) j = if Nat.eqb i j then match nth_error l i with Some _ => Some x | None => None end else nth_error l j.
Proof.
  revert i j; induction l as [|y l IH]; intros i j.
  - destruct i, j; cbn; try reflexivity; destruct (Nat.eqb _ _); reflexivity.
  - destruct i, j; cbn; try reflexivity. apply IH.
Qed.
Lemma set_nth_length {A} (l : list A) i x : length (set_nth l i x) = length l.
Proof. revert i; induction l as [|y l IH]; intros [|i]; cbn; auto. Qed.
Lemma set_nth_twice {A} (l : list A) i x y : set_nth (set_nth l i x) i y = set_nth l i y.
Proof. revert i; induction l as [|z l IH]; intros [|i]; cbn; auto. f_equal. apply IH. Qed.
Lemma set_nth_same {A} (l : list A) i x : nth_error l i = Some x -> set_nth l i x = l.
Proof. revert i; induction l as [|z l IH]; intros [|i] H; cbn in *; try discriminate; [congruence|]. f_equal. auto. Qed.

Lemma nodup_app3 {A} (a b : list A) : NoDup (a ++ b) <-> NoDup a /\ NoDup b /\ forall x, In x a -> In x b -> False.
Proof.
  induction a as [|x a IH]; cbn [app].
  - split; [intro H; split; [constructor|split; [exact H|intros ? []]]|tauto].
  - split.
    + intro H. inversion H as [|? ? NI ND]; subst. apply IH in ND as (A1 & A2 & A3). rewrite in_app_iff in NI.
      split; [constructor; tauto|]. split; [exact A2|]. intros y [->|H1] H2; [tauto|apply (A3 y H1 H2)].
    + intros (A1 & A2 & A3). inversion A1 as [|? ? NI ND]; subst. constructor.
      * rewrite in_app_iff. intros [H|H]; [tauto|]. apply (A3 x); [left; reflexivity|exact H].
      * apply IH. split; [exact ND|]. split; [exact A2|]. intros y H1 H2. apply (A3 y); [right; exact H1|exact H2].
Qed.

Section Inv.
Variables (hp : N) (hash : bytes -> N).
Notation hsize := (hsize hp).
Notation bkt k := (bucket_of hp (hash k)).
Notation X k := (N.shiftr (hash k) hp).
Definition cur (a : assoc) (k : bytes) : N := cur_tabidx hp a (hash k) (bkt k).

Lemma bkt_lt k : bkt k < hsize.
Proof. unfold bucket_of, hmask, AssocModel.hsize. rewrite land_mask. apply N.mod_upper_bound. pose proof (pow_pos hp). lia. Qed.
Lemma hsize_pos : 0 < hsize.
Proof. apply pow_pos. Qed.

Record geo (a : assoc) : Prop := {
  g_pow : rpow a <= 15;
  g_lim : rpow a = 15 -> limit a = 0;
  g_tsz : rsize a <= rtsz a;
  g_exp : expg a = true -> 0 < rpow a /\ psz a = 2 ^ (rpow a - 1) /\ ebkt a < hsize /\ etab a <= psz a
}.

(* the chain of the key has been split *)
Definition split (a : assoc) (k : bytes) : bool :=
  negb (expg a) || (ebkt a <? bkt k) || ((ebkt a =? bkt k) && (X k mod 2 ^ (rpow a - 1) <? etab a)).

Lemma cur_eq a k : geo a -> cur a k = X k mod 2 ^ (if split a k then rpow a else rpow a - 1).
Proof.
  intro G. unfold cur, cur_tabidx, split. destruct (expg a) eqn:E; cbn [negb orb].
  - destruct (g_exp a G E) as (P0 & P & _). unfold pmask, rmask, rsize. rewrite P, !land_mask.
    destruct (bkt k <? ebkt a) eqn:L1; destruct (ebkt a <? bkt k) eqn:L2; destruct (ebkt a =? bkt k) eqn:L3; cbn [orb andb]; try lia; try reflexivity.
    destruct (X k mod 2 ^ (rpow a - 1) <? etab a); reflexivity.
  - unfold rmask, rsize. rewrite land_mask. reflexivity.
Qed.
Lemma cur_lt a k : geo a -> cur a k < rsize a.
Proof.
  intro G. rewrite cur_eq by exact G. unfold rsize.
  eapply N.lt_le_trans; [apply N.mod_upper_bound; pose proof (pow_pos (if split a k then rpow a else rpow a - 1)); lia|].
  apply N.pow_le_mono_r; [discriminate|]. destruct (split a k); lia.
Qed.

Record base (a : assoc) (m : list (bytes * N)) : Prop := {
  b_geo : geo a;
  b_loc : forall t b k v, In (k, v) (its (tab a t b)) -> b = bkt k /\ t = cur a k;
  b_map : forall k v, In (k, v) (its (tab a (cur a k) (bkt k))) <-> In (k, v) m;
  b_nd : forall t b, NoDup (keys (tab a t b));
  b_ndm : NoDup (map fst m);
  b_cnt : items a = N.of_nat (length m)
}.

(* chains *)
Lemma find_in_spec k l v : NoDup (keys l) -> find_in hash k l = Some v <-> In (k, v) (its l).
Proof.
  induction l as [|[k' v'|s] l IH]; intro ND; cbn [find_in its flat_map app].
  - split; [discriminate|contradiction].
  - unfold keys in ND. cbn [its flat_map app map fst] in ND. fold (its l) in ND. inversion ND as [|? ? NI ND']; subst.
    destruct (beqb_spec k k') as [->|NE].
    + rewrite N.eqb_refl. cbn [andb]. split.
      * intro E. injection E as ->. left; reflexivity.
      * intros [E|H]; [congruence|]. exfalso. apply NI. apply in_map_iff. exists (k', v). auto.
    + rewrite andb_false_r. rewrite IH by exact ND'. split; [intro; right; assumption|].
      intros [E|H]; [congruence|exact H].
  - apply IH. exact ND.
Qed.
Lemma find_in_none k l : NoDup (keys l) -> find_in hash k l = None <-> ~ In k (keys l).
Proof.
  intro ND. rewrite keys_in. split.
  - intros E (v & H). apply (find_in_spec k l v ND) in H. congruence.
  - intro H. destruct (find_in hash k l) as [v|] eqn:E; [|reflexivity]. exfalso. apply H. exists v.
    apply (find_in_spec k l v ND). exact E.
Qed.
Lemma before_some k l p q : before k l = Some (p, q) -> exists v, l = p ++ It k v :: q.
Proof.
  revert p q; induction l as [|[k' v'|s] l IH]; intros p q H; cbn [before] in H; [discriminate| |].
  - destruct (beqb_spec k k') as [->|NE].
    + injection H as <- <-. exists v'. reflexivity.
    + destruct (before k l) as [(p', q')|] eqn:E; [|discriminate]. injection H as <- <-.
      destruct (IH _ _ eq_refl) as (v & ->). exists v. reflexivity.
  - destruct (before k l) as [(p', q')|] eqn:E; [|discriminate]. injection H as <- <-.
    destruct (IH _ _ eq_refl) as (v & ->). exists v. reflexivity.
Qed.
Lemma before_none k l : before k l = None -> ~ In k (keys l).
Proof.
  induction l as [|[k' v'|s] l IH]; intro H; cbn [before] in H; [intros []| |].
  - destruct (beqb_spec k k') as [->|NE]; [discriminate|].
    destruct (before k l) as [(p', q')|] eqn:E; [discriminate|]. intros [E1|I]; [cbn in E1; congruence|]. apply IH; auto.
  - destruct (before k l) as [(p', q')|] eqn:E; [discriminate|]. intro I. apply IH; auto.
Qed.

Lemma find_ok a m k : base a m -> find hp hash a k = lookup m k.
Proof.
  intro B. unfold find, chain_of. fold (cur a k). destruct (lookup m k) as [v|] eqn:E.
  - apply find_in_spec; [apply (b_nd a m B)|]. apply (b_map a m B). apply lookup_in; [apply (b_ndm a m B)|exact E].
  - apply find_in_none; [apply (b_nd a m B)|]. rewrite keys_in. intros (v & H). apply (b_map a m B) in H.
    apply lookup_none in E. apply E. apply in_map_iff. exists (k, v). auto.
Qed.

(* an operation that only moves placeholders *)
Lemma base_same a a' m : base a m -> rpow a' = rpow a -> psz a' = psz a -> rtsz a' = rtsz a -> expg a' = expg a ->
  ebkt a' = ebkt a -> etab a' = etab a -> items a' = items a -> limit a' = limit a ->
  (forall t b, its (tab a' t b) = its (tab a t b)) -> base a' m.
Proof.
  intros B E1 E2 E3 E4 E5 E6 E7 E8 T.
  assert (C : forall k, cur a' k = cur a k).
  { intro k. unfold cur, cur_tabidx, pmask, rmask, rsize. rewrite E1, E2, E4, E5, E6. reflexivity. }
  constructor.
  - destruct (b_geo a m B) as [G1 G2 G3 G4]. constructor; unfold rsize in *; rewrite ?E1, ?E2, ?E3, ?E4, ?E5, ?E6, ?E8; assumption.
  - intros t b k v H. rewrite T in H. rewrite C. apply (b_loc a m B _ _ _ _ H).
  - intros k v. rewrite C, T. apply (b_map a m B).
  - intros t b. unfold keys. rewrite T. apply (b_nd a m B).
  - apply (b_ndm a m B).
  - rewrite E7. apply (b_cnt a m B).
Qed.

Lemma nodup_mid (l1 l2 : list bytes) k : NoDup (l1 ++ k :: l2) -> NoDup (l1 ++ l2) /\ ~ In k (l1 ++ l2).
Proof. intro H. split; [apply (NoDup_remove_1 _ _ _ H)|apply (NoDup_remove_2 _ _ _ H)]. Qed.

(* the chain of key k is replaced *)
Lemma cur_set_tab a f k : cur (set_tab a f) k = cur a k.
Proof. reflexivity. Qed.
Lemma cur_set_items a n k : cur (set_items a n) k = cur a k.
Proof. reflexivity. Qed.

Lemma base_insert0 a m k v : base a m -> lookup m k = None ->
  base (set_items (set_tab a (upd (tab a) (cur a k) (bkt k) (It k v :: tab a (cur a k) (bkt k)))) (items a + 1)) ((k, v) :: m).
Proof.
  intros B N. assert (NI : ~ In k (map fst m)) by (apply lookup_none; exact N).
  set (c := tab a (cur a k) (bkt k)).
  set (a' := set_items _ _).
  assert (T : forall t b, tab a' t b = if (t =? cur a k) && (b =? bkt k) then It k v :: c else tab a t b) by reflexivity.
  assert (C : forall k', cur a' k' = cur a k') by reflexivity.
  constructor.
  - destruct (b_geo a m B) as [G1 G2 G3 G4]. constructor; assumption.
  - intros t b k' v' H. rewrite T in H. rewrite C. destruct ((t =? cur a k) && (b =? bkt k)) eqn:E.
    + apply andb_true_iff in E as [E1 E2]. apply N.eqb_eq in E1, E2. destruct H as [H|H]; [injection H as <- <-; auto|].
      subst t b. apply (b_loc a m B _ _ _ _ H).
    + apply (b_loc a m B _ _ _ _ H).
  - intros k' v'. rewrite C, T. destruct ((cur a k' =? cur a k) && (bkt k' =? bkt k)) eqn:E.
    + apply andb_true_iff in E as [E1 E2]. apply N.eqb_eq in E1, E2. cbn [its flat_map app]. fold (its c). unfold c.
      rewrite <- E1, <- E2. cbn [In]. rewrite (b_map a m B). reflexivity.
    + rewrite (b_map a m B). cbn [In]. split; [tauto|]. intros [H|H]; [|exact H]. injection H as <- <-.
      rewrite !N.eqb_refl in E. discriminate.
  - intros t b. rewrite T. destruct ((t =? cur a k) && (b =? bkt k)); [|apply (b_nd a m B)].
    unfold keys. cbn [its flat_map app map fst]. fold (its c). constructor; [|apply (b_nd a m B)].
    intro H. apply in_map_iff in H as ((k', v') & E & H). cbn in E. subst k'. apply (b_map a m B) in H.
    apply NI. apply in_map_iff. exists (k, v'). auto.
  - cbn [map fst]. constructor; [exact NI|apply (b_ndm a m B)].
  - change (items a') with (items a + 1). rewrite (b_cnt a m B). cbn [length]. lia.
Qed.

Lemma chain_cell a m k p q : base a m -> before k (tab a (cur a k) (bkt k)) = Some (p, q) ->
  exists v, tab a (cur a k) (bkt k) = p ++ It k v :: q /\ ~ In k (keys (p ++ q)) /\ NoDup (keys (p ++ q)).
Proof.
  intros B E. apply before_some in E as (v & E). exists v. split; [exact E|].
  pose proof (b_nd a m B (cur a k) (bkt k)) as ND. rewrite E in ND. rewrite keys_app in *. cbn [keys its flat_map app map fst] in ND.
  apply nodup_mid in ND. tauto.
Qed.

Lemma base_delete a m k p q : base a m -> before k (tab a (cur a k) (bkt k)) = Some (p, q) ->
  base (set_items (set_tab a (upd (tab a) (cur a k) (bkt k) (p ++ q))) (items a - 1)) (without m k).
Proof.
  intros B E. destruct (chain_cell a m k p q B E) as (v & C0 & NI & ND).
  assert (Ik : In (k, v) m). { apply (b_map a m B). rewrite C0, its_app. apply in_or_app. right. left. reflexivity. }
  set (a' := set_items _ _).
  assert (T : forall t b, tab a' t b = if (t =? cur a k) && (b =? bkt k) then p ++ q else tab a t b) by reflexivity.
  assert (C : forall k', cur a' k' = cur a k') by reflexivity.
  assert (IC : forall k' v', In (k', v') (its (p ++ q)) <-> In (k', v') (its (tab a (cur a k) (bkt k))) /\ k' <> k).
  { intros k' v'. rewrite C0, !its_app, !in_app_iff. cbn [its flat_map app In]. fold (its q). split.
    - intro H. split; [tauto|]. intros ->. apply NI. apply keys_in. exists v'. rewrite its_app. apply in_app_iff. exact H.
    - intros [[H|[H|H]] NE]; auto. congruence. }
  constructor.
  - destruct (b_geo a m B) as [G1 G2 G3 G4]. constructor; assumption.
  - intros t b k' v' H. rewrite T in H. rewrite C. destruct ((t =? cur a k) && (b =? bkt k)) eqn:E1.
    + apply andb_true_iff in E1 as [E1 E2]. apply N.eqb_eq in E1, E2. apply IC in H as [H _]. subst t b. apply (b_loc a m B _ _ _ _ H).
    + apply (b_loc a m B _ _ _ _ H).
  - intros k' v'. rewrite C, T, without_in, <- (b_map a m B). destruct ((cur a k' =? cur a k) && (bkt k' =? bkt k)) eqn:E1.
    + apply andb_true_iff in E1 as [E1 E2]. apply N.eqb_eq in E1, E2. rewrite IC, E1, E2. reflexivity.
    + split; [|tauto]. intro H. split; [exact H|]. intros ->. rewrite !N.eqb_refl in E1. discriminate.
  - intros t b. rewrite T. destruct ((t =? cur a k) && (b =? bkt k)); [exact ND|apply (b_nd a m B)].
  - apply map_filter_nodup. apply (b_ndm a m B).
  - change (items a') with (items a - 1). rewrite (b_cnt a m B). rewrite (without_length m k); [lia|apply (b_ndm a m B)|].
    apply in_map_iff. exists (k, v). auto.
Qed.

Lemma base_replace a m k v' p q : base a m -> before k (tab a (cur a k) (bkt k)) = Some (p, q) ->
  base (set_tab a (upd (tab a) (cur a k) (bkt k) (p ++ It k v' :: q))) ((k, v') :: without m k).
Proof.
  intros B E. destruct (chain_cell a m k p q B E) as (v & C0 & NI & ND).
  assert (Ik : In (k, v) m). { apply (b_map a m B). rewrite C0, its_app. apply in_or_app. right. left. reflexivity. }
  set (a' := set_tab _ _).
  assert (T : forall t b, tab a' t b = if (t =? cur a k) && (b =? bkt k) then p ++ It k v' :: q else tab a t b) by reflexivity.
  assert (C : forall k', cur a' k' = cur a k') by reflexivity.
  assert (IC : forall k' w, In (k', w) (its (p ++ It k v' :: q)) <->
     (k', w) = (k, v') \/ (In (k', w) (its (tab a (cur a k) (bkt k))) /\ k' <> k)).
  { intros k' w. rewrite C0, !its_app, !in_app_iff. cbn [its flat_map app In]. fold (its q). split.
    - assert (D : In (k', w) (its p) \/ In (k', w) (its q) -> k' <> k).
      { intros H ->. apply NI. apply keys_in. exists w. rewrite its_app. apply in_app_iff. exact H. }
      intros [H|[H|H]]; [right; split; auto|left; congruence|right; split; auto].
    - intros [H|[[H|[H|H]] NE]]; [right; left; congruence|auto|congruence|auto]. }
  constructor.
  - destruct (b_geo a m B) as [G1 G2 G3 G4]. constructor; assumption.
  - intros t b k' w H. rewrite T in H. rewrite C. destruct ((t =? cur a k) && (b =? bkt k)) eqn:E1.
    + apply andb_true_iff in E1 as [E1 E2]. apply N.eqb_eq in E1, E2. subst t b.
      apply IC in H as [H|[H _]]; [injection H as -> ->; auto|]. apply (b_loc a m B _ _ _ _ H).
    + apply (b_loc a m B _ _ _ _ H).
  - intros k' w. rewrite C, T. cbn [In]. rewrite without_in, <- (b_map a m B). destruct ((cur a k' =? cur a k) && (bkt k' =? bkt k)) eqn:E1.
    + apply andb_true_iff in E1 as [E1 E2]. apply N.eqb_eq in E1, E2. rewrite IC, E1, E2. split; (intros [H|H]; [left; congruence|right; exact H]).
    + assert (k' <> k) by (intros ->; rewrite !N.eqb_refl in E1; discriminate).
      split; [tauto|]. intros [H0|H0]; [congruence|tauto].
  - intros t b. rewrite T. destruct ((t =? cur a k) && (b =? bkt k)); [|apply (b_nd a m B)].
    pose proof (b_nd a m B (cur a k) (bkt k)) as ND2. rewrite C0, keys_app in ND2. rewrite keys_app. exact ND2.
  - cbn [map fst]. constructor; [|apply map_filter_nodup, (b_ndm a m B)].
    intro H. apply in_map_iff in H as ((k2, v2) & E2 & H). cbn in E2. subst k2. apply without_in in H. tauto.
  - change (items a') with (items a). rewrite (b_cnt a m B). cbn [length]. rewrite (without_length m k); [reflexivity|apply (b_ndm a m B)|].
    apply in_map_iff. exists (k, v). auto.
Qed.

(* ---------- expansion ---------- *)
Definition goes (rm t t1 : N) (c : cell) : bool :=
  match c with
  | Ph _ => false
  | It k _ => (N.land (X k) rm =? t1) && negb (t1 =? t)
  end.
Definition stays (rm t : N) (c : cell) : bool :=
  match c with Ph _ => true | It k _ => N.land (X k) rm =? t end.

Lemma spread_spec rm t b : forall l kept f kept' f', spread hp hash rm t b l kept f = (kept', f') ->
  kept' = rev kept ++ filter (stays rm t) l /\
  (forall t1 b1, f' t1 b1 = (if b1 =? b then rev (filter (goes rm t t1) l) else []) ++ f t1 b1).
Proof.
  induction l as [|[k v|s] l IH]; intros kept f kept' f' H; cbn [spread] in H.
  - injection H as <- <-. split; [rewrite app_nil_r; reflexivity|]. intros t1 b1. destruct (b1 =? b); reflexivity.
  - destruct (N.land (X k) rm =? t) eqn:E.
    + apply IH in H as [-> H]. split.
      * cbn [rev filter stays]. rewrite E. rewrite <- app_assoc. reflexivity.
      * intros t1 b1. rewrite H. cbn [filter goes]. replace ((N.land (X k) rm =? t1) && negb (t1 =? t)) with false; [reflexivity|].
        apply N.eqb_eq in E. rewrite E. destruct (t =? t1) eqn:E1; [|reflexivity]. rewrite N.eqb_sym, E1. reflexivity.
    + apply IH in H as [-> H]. split.
      * cbn [filter stays]. rewrite E. reflexivity.
      * intros t1 b1. rewrite H. cbn [filter goes]. unfold upd. destruct (b1 =? b) eqn:Eb; [|rewrite andb_false_r; reflexivity].
        apply N.eqb_eq in Eb. subst b1. rewrite andb_true_r. rewrite (N.eqb_sym t1).
        destruct (N.land (X k) rm =? t1) eqn:E1; cbn [andb].
        -- apply N.eqb_eq in E1. subst t1. rewrite E. cbn [negb rev]. rewrite <- app_assoc. reflexivity.
        -- reflexivity.
  - apply IH in H as [-> H]. split.
    + cbn [rev filter stays]. rewrite <- app_assoc. reflexivity.
    + intros t1 b1. rewrite H. reflexivity.
Qed.

Lemma filter_its p l k v : In (k, v) (its (filter p l)) <-> In (k, v) (its l) /\ p (It k v) = true.
Proof. rewrite !its_in. apply filter_In. Qed.
Lemma rev_its l k v : In (k, v) (its (rev l)) <-> In (k, v) (its l).
Proof. rewrite !its_in. symmetry. apply in_rev. Qed.
Lemma filter_keys_nodup p l : NoDup (keys l) -> NoDup (keys (filter p l)).
Proof.
  induction l as [|[k v|s] l IH]; intro ND; cbn [filter]; [constructor| |].
  - unfold keys in ND. cbn [its flat_map app map fst] in ND. fold (its l) in ND. inversion ND as [|? ? NI ND']; subst.
    destruct (p (It k v)); [|apply IH; exact ND']. unfold keys. cbn [its flat_map app map fst]. fold (its (filter p l)).
    constructor; [|apply IH; exact ND']. intro H. apply NI. apply keys_in in H as (w & H). apply filter_its in H as [H _].
    apply keys_in. exists w. exact H.
  - destruct (p (Ph s)); apply IH; exact ND.
Qed.
Lemma rev_keys_nodup l : NoDup (keys l) -> NoDup (keys (rev l)).
Proof.
  assert (E : keys (rev l) = rev (keys l)).
  { induction l as [|[k v|s] l IH]; [reflexivity| |]; cbn [rev]; rewrite keys_app, IH; [|apply app_nil_r]. reflexivity. }
  intro ND. rewrite E. apply NoDup_rev. exact ND.
Qed.

(* one chain is split *)
Definition split1 (a : assoc) : assoc :=
  let '(kept, f) := spread hp hash (rmask a) (etab a) (ebkt a) (tab a (etab a) (ebkt a)) [] (tab a) in
  set_exp (set_tab a (upd f (etab a) (ebkt a) kept)) (expg a) (ebkt a) (etab a + 1).

Lemma split1_tab a t b : tab (split1 a) t b =
  if b =? ebkt a then
    if t =? etab a then filter (stays (rmask a) (etab a)) (tab a t b)
    else rev (filter (goes (rmask a) (etab a) t) (tab a (etab a) (ebkt a))) ++ tab a t b
  else tab a t b.
Proof.
  unfold split1. destruct (spread _ _ _ _ _ _ _ _) as (kept, f) eqn:E. apply spread_spec in E as [-> F].
  cbn [set_exp set_tab tab rev app]. unfold upd. rewrite F.
  destruct (b =? ebkt a) eqn:Eb; [|rewrite andb_false_r; reflexivity].
  apply N.eqb_eq in Eb. subst b. destruct (t =? etab a) eqn:Et; cbn [andb]; [|reflexivity].
  apply N.eqb_eq in Et. subst t. reflexivity.
Qed.

Lemma split1_cur a k : geo a -> expg a = true -> etab a < psz a ->
  cur (split1 a) k = if (bkt k =? ebkt a) && (cur a k =? etab a) then X k mod 2 ^ rpow a else cur a k.
Proof.
  intros G E L. destruct (g_exp a G E) as (P0 & P & PB & _).
  assert (G1 : geo (split1 a)).
  { unfold split1. destruct (spread _ _ _ _ _ _ _ _) as (kept, f). destruct G as [G1 G2 G3 G4].
    constructor; cbn; auto. intro H. specialize (G4 H). change (rsize (set_exp (set_tab a (upd f (etab a) (ebkt a) kept)) (expg a) (ebkt a) (etab a + 1))) with (rsize a).
    repeat split; try tauto; lia. }
  rewrite !cur_eq by assumption. unfold split at 1. 
  assert (F : expg (split1 a) = expg a /\ ebkt (split1 a) = ebkt a /\ etab (split1 a) = etab a + 1 /\ rpow (split1 a) = rpow a).
  { unfold split1. destruct (spread _ _ _ _ _ _ _ _) as (kept, f). auto. }
  destruct F as (F1 & F2 & F3 & F4). rewrite F1, F2, F3, F4, E. unfold split. rewrite E. cbn [negb orb].
  destruct (ebkt a <? bkt k) eqn:L1; cbn [orb].
  { replace (bkt k =? ebkt a) with false by (symmetry; apply N.eqb_neq; lia). reflexivity. }
  rewrite (N.eqb_sym (ebkt a)). destruct (bkt k =? ebkt a) eqn:L2; cbn [andb]; [|reflexivity].
  destruct (X k mod 2 ^ (rpow a - 1) <? etab a) eqn:L3.
  - replace (X k mod 2 ^ (rpow a - 1) <? etab a + 1) with true by lia.
    destruct (X k mod 2 ^ rpow a =? etab a); reflexivity.
  - destruct (X k mod 2 ^ (rpow a - 1) <? etab a + 1) eqn:L4.
    + assert (X k mod 2 ^ (rpow a - 1) = etab a) as -> by lia. rewrite N.eqb_refl. reflexivity.
    + replace (X k mod 2 ^ (rpow a - 1) =? etab a) with false by (symmetry; apply N.eqb_neq; lia). reflexivity.
Qed.

Lemma split1_fields a : rpow (split1 a) = rpow a /\ psz (split1 a) = psz a /\ rtsz (split1 a) = rtsz a /\ expg (split1 a) = expg a /\
  ebkt (split1 a) = ebkt a /\ etab (split1 a) = etab a + 1 /\ refc (split1 a) = refc a /\ items (split1 a) = items a /\
  limit (split1 a) = limit a /\ scans (split1 a) = scans a.
Proof. unfold split1. destruct (spread _ _ _ _ _ _ _ _) as (kept, f). repeat split. Qed.

Lemma split1_base a m : base a m -> expg a = true -> etab a < psz a -> base (split1 a) m.
Proof.
  intros B E L. pose proof (b_geo a m B) as G. destruct (g_exp a G E) as (P0 & P & PB & _).
  destruct (split1_fields a) as (F1 & F2 & F3 & F4 & F5 & F6 & F7 & F8 & F9 & F10).
  set (b0 := ebkt a) in *. set (t0 := etab a) in *.
  assert (LOC : forall k v, In (k, v) (its (tab a t0 b0)) -> bkt k = b0 /\ cur a k = t0 /\ N.land (X k) (rmask a) = X k mod 2 ^ rpow a).
  { intros k v H. destruct (b_loc a m B _ _ _ _ H) as [E1 E2]. split; [auto|]. split; [auto|]. unfold rmask, rsize. apply land_mask. }
  assert (IN : forall t b k v, In (k, v) (its (tab (split1 a) t b)) <->
     (if (bkt k =? b0) && (cur a k =? t0) then b = b0 /\ t = X k mod 2 ^ rpow a /\ In (k, v) (its (tab a t0 b0)) else In (k, v) (its (tab a t b)))).
  { intros t b k v. rewrite split1_tab. fold b0 t0. destruct (b =? b0) eqn:Eb.
    - apply N.eqb_eq in Eb. subst b. destruct (t =? t0) eqn:Et.
      + apply N.eqb_eq in Et. subst t. rewrite filter_its. cbn [stays]. split.
        * intros [H1 H2]. destruct (LOC _ _ H1) as (E1 & E2 & E3). rewrite E1, E2, !N.eqb_refl. cbn [andb].
          apply N.eqb_eq in H2. split; [reflexivity|]. split; [congruence|exact H1].
        * destruct ((bkt k =? b0) && (cur a k =? t0)) eqn:C.
          -- intros (_ & E1 & H). split; [exact H|]. destruct (LOC _ _ H) as (_ & _ & ->). apply N.eqb_eq. congruence.
          -- intro H. exfalso. destruct (LOC _ _ H) as (E1 & E2 & _). rewrite E1, E2, !N.eqb_refl in C. discriminate.
      + apply N.eqb_neq in Et. rewrite its_app, in_app_iff, rev_its, filter_its. cbn [goes]. fold t0. split.
        * intros [[H1 H2]|H].
          -- destruct (LOC _ _ H1) as (E1 & E2 & E3). rewrite E1, E2, !N.eqb_refl. cbn [andb]. apply andb_true_iff in H2 as [H2 _].
             apply N.eqb_eq in H2. split; [reflexivity|]. split; [congruence|exact H1].
          -- destruct (b_loc a m B _ _ _ _ H) as [E1 E2]. replace (cur a k =? t0) with false by (symmetry; apply N.eqb_neq; congruence).
             rewrite andb_false_r. exact H.
        * destruct ((bkt k =? b0) && (cur a k =? t0)) eqn:C.
          -- intros (_ & E1 & H). left. split; [exact H|]. destruct (LOC _ _ H) as (_ & _ & ->). apply andb_true_iff. split; [apply N.eqb_eq; congruence|].
             apply negb_true_iff, N.eqb_neq. exact Et.
          -- intro H. right. exact H.
    - apply N.eqb_neq in Eb. split.
      + intro H. destruct (b_loc a m B _ _ _ _ H) as [E1 E2]. replace (bkt k =? b0) with false by (symmetry; apply N.eqb_neq; congruence). exact H.
      + destruct ((bkt k =? b0) && (cur a k =? t0)) eqn:C; [|tauto]. intros (E1 & _). congruence. }
  constructor.
  - destruct G as [G1 G2 G3 G4]. constructor; unfold rsize in *; rewrite ?F1, ?F2, ?F3, ?F4, ?F5, ?F6, ?F9; auto. intro H. specialize (G4 H). repeat split; try tauto; lia.
  - intros t b k v H. rewrite split1_cur by assumption. fold b0 t0. apply IN in H. destruct ((bkt k =? b0) && (cur a k =? t0)) eqn:C.
    + destruct H as (-> & -> & H). apply andb_true_iff in C as [C _]. apply N.eqb_eq in C. auto.
    + apply (b_loc a m B _ _ _ _ H).
  - intros k v. rewrite split1_cur by assumption. fold b0 t0. rewrite IN. destruct ((bkt k =? b0) && (cur a k =? t0)) eqn:C.
    + apply andb_true_iff in C as [C1 C2]. apply N.eqb_eq in C1, C2. rewrite <- (b_map a m B), C1, C2. split; [intros (_ & _ & H); exact H|auto].
    + apply (b_map a m B).
  - intros t b. rewrite split1_tab. fold b0 t0. destruct (b =? b0) eqn:Eb; [|apply (b_nd a m B)]. apply N.eqb_eq in Eb. subst b.
    destruct (t =? t0) eqn:Et; [apply filter_keys_nodup, (b_nd a m B)|]. apply N.eqb_neq in Et.
    rewrite keys_app. apply nodup_app3.
    split; [apply rev_keys_nodup, filter_keys_nodup, (b_nd a m B)|]. split; [apply (b_nd a m B)|].
    intros k H1 H2. apply keys_in in H1 as (v1 & H1). apply keys_in in H2 as (v2 & H2). apply rev_its, filter_its in H1 as [H1 _].
    destruct (LOC _ _ H1) as (E1 & E2 & _). destruct (b_loc a m B _ _ _ _ H2) as [E3 E4]. congruence.
  - apply (b_ndm a m B).
  - rewrite F8. apply (b_cnt a m B).
Qed.
End Inv.
