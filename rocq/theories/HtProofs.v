(* Lemmas about hash trees shared by the set and the map proofs. *)
From Coq Require Import Permutation.
From Verif Require Import Base HtModel.

Fixpoint elems (n : node) : list elem :=
  match n with Node _ _ _ tab =>
    flat_map (fun i => match tab i with Chain l => l | Child m => elems m end) slots
  end.
Definition slot_elems (s : slot) : list elem := match s with Chain l => l | Child m => elems m end.

Lemma elems_eq d t h tab : elems (Node d t h tab) = flat_map (fun i => slot_elems (tab i)) slots.
Proof. reflexivity. Qed.

Definition at_ (d i : nat) (e : elem) : Prop := hidx (eh e) d = Some i.
Definition range (h : Z) : Prop := (- 2 ^ 31 <= h < 2 ^ 31)%Z.

Fixpoint pwf (n : node) : Prop :=
  match n with Node d _ _ tab =>
    forall i, i < 16 ->
      match tab i with
      | Chain l => Forall (at_ d i) l
      | Child m => ndep m = S d /\ Forall (at_ d i) (elems m) /\ pwf m
      end
  end.

Lemma node_rec' (P : node -> Prop) :
  (forall d t h tab, (forall i m, tab i = Child m -> P m) -> P (Node d t h tab)) -> forall n, P n.
Proof.
  intros H n.
  apply (node_mut P (fun s => match s with Chain _ => True | Child m => P m end)); clear n.
  - intros d t h tab IH. apply H. intros i m E. specialize (IH i). rewrite E in IH. exact IH.
  - intros l. exact I.
  - intros m Hm. exact Hm.
Qed.

Lemma pwf_slot d t h tab i : pwf (Node d t h tab) -> i < 16 -> Forall (at_ d i) (slot_elems (tab i)).
Proof.
  intros W Hi. specialize (W i Hi). destruct (tab i) as [l|m]; cbn [slot_elems]; tauto.
Qed.
Lemma pwf_child d t h tab i m : pwf (Node d t h tab) -> i < 16 -> tab i = Child m -> ndep m = S d /\ pwf m.
Proof. intros W Hi E. specialize (W i Hi). rewrite E in W. tauto. Qed.

Lemma hidx_lt h d i : range h -> hidx h d = Some i -> i < 16.
Proof.
  unfold hidx, range. intros R. destruct (Nat.eqb (d mod 8) 7) eqn:E.
  - rewrite Z.shiftr_div_pow2 by lia.
    destruct (_ <? 0)%Z eqn:L; [discriminate|]. intros H; injection H as <-.
    assert (h / 2 ^ 28 < 8)%Z by (apply Z.div_lt_upper_bound; lia). lia.
  - replace 15%Z with (Z.ones 4) by reflexivity. rewrite Z.land_ones by lia.
    pose proof (Z.mod_pos_bound (Z.shiftr h (4 * Z.of_nat (d mod 8))) (2 ^ 4)).
    destruct (_ <? 0)%Z; [discriminate|]. intros Q; injection Q as <-. lia.
Qed.
Lemma hidx_some h d : (0 <= h < 2 ^ 31)%Z -> exists i, hidx h d = Some i /\ i < 16.
Proof.
  intros R. destruct (hidx h d) as [i|] eqn:E.
  - exists i. split; [reflexivity|]. eapply hidx_lt; [|exact E]. unfold range; lia.
  - exfalso. revert E. unfold hidx. destruct (Nat.eqb (d mod 8) 7).
    + assert (0 <= Z.shiftr h 28)%Z by (apply Z.shiftr_nonneg; lia).
      destruct (_ <? 0)%Z eqn:L; [lia|discriminate].
    + assert (0 <= Z.land (Z.shiftr h (4 * Z.of_nat (d mod 8))) 15)%Z by (apply Z.land_nonneg; right; lia).
      destruct (_ <? 0)%Z eqn:L; [lia|discriminate].
Qed.

Lemma upd_same tab i s : upd tab i s i = s.
Proof. unfold upd. rewrite Nat.eqb_refl. reflexivity. Qed.
Lemma upd_other tab i s j : j <> i -> upd tab i s j = tab j.
Proof. intros H. unfold upd. destruct (Nat.eqb_spec j i); congruence. Qed.

Lemma slots_split i : i < 16 -> exists a b, slots = a ++ i :: b /\ ~ In i a /\ ~ In i b.
Proof.
  intros H. assert (I : In i slots) by (apply in_seq; lia).
  apply in_split in I as (a & b & E). exists a, b. split; [exact E|].
  assert (N : NoDup slots) by apply seq_NoDup. rewrite E in N.
  apply NoDup_remove_2 in N. rewrite in_app_iff in N. tauto.
Qed.
Lemma in_slots i : In i slots <-> i < 16.
Proof. unfold slots. rewrite in_seq. lia. Qed.

Lemma flat_map_ext_in {A B} (f g : A -> list B) l : (forall x, In x l -> f x = g x) -> flat_map f l = flat_map g l.
Proof.
  induction l as [|a l IH]; intros H; [reflexivity|].
  cbn. rewrite (H a) by (left; reflexivity). f_equal. apply IH. intros x Hx. apply H. right; exact Hx.
Qed.

Lemma elems_split tab i : i < 16 ->
  exists pre post,
    flat_map (fun j => slot_elems (tab j)) slots = pre ++ slot_elems (tab i) ++ post /\
    (forall s, flat_map (fun j => slot_elems (upd tab i s j)) slots = pre ++ slot_elems s ++ post).
Proof.
  intros Hi. destruct (slots_split i Hi) as (a & b & E & Na & Nb).
  exists (flat_map (fun j => slot_elems (tab j)) a), (flat_map (fun j => slot_elems (tab j)) b).
  rewrite E. split.
  - rewrite flat_map_app. reflexivity.
  - intros s. rewrite flat_map_app. cbn [flat_map]. rewrite upd_same.
    f_equal; [|f_equal]; apply flat_map_ext_in; intros x Hx; rewrite upd_other by congruence; reflexivity.
Qed.

Lemma in_elems d t h tab e : In e (elems (Node d t h tab)) <-> exists i, i < 16 /\ In e (slot_elems (tab i)).
Proof.
  rewrite elems_eq, in_flat_map. split; intros (i & A & B); exists i; split; try assumption; apply in_slots; assumption.
Qed.

Lemma in_slot d t h tab e i :
  pwf (Node d t h tab) -> In e (elems (Node d t h tab)) -> hidx (eh e) d = Some i -> In e (slot_elems (tab i)).
Proof.
  intros W H E. apply in_elems in H as (j & Hj & H).
  pose proof (pwf_slot _ _ _ _ _ W Hj) as F. rewrite Forall_forall in F. specialize (F e H). unfold at_ in F.
  assert (i = j) by congruence. subst. exact H.
Qed.

(* keys: equal hash and key *)
Lemma same_spec h k e : same h k e = true <-> eh e = h /\ ek e = k.
Proof.
  unfold same. rewrite andb_true_iff, Z.eqb_eq, beqb_eq. intuition congruence.
Qed.

Definition hashed (hash : bytes -> Z) (l : list elem) : Prop := Forall (fun e => eh e = hash (ek e)) l.

Lemma hashed_in hash l e : hashed hash l -> In e l -> eh e = hash (ek e).
Proof. intros H I. unfold hashed in H. rewrite Forall_forall in H. apply H; exact I. Qed.

Lemma find_elem_ok hash k : range (hash k) -> forall n, pwf n -> hashed hash (elems n) ->
  match find_elem n (hash k) k with
  | None => True
  | Some None => ~ In k (map ek (elems n))
  | Some (Some e) => In e (elems n) /\ ek e = k
  end.
Proof.
  intros R n. induction n as [d t h tab IH] using node_rec'.
  intros W H. cbn [find_elem]. destruct (hidx (hash k) d) as [i|] eqn:E; [|exact I].
  pose proof (hidx_lt _ _ _ R E) as Hi.
  assert (K : In k (map ek (elems (Node d t h tab))) -> In k (map ek (slot_elems (tab i)))).
  { intros Q. apply in_map_iff in Q as (e & Q & Qe). pose proof (hashed_in _ _ _ H Qe) as Q2.
    apply in_map_iff. exists e. split; [exact Q|]. eapply in_slot; [exact W|exact Qe|]. congruence. }
  assert (S : forall e, In e (slot_elems (tab i)) -> In e (elems (Node d t h tab))).
  { intros e Q. apply in_elems. exists i. tauto. }
  assert (HS : hashed hash (slot_elems (tab i))).
  { unfold hashed in *. rewrite Forall_forall in *. auto. }
  destruct (tab i) as [l|m] eqn:T; cbn [slot_elems] in *.
  - destruct (find (same (hash k) k) l) as [e|] eqn:F.
    + apply find_some in F as [F1 F2]. apply same_spec in F2. split; [auto|tauto].
    + intros Q. apply K in Q. apply in_map_iff in Q as (e & Q & Qe).
      pose proof (find_none _ _ F e Qe) as Z. assert (same (hash k) k e = true); [|congruence].
      apply same_spec. rewrite (hashed_in _ _ _ HS Qe). split; congruence.
  - destruct (pwf_child _ _ _ _ _ _ W Hi T) as [_ Wm]. specialize (IH i m T Wm HS).
    destruct (find_elem m (hash k) k) as [[e|]|]; [|auto|exact I].
    split; [apply S; tauto|tauto].
Qed.

Lemma find_elem_some hash k : (0 <= hash k < 2 ^ 31)%Z -> forall n, find_elem n (hash k) k <> None.
Proof.
  intros R n. induction n as [d t h tab IH] using node_rec'.
  cbn [find_elem]. destruct (hidx_some (hash k) d R) as (i & E & _). rewrite E.
  destruct (tab i) eqn:T; [discriminate|exact (IH i _ T)].
Qed.

(* move: the chain goes into the fresh table, element by element *)
Definition all_chains (tab : nat -> slot) : Prop := forall i, exists l, tab i = Chain l.
Definition tab_elems (tab : nat -> slot) : list elem := flat_map (fun j => slot_elems (tab j)) slots.

Lemma move_ok d : forall l tab tab', (forall e, In e l -> range (eh e)) ->
  all_chains tab -> (forall i, i < 16 -> Forall (at_ d i) (slot_elems (tab i))) ->
  move d l tab = Some tab' ->
  all_chains tab' /\ (forall i, i < 16 -> Forall (at_ d i) (slot_elems (tab' i))) /\
  Permutation (tab_elems tab') (l ++ tab_elems tab).
Proof.
  induction l as [|e l IH]; intros tab tab' R A F; cbn [move].
  - intros H; injection H as <-. auto.
  - destruct (hidx (eh e) d) as [i|] eqn:E; [|discriminate].
    pose proof (hidx_lt _ _ _ (R e (or_introl eq_refl)) E) as Hi.
    destruct (tab i) as [c|m] eqn:T; [|discriminate]. intros M.
    destruct (elems_split tab i Hi) as (pre & post & E1 & E2).
    apply IH in M.
    + destruct M as (M1 & M2 & M3). split; [exact M1|]. split; [exact M2|].
      rewrite M3. unfold tab_elems. rewrite E1, E2, T. cbn [slot_elems app].
      rewrite <- Permutation_middle. rewrite <- Permutation_middle. reflexivity.
    + intros; apply R; right; assumption.
    + intros j. unfold upd. destruct (Nat.eqb j i); eauto.
    + intros j Hj. destruct (Nat.eq_dec j i) as [->|N].
      * rewrite upd_same. cbn [slot_elems]. constructor; [exact E|]. specialize (F i Hi). rewrite T in F. exact F.
      * rewrite upd_other by exact N. auto.
Qed.

Lemma move_some d : forall l tab, (forall e, In e l -> (0 <= eh e < 2 ^ 31)%Z) -> all_chains tab ->
  exists tab', move d l tab = Some tab'.
Proof.
  induction l as [|e l IH]; intros tab R A; cbn [move]; [eauto|].
  destruct (hidx_some (eh e) d (R e (or_introl eq_refl))) as (i & E & _). rewrite E.
  destruct (A i) as (c & T). rewrite T. apply IH; [intros; apply R; right; assumption|].
  intros j. unfold upd. destruct (Nat.eqb j i); eauto.
Qed.

Lemma empty_tab_ok d : all_chains empty_tab /\ (forall i, i < 16 -> Forall (at_ d i) (slot_elems (empty_tab i))) /\ tab_elems empty_tab = [].
Proof. split; [intros i; exists []; reflexivity|]. split; [intros; constructor|reflexivity]. Qed.

Lemma is_leaf_ok d t h tab : is_leaf (Node d t h tab) = true -> forall i, i < 16 -> exists l, tab i = Chain l.
Proof.
  unfold is_leaf. rewrite forallb_forall. cbn [ntab]. intros H i Hi. specialize (H i). rewrite in_slots in H.
  specialize (H Hi). destruct (tab i); [eauto|discriminate].
Qed.

Lemma gather_ok tab : forall is head l, gather is tab head = Some l ->
  Permutation l (flat_map (fun i => slot_elems (tab i)) is ++ head).
Proof.
  induction is as [|i is IH]; intros head l; cbn [gather flat_map].
  - intros H; injection H as <-. reflexivity.
  - destruct (tab i) as [c|m] eqn:T; [|discriminate]. intros H. apply IH in H. rewrite H. cbn [slot_elems].
    rewrite rev_append_rev, <- Permutation_rev, <- app_assoc.
    rewrite !app_assoc. apply Permutation_app_tail. apply Permutation_app_comm.
Qed.
Lemma gather_some tab : forall is head, (forall i, In i is -> exists l, tab i = Chain l) -> exists l, gather is tab head = Some l.
Proof.
  induction is as [|i is IH]; intros head H; cbn [gather]; [eauto|].
  destruct (H i (or_introl eq_refl)) as (l & E). rewrite E. apply IH. intros; apply H; right; assumption.
Qed.

Lemma chain_del_ok h k : forall l, 
  match chain_del h k l with
  | Some (e, r) => same h k e = true /\ exists a b, l = a ++ e :: b /\ r = a ++ b /\ Forall (fun x => same h k x = false) a
  | None => Forall (fun x => same h k x = false) l
  end.
Proof.
  induction l as [|e l IH]; cbn [chain_del]; [constructor|].
  destruct (same h k e) eqn:S.
  - split; [exact S|]. exists [], l. repeat split. constructor.
  - destruct (chain_del h k l) as [[x r]|].
    + destruct IH as (P & a & b & -> & -> & F). split; [exact P|]. exists (e :: a), b. repeat split. constructor; assumption.
    + constructor; assumption.
Qed.

Lemma take_chain_app count : forall l f, fst (take_chain count f l) ++ snd (take_chain count f l) = l.
Proof.
  induction l as [|e l IH]; intros f; cbn [take_chain]; [reflexivity|].
  destruct (negb _ && _); [reflexivity|]. specialize (IH (S f)). destruct (take_chain count (S f) l); cbn in *. congruence.
Qed.
Lemma take_chain_len count : forall l f, count = 0 \/ f < count ->
  length (fst (take_chain count f l)) = if Nat.eqb count 0 then length l else Nat.min (length l) (count - f).
Proof.
  induction l as [|e l IH]; intros f H; cbn [take_chain].
  - destruct (Nat.eqb count 0); reflexivity.
  - destruct (negb (count =? 0) && (count <=? S f)) eqn:E.
    + apply andb_true_iff in E as [E1 E2]. apply negb_true_iff, Nat.eqb_neq in E1. apply Nat.leb_le in E2.
      destruct (Nat.eqb_spec count 0); [lia|]. cbn [fst length]. lia.
    + assert (G : count = 0 \/ S f < count).
      { destruct (Nat.eqb_spec count 0); [left; assumption|right]. cbn in E. apply Nat.leb_gt in E. exact E. }
      specialize (IH (S f) G). destruct (take_chain count (S f) l) as [a b]. cbn [fst length] in *. rewrite IH.
      destruct (Nat.eqb_spec count 0); lia.
Qed.

Lemma tab_add tab i s x : i < 16 -> Permutation (slot_elems s) (x ++ slot_elems (tab i)) ->
  Permutation (tab_elems (upd tab i s)) (x ++ tab_elems tab).
Proof.
  intros Hi P. destruct (elems_split tab i Hi) as (pre & post & E1 & E2).
  unfold tab_elems. rewrite E1, E2, P. rewrite !app_assoc. do 2 apply Permutation_app_tail. apply Permutation_app_comm.
Qed.
Lemma tab_sub tab i s x : i < 16 -> Permutation (slot_elems (tab i)) (x ++ slot_elems s) ->
  Permutation (tab_elems tab) (x ++ tab_elems (upd tab i s)).
Proof.
  intros Hi P. destruct (elems_split tab i Hi) as (pre & post & E1 & E2).
  unfold tab_elems. rewrite E1, E2, P. rewrite !app_assoc. do 2 apply Permutation_app_tail. apply Permutation_app_comm.
Qed.

Lemma Forall_perm {A} (P : A -> Prop) l l' : Permutation l l' -> Forall P l -> Forall P l'.
Proof. intros H. rewrite !Forall_forall. intros F x I. apply F. eapply Permutation_in; [symmetry; exact H|exact I]. Qed.

Definition wantn {A} (c : nat) (l : list A) : list A := if Nat.eqb c 0 then l else firstn c l.

Lemma wantn_app {A} count f (a b : list A) : count = 0 \/ f < count ->
  full count (f + length (wantn (rest count f) a)) = true -> wantn (rest count f) (a ++ b) = wantn (rest count f) a.
Proof.
  unfold full, wantn, rest. destruct (Nat.eqb_spec count 0) as [->|N]; [discriminate|].
  intros [H|H]; [contradiction|]. cbn [negb andb]. destruct (Nat.eqb_spec (count - f) 0); [lia|].
  rewrite firstn_length. rewrite Nat.leb_le. intros L. rewrite firstn_app.
  replace (count - f - length a) with 0 by lia. rewrite firstn_O, app_nil_r. reflexivity.
Qed.
Lemma wantn_app2 {A} count f (a b : list A) : count = 0 \/ f < count ->
  full count (f + length (wantn (rest count f) a)) = false ->
  wantn (rest count f) a = a /\ (count = 0 \/ f + length a < count) /\
  wantn (rest count f) (a ++ b) = a ++ wantn (rest count (f + length a)) b.
Proof.
  unfold full, wantn, rest. destruct (Nat.eqb_spec count 0) as [->|N]; [cbn; auto|].
  intros [H|H]; [contradiction|]. cbn [negb andb]. destruct (Nat.eqb_spec (count - f) 0); [lia|].
  rewrite firstn_length. rewrite Nat.leb_gt. intros L. assert (length a < count - f) by lia.
  rewrite (firstn_all2 a) by lia. split; [reflexivity|]. split; [right; lia|].
  destruct (Nat.eqb_spec (count - (f + length a)) 0); [lia|].
  rewrite firstn_app, (firstn_all2 a) by lia. do 2 f_equal. lia.
Qed.

Lemma take_chain_want count l f : count = 0 \/ f < count -> fst (take_chain count f l) = wantn (rest count f) l.
Proof.
  intros H. pose proof (take_chain_app count l f) as A. pose proof (take_chain_len count l f H) as L.
  assert (E : fst (take_chain count f l) = firstn (length (fst (take_chain count f l))) l).
  { rewrite <- A at 3. rewrite firstn_app, Nat.sub_diag, firstn_O, app_nil_r, firstn_all. reflexivity. }
  rewrite E, L. unfold wantn, rest. destruct (Nat.eqb_spec count 0) as [->|N].
  - cbn. rewrite firstn_all. reflexivity.
  - destruct (Nat.eqb_spec (count - f) 0); [lia|]. destruct (Nat.le_gt_cases (length l) (count - f)).
    + rewrite Nat.min_l by lia. rewrite firstn_all, firstn_all2 by lia. reflexivity.
    + rewrite Nat.min_r by lia. reflexivity.
Qed.

Lemma rest_0 count : rest count 0 = count.
Proof. unfold rest. destruct (Nat.eqb_spec count 0); lia. Qed.

Fixpoint tok (n : node) : Prop :=
  match n with Node d _ _ tab =>
    d <= 6 /\ forall i, i < 16 -> match tab i with Chain l => length l <= 64 + d | Child m => tok m end
  end.
Definition stok (d : nat) (s : slot) : Prop := match s with Chain l => length l <= 64 + d | Child m => tok m end.

Lemma tok_iff d t h tab : tok (Node d t h tab) <-> d <= 6 /\ forall i, i < 16 -> stok d (tab i).
Proof. reflexivity. Qed.
Lemma tok_upd d t h tab i s t' h' : tok (Node d t h tab) -> stok d s -> tok (Node d t' h' (upd tab i s)).
Proof.
  rewrite !tok_iff. intros [D S] Hs. split; [exact D|]. intros j Hj. unfold upd. destruct (Nat.eqb j i); auto.
Qed.
Lemma tok_dep n : tok n -> ndep n <= 6.
Proof. destruct n. intros [H _]. exact H. Qed.

Lemma hidx_low h d : d <= 6 -> exists i, hidx h d = Some i /\ i < 16 /\ Z.of_nat i = ((h / 2 ^ (4 * Z.of_nat d)) mod 16)%Z.
Proof.
  intros D. unfold hidx. rewrite (Nat.mod_small d 8) by lia. destruct (Nat.eqb_spec d 7); [lia|].
  replace 15%Z with (Z.ones 4) by reflexivity. rewrite Z.land_ones by lia. rewrite Z.shiftr_div_pow2 by lia.
  change (2 ^ 4)%Z with 16%Z. pose proof (Z.mod_pos_bound (h / 2 ^ (4 * Z.of_nat d)) 16 ltac:(lia)) as B.
  destruct (_ <? 0)%Z eqn:L; [lia|]. eexists. split; [reflexivity|]. lia.
Qed.

Lemma nibble h d i : d <= 6 -> hidx h d = Some i ->
  (h mod 2 ^ (4 * Z.of_nat (S d)) = Z.of_nat i * 2 ^ (4 * Z.of_nat d) + h mod 2 ^ (4 * Z.of_nat d))%Z.
Proof.
  intros D H. destruct (hidx_low h d D) as (j & E & _ & Ej). assert (i = j) by congruence. subst j.
  replace (4 * Z.of_nat (S d))%Z with (4 * Z.of_nat d + 4)%Z by lia. rewrite Z.pow_add_r by lia.
  rewrite Z.rem_mul_r; [|apply Z.pow_nonzero; lia|reflexivity]. change (2 ^ 4)%Z with 16%Z. rewrite <- Ej. lia.
Qed.

Lemma chain_del_len h k l e r : chain_del h k l = Some (e, r) -> length r <= length l.
Proof.
  intros H. pose proof (chain_del_ok h k l) as X. rewrite H in X. destruct X as (_ & a & b & -> & -> & _).
  rewrite !app_length. cbn. lia.
Qed.

Lemma move_tab_len d : forall l tab tab', all_chains tab -> move d l tab = Some tab' ->
  forall i c', tab' i = Chain c' -> exists c, tab i = Chain c /\ length c' <= length l + length c.
Proof.
  induction l as [|e l IH]; intros tab tab' A; cbn [move].
  - intros H; injection H as <-. intros i c' E. exists c'. split; [exact E|cbn; lia].
  - destruct (hidx (eh e) d) as [j|]; [|discriminate]. destruct (tab j) as [c|m] eqn:Tj; [|discriminate].
    intros M i c' E. apply (IH (upd tab j (Chain (e :: c))) tab') with (i := i) (c' := c') in M; [| |exact E].
    + destruct M as (c1 & M1 & M2). unfold upd in M1. destruct (Nat.eqb_spec i j) as [->|].
      * injection M1 as <-. exists c. split; [exact Tj|cbn in *; lia].
      * exists c1. split; [exact M1|cbn; lia].
    + intros x. unfold upd. destruct (Nat.eqb x j); eauto.
Qed.

Lemma find_total h k : forall n, tok n -> find_elem n h k <> None.
Proof.
  intros n. induction n as [d t z tab IH] using node_rec'. intros T. cbn [find_elem].
  pose proof (proj1 (tok_iff _ _ _ _) T) as [TD TS].
  destruct (hidx_low h d TD) as (i & E & Hi & _). rewrite E. specialize (TS i Hi).
  destruct (tab i) as [l|m] eqn:Ti; [discriminate|]. exact (IH i m Ti TS).
Qed.

Lemma NoDup_app_r {A} (a b : list A) : NoDup (a ++ b) -> NoDup b.
Proof. induction a as [|x a IH]; cbn; [auto|]. intros H. inversion H; auto. Qed.

Lemma hashed_perm hash l l' : Permutation l l' -> hashed hash l -> hashed hash l'.
Proof. apply Forall_perm. Qed.

Lemma hashed_slot hash d t h tab i : hashed hash (elems (Node d t h tab)) -> i < 16 -> hashed hash (slot_elems (tab i)).
Proof.
  unfold hashed. rewrite !Forall_forall. intros H Hi e I. apply H. apply in_elems. eauto.
Qed.

Lemma slot_in_key d t h tab i k : i < 16 ->
  In k (map ek (slot_elems (tab i))) -> In k (map ek (elems (Node d t h tab))).
Proof.
  intros Hi Q. apply in_map_iff in Q as (e & Q & Qe). apply in_map_iff. exists e. split; [exact Q|].
  apply in_elems. eauto.
Qed.

Lemma existsb_key hash l e : hashed hash l -> eh e = hash (ek e) -> existsb (same (eh e) (ek e)) l = true <-> In (ek e) (map ek l).
Proof.
  intros H He. rewrite existsb_exists, in_map_iff. split.
  - intros (x & Hx & S). apply same_spec in S. exists x. tauto.
  - intros (x & E & Hx). exists x. split; [exact Hx|]. apply same_spec. rewrite (hashed_in _ _ _ H Hx). split; congruence.
Qed.

