(* Every operation keeps the statistics equal to what is stored. *)
From Verif Require Import Base UtilModel KvModel KvSpec KvRefine PfxModel PfxSpec PfxProofs.
Local Open Scope N_scope.

Lemma flat_bset f b l bs : NoDup bs ->
  (In b bs -> (length (flat_map (bset f b l) bs) + length (f b))%nat = (length (flat_map f bs) + length l)%nat) /\
  (~ In b bs -> flat_map (bset f b l) bs = flat_map f bs).
Proof.
  induction bs as [|c bs IH]; intro ND; cbn; [split; [tauto|reflexivity]|]. inversion ND; subst. destruct (IH H2) as [A B].
  split.
  - intros [->|I].
    + rewrite (B H1). rewrite !app_length. unfold bset at 1. rewrite N.eqb_refl. lia.
    + rewrite !app_length. unfold bset at 1. destruct (N.eqb_spec c b) as [->|E]; [tauto|]. specialize (A I). lia.
  - intro N. unfold bset at 1. destruct (N.eqb_spec c b) as [->|E]; [tauto|]. f_equal. apply B. tauto.
Qed.

Lemma remove_len p l : NoDup l -> In p l -> length l = (1 + length (remove N.eq_dec p l))%nat.
Proof.
  induction l as [|q l IH]; intros ND I; [destruct I|]. inversion ND; subst. cbn. destruct (N.eq_dec p q) as [->|E].
  - rewrite notin_remove by assumption. reflexivity.
  - destruct I as [->|I]; [congruence|]. cbn. rewrite (IH H2 I). reflexivity.
Qed.
Lemma remove_nodup p l : NoDup l -> NoDup (remove N.eq_dec p l).
Proof.
  induction l as [|q l IH]; intro ND; cbn; [constructor|]. inversion ND; subst. destruct (N.eq_dec p q); [auto|].
  constructor; [|auto]. intro I. apply in_remove in I. tauto.
Qed.

Lemma filter_le {A} (f : A -> bool) l : (length (filter f l) <= length l)%nat.
Proof. induction l as [|a l IH]; cbn; [lia|]. destruct (f a); cbn; lia. Qed.

Section P.
Variable hash : bytes -> N.
Notation pbucket := (pbucket hash).
Notation inv := (inv hash).

Lemma inv_gs e s hd g : inv e s hd -> inv e (w_gs s g) hd.
Proof. intros []. constructor; assumption. Qed.

(* a new prefix *)
Lemma new_inv s hd n : inv 0 s hd -> (forall p x, heap s p = Some x -> plinked x = true -> pname x <> n) ->
  inv (fresh s) (new_prefix hash s n) hd /\ heap (new_prefix hash s n) (fresh s) = Some (mkPt n (reserved n) true 0 (fun _ => 0) (fun _ => 0) 0 0) /\ fresh s <> 0.
Proof.
  intros I NN. assert (F0 : fresh s <> 0).
  { intro E. destruct (I_null _ _ _ _ I) as (x & X & _). rewrite (I_fresh _ _ _ _ I) in X by lia. discriminate. }
  assert (FN : forall q z, heap s q = Some z -> q <> fresh s).
  { intros q z Z ->. rewrite (I_fresh _ _ _ _ I) in Z by lia. discriminate. }
  assert (NI : forall i h, In (i, h) (its s) -> ptr h <> fresh s).
  { intros i h Ih P. pose proof (I_items _ _ _ _ I _ _ Ih) as A. destruct (pfx (hkey h)) as [m|].
    - destruct A as (x & X & _). apply FN in X. congruence.
    - congruence. }
  assert (Z0 : forall f, (forall h, ptr h <> fresh s -> f h = 0) -> tot f (its s) = 0).
  { intros f Hf. assert (G : forall l, (forall i h, In (i, h) l -> ptr h <> fresh s) -> tot f l = 0).
    { induction l as [|[i h] l IH]; intro Hl; [reflexivity|]. cbn. rewrite Hf by (apply (Hl i); left; reflexivity).
      apply IH. intros j g Hj. apply (Hl j). right. exact Hj. }
    apply G. exact NI. }
  unfold new_prefix. set (x0 := mkPt n (reserved n) true 0 (fun _ => 0) (fun _ => 0) 0 0). set (b := pbucket n).
  split; [|split; [cbn; unfold hset; rewrite N.eqb_refl; reflexivity|exact F0]].
  assert (H : forall q z, hset (heap s) (fresh s) (Some x0) q = Some z -> q = fresh s /\ z = x0 \/ q <> fresh s /\ heap s q = Some z).
  { intros q z. unfold hset. destruct (N.eqb_spec q (fresh s)) as [->|E]; [injection 1 as <-; auto|auto]. }
  assert (H' : forall q z, heap s q = Some z -> hset (heap s) (fresh s) (Some x0) q = Some z).
  { intros q z Z. unfold hset. destruct (N.eqb_spec q (fresh s)) as [->|E]; [exfalso; eapply FN; eauto|exact Z]. }
  assert (BI : forall c q, In q (buck s c) -> In q (bset (buck s) b (fresh s :: buck s b) c)).
  { intros c q Q. unfold bset. destruct (N.eqb_spec c b) as [->|E]; [right; exact Q|exact Q]. }
  constructor; cbn [heap buck its fresh total gs].
  - destruct (I_null _ _ _ _ I) as (z & Z & L). exists z. split; [apply H', Z|exact L].
  - intros c q Q. unfold bset in Q. destruct (N.eqb_spec c b) as [->|E].
    + destruct Q as [<-|Q].
      * exists x0. unfold hset. rewrite N.eqb_refl. repeat split.
      * destruct (I_cell _ _ _ _ I _ _ Q) as (z & Z & L & B). exists z. split; [apply H', Z|auto].
    + destruct (I_cell _ _ _ _ I _ _ Q) as (z & Z & L & B). exists z. split; [apply H', Z|auto].
  - intros q z Z L. destruct (H _ _ Z) as [[-> ->]|[E Z0']].
    + cbn [pname x0]. fold b. unfold bset. rewrite N.eqb_refl. left. reflexivity.
    + apply BI. apply (I_conv _ _ _ _ I); assumption.
  - intro c. unfold bset. destruct (N.eqb_spec c b) as [->|E]; [|apply (I_nodup _ _ _ _ I)].
    constructor; [|apply (I_nodup _ _ _ _ I)]. intro Q. destruct (I_cell _ _ _ _ I _ _ Q) as (z & Z & _). apply FN in Z. congruence.
  - intros q r z1 z2 Z1 Z2 L1 L2 E. destruct (H _ _ Z1) as [[-> ->]|[E1 Z1']], (H _ _ Z2) as [[-> ->]|[E2 Z2']]; auto.
    + exfalso. apply (NN _ _ Z2' L2). symmetry. exact E.
    + exfalso. apply (NN _ _ Z1' L1). exact E.
    + eapply (I_names _ _ _ _ I); eassumption.
  - intros q z Z D. destruct (H _ _ Z) as [[-> ->]|[E1 Z1']]; [|apply (I_good _ _ _ _ I); assumption].
    unfold good, at_p. cbn [x0 tcnt tbyt cnts byts].
    assert (G : forall g (c : hitem -> bool), tot (fun h => w1 ((ptr h =? fresh s) && c h) (g h)) (its s) = 0).
    { intros g c. apply Z0. intros h N. apply N.eqb_neq in N. rewrite N. reflexivity. }
    assert (G1 : forall g, tot (fun h => w1 (ptr h =? fresh s) (g h)) (its s) = 0).
    { intros g. apply Z0. intros h N. apply N.eqb_neq in N. rewrite N. reflexivity. }
    repeat split; intros; rewrite ?G, ?G1; try reflexivity.
  - intros i h Ih. pose proof (I_items _ _ _ _ I _ _ Ih) as A. destruct (pfx (hkey h)) as [m|]; [|exact A].
    destruct A as (x & X & L). exists x. split; [apply H', X|exact L].
  - intros q z Z L. destruct (H _ _ Z) as [[-> ->]|[E1 Z1']]; [left; reflexivity|].
    right. destruct (I_used _ _ _ _ I _ _ Z1' L) as [->|U]; [|exact U]. exfalso.
    destruct (I_null _ _ _ _ I) as (w & W & V). congruence.
  - intros q Q. unfold hset. destruct (N.eqb_spec q (fresh s)); [lia|]. apply (I_fresh _ _ _ _ I). lia.
  - rewrite (I_total _ _ _ _ I). unfold linked_ids. cbn [buck].
    destruct (flat_bset (buck s) b (fresh s :: buck s b) buckets buckets_nodup) as [FB _].
    specialize (FB (pbucket_in hash n)). cbn [length] in FB.
    replace (length (flat_map (bset (buck s) b (fresh s :: buck s b)) buckets)) with (1 + length (flat_map (buck s) buckets))%nat by lia.
    rewrite N.add_mod_idemp_l by discriminate. f_equal. lia.
  - intros q z Z N. destruct (H _ _ Z) as [[-> ->]|[E1 Z1']]; [|eapply (I_held _ _ _ _ I); eassumption].
    cbn [pref x0]. assert (C : count_occ N.eq_dec hd (fresh s) = 0%nat).
    { apply count_occ_not_In. intro Q. apply (I_alive _ _ _ _ I) in Q. apply Q. apply (I_fresh _ _ _ _ I). lia. }
    rewrite C. reflexivity.
  - intros q Q. pose proof (I_alive _ _ _ _ I _ Q) as A. destruct (heap s q) as [z|] eqn:Z; [|congruence]. rewrite (H' _ _ Z). discriminate.
  - intros q z Z N L. destruct (H _ _ Z) as [[-> ->]|[E1 Z1']]; [discriminate|]. eapply (I_dead _ _ _ _ I); eassumption.
  - apply (I_ids _ _ _ _ I).
  - apply (I_keys _ _ _ _ I).
  - intros q z Z N. destruct (H _ _ Z) as [[-> ->]|[E1 Z1']]; [reflexivity|]. eapply (I_intl _ _ _ _ I); eassumption.
Qed.

(* an item is linked to cell p *)
Lemma link_item e s hd p x i h g : inv e s hd -> heap s p = Some x -> ptr h = p -> e = 0 \/ e = p ->
  match pfx (hkey h) with None => p = 0 | Some n => plinked x = true /\ pname x = n end ->
  stotal h < u32 -> ~ In i (map fst (its s)) -> ~ In (hkey h) (map (fun e => hkey (snd e)) (its s)) ->
  inv 0 (w_gs (w_its (w_heap s (hset (heap s) p (Some (count_incr x (htype h) (stotal h))))) ((i, h) :: its s)) g) hd.
Proof.
  intros I X P E0 PX S NI NK.
  assert (PL : p = 0 \/ plinked x = true).
  { destruct (pfx (hkey h)); [right; tauto|left; exact PX]. }
  apply inv_cell with (e := e) (x := x); try assumption.
  - repeat split.
  - intros _. apply good_link; [|exact P|exact S]. apply (I_good _ _ _ _ I); assumption.
  - intros q z N Z D. eapply good_other; [|apply (I_good _ _ _ _ I); eassumption].
    intros f F. rewrite tot_cons, F by congruence. reflexivity.
  - intros j k [Q|Q].
    + injection Q as <- <-. destruct (pfx (hkey h)); [|congruence]. exists x. rewrite P. tauto.
    + apply (I_items _ _ _ _ I _ _ Q).
  - intros q z Z L. destruct (I_used _ _ _ _ I _ _ Z L) as [->|(j & k & J & K)].
    + destruct E0 as [E1|E1]; subst e.
      * exfalso. destruct (I_null _ _ _ _ I) as (w & W & V). congruence.
      * right. exists i, h. split; [left; reflexivity|exact P].
    + right. exists j, k. split; [right; exact J|exact K].
  - cbn. constructor; [exact NI|apply (I_ids _ _ _ _ I)].
  - cbn. constructor; [exact NK|apply (I_keys _ _ _ _ I)].
Qed.

Lemma count_nat f l : (forall h, f h = 0 \/ f h = 1) -> tot f l = N.of_nat (length (filter (fun e => f (snd e) =? 1) l)).
Proof.
  intro F. induction l as [|[i h] l IH]; [reflexivity|]. cbn. fold (tot f l). rewrite IH.
  destruct (F h) as [E|E]; rewrite E; cbn [N.eqb Pos.eqb length]; lia.
Qed.

(* an item is unlinked; the prefix goes away when it was the last one *)
Lemma unlink_item s hd i h : inv 0 s hd -> iget (its s) i = Some h -> stotal h < u32 -> N.of_nat (length (its s)) < u64 ->
  exists s1, prefix_unlink hash s (ptr h) (htype h) (stotal h) = Some s1 /\ its s1 = its s /\ gs s1 = gs s /\
  forall g, inv 0 (w_gs (w_its s1 (idel (its s1) i)) g) hd.
Proof.
  intros I IG S NB. pose proof (iget_in _ _ _ IG) as IN. pose proof (I_ids _ _ _ _ I) as ND.
  assert (exists x, heap s (ptr h) = Some x /\ (ptr h = 0 \/ plinked x = true)) as (x & X & PL).
  { pose proof (I_items _ _ _ _ I _ _ IN) as A. destruct (pfx (hkey h)).
    - destruct A as (x & X & L & _). exists x. auto.
    - destruct (I_null _ _ _ _ I) as (x & X & _). exists x. rewrite A. auto. }
  unfold prefix_unlink. rewrite X. set (p := ptr h) in *. set (y := count_decr x (htype h) (stotal h)).
  set (s1 := w_heap s (hset (heap s) p (Some y))).
  assert (GY : good (idel (its s) i) p y).
  { apply good_unlink; try assumption; [|reflexivity]. apply (I_good _ _ _ _ I); assumption. }
  assert (SC : same_cell x y) by (repeat split).
  assert (J : forall e g, (forall q z, heap s q = Some z -> plinked z = true -> q = e \/ exists j k, In (j, k) (idel (its s) i) /\ ptr k = q) ->
            inv e (w_gs (w_its s1 (idel (its s) i)) g) hd).
  { intros e g U. apply inv_cell with (e := 0) (x := x); try assumption.
    - auto.
    - intros q z N Z D. eapply good_other; [|apply (I_good _ _ _ _ I); eassumption].
      intros f F. rewrite (tot_idel _ _ _ _ ND IG), F by (fold p; congruence). reflexivity.
    - intros j k Q. apply in_idel in Q as [Q _]. apply (I_items _ _ _ _ I _ _ Q).
    - apply nodup_idel, ND.
    - apply nodup_idel, (I_keys _ _ _ _ I). }
  assert (UO : forall q z, q <> p -> heap s q = Some z -> plinked z = true -> exists j k, In (j, k) (idel (its s) i) /\ ptr k = q).
  { intros q z N Z L. destruct (I_used _ _ _ _ I _ _ Z L) as [->|(j & k & Q & K)].
    - exfalso. destruct (I_null _ _ _ _ I) as (w & W & V). congruence.
    - exists j, k. split; [|exact K]. apply in_idel. split; [exact Q|]. intro E. cbn in E. subst j.
      assert (k = h) by (apply (in_iget _ _ _ ND) in Q; congruence). subst k. apply N. symmetry. exact K. }
  assert (TC : tcnt y = N.of_nat (length (filter (fun e => ptr (snd e) =? p) (idel (its s) i)))).
  { destruct GY as (G & _). rewrite G, count_nat by (intro k; unfold at_p; destruct (ptr k =? p); auto).
    rewrite N.mod_small.
    - f_equal. f_equal. apply filter_ext. intros [j k]. cbn. unfold at_p. destruct (ptr k =? p); reflexivity.
    - match goal with |- N.of_nat (length (filter ?f ?l)) < _ => assert (Nat.le (length (filter f l)) (length (its s))) end.
      { etransitivity; [apply filter_le|]. apply filter_le. } lia. }
  destruct (N.eqb_spec p 0) as [P0|P0].
  { exists s1. split; [reflexivity|]. split; [reflexivity|]. split; [reflexivity|]. intro g. apply J. intros q z Z L. right. apply UO with z; try assumption.
    intros ->. rewrite P0 in Z. destruct (I_null _ _ _ _ I) as (w & W & V). congruence. }
  destruct (0 <? tcnt y) eqn:T0.
  { exists s1. split; [reflexivity|]. split; [reflexivity|]. split; [reflexivity|]. intro g. apply J. intros q z Z L. right.
    destruct (N.eq_dec q p) as [->|N]; [|apply UO with z; assumption].
    apply N.ltb_lt in T0. rewrite TC in T0. destruct (filter _ _) as [|[j k] r] eqn:F; [cbn in T0; lia|].
    assert (Q : In (j, k) (filter (fun e => ptr (snd e) =? p) (idel (its s) i))) by (rewrite F; left; reflexivity).
    apply filter_In in Q as [Q1 Q2]. exists j, k. split; [exact Q1|]. apply N.eqb_eq, Q2. }
  apply N.ltb_ge in T0. assert (FE : filter (fun e => ptr (snd e) =? p) (idel (its s) i) = []).
  { destruct (filter _ _); [reflexivity|cbn [length] in TC; lia]. }
  assert (NP : forall j k, In (j, k) (idel (its s) i) -> ptr k <> p).
  { intros j k Q E. assert (In (j, k) (filter (fun e => ptr (snd e) =? p) (idel (its s) i))).
    { apply filter_In. split; [exact Q|]. apply N.eqb_eq. exact E. } rewrite FE in H. destruct H. }
  assert (TB : tbyt y = 0).
  { destruct GY as (_ & G & _). rewrite G. assert (Z : tot (fun h0 => w1 (at_p p h0) (stotal h0)) (idel (its s) i) = 0); [|rewrite Z; reflexivity].
    revert NP. generalize (idel (its s) i). induction l as [|[j k] l IH]; intro NP; [reflexivity|]. cbn. unfold at_p at 1.
    destruct (N.eqb_spec (ptr k) p) as [E|E]; [exfalso; apply (NP j k); [left; reflexivity|exact E]|]. cbn. apply IH.
    intros a b Q. apply (NP a). right. exact Q. }
  rewrite TB. cbn [N.eqb negb].
  pose proof (J p (gs s) (fun q z Z L => match N.eq_dec q p with left E => or_introl E | right N => or_intror (UO q z N Z L) end)) as J1.
  assert (LX : plinked x = true) by tauto.
  assert (Y1 : heap s1 p = Some y) by (cbn; unfold hset; rewrite N.eqb_refl; reflexivity).
  assert (PF : pfind hash s1 (pname y) = Some (Some p)).
  { assert (F : pfind hash (w_gs (w_its s1 (idel (its s) i)) (gs s)) (pname y) = Some (Some p)) by (eapply pfind_some; [exact J1|exact Y1|exact LX]).
    exact F. }
  rewrite PF, Y1. eexists. split; [reflexivity|]. split; [reflexivity|]. split; [reflexivity|]. intro g.
  clear J. set (s2 := w_gs (w_its s1 (idel (its s) i)) (gs s)) in *.
  assert (HY : heap s2 p = Some y) by exact Y1.
  unfold prefix_delete. cbn [its heap]. change (heap s1) with (heap s2). change (buck s1) with (buck s2). change (total s1) with (total s2). change (fresh s1) with (fresh s2). change (idel (its s1) i) with (its s2).
  set (b := pbucket (pname y)).
  set (hp := if pref y =? 0 then _ else _).
  assert (H : forall q z, hp q = Some z -> q <> p /\ heap s2 q = Some z \/
            q = p /\ pref y <> 0 /\ z = mkPt (pname y) (pint y) false (pref y) (cnts y) (byts y) (tcnt y) (tbyt y)).
  { intros q z. unfold hp. destruct (N.eqb_spec (pref y) 0); unfold hset; destruct (N.eqb_spec q p) as [->|N]; intro Z; auto; try discriminate.
    injection Z as <-. auto. }
  assert (H' : forall q z, q <> p -> heap s2 q = Some z -> hp q = Some z).
  { intros q z N Z. unfold hp. destruct (pref y =? 0); unfold hset; destruct (N.eqb_spec q p); congruence. }
  assert (LY : plinked y = true) by exact LX.
  assert (PB : In p (buck s2 b)) by (apply (I_conv _ _ _ _ J1); assumption).
  constructor; cbn [w_gs w_its w_heap heap buck its fresh total gs].
  - destruct (I_null _ _ _ _ J1) as (z & Z & L). exists z. split; [apply H'; [congruence|exact Z]|exact L].
  - intros c q Q. assert (Q' : In q (buck s2 c) /\ (c = b -> q <> p)).
    { unfold bset in Q. destruct (N.eqb_spec c b) as [->|E]; [|tauto]. apply in_remove in Q. tauto. }
    destruct Q' as [Q1 Q2]. destruct (I_cell _ _ _ _ J1 _ _ Q1) as (z & Z & L & B). exists z. split; [|auto]. apply H'; [|exact Z].
    intros ->. apply Q2; [|reflexivity]. rewrite HY in Z. injection Z as <-. symmetry. exact B.
  - intros q z Z L. destruct (H _ _ Z) as [[N Z']|(-> & _ & ->)]; [|discriminate].
    pose proof (I_conv _ _ _ _ J1 _ _ Z' L) as Q. unfold bset. destruct (N.eqb_spec (pbucket (pname z)) b) as [E|E]; [|exact Q].
    rewrite E in Q. apply in_in_remove; assumption.
  - intro c. unfold bset. destruct (N.eqb_spec c b); [|apply (I_nodup _ _ _ _ J1)]. apply remove_nodup, (I_nodup _ _ _ _ J1).
  - intros q r z1 z2 Z1 Z2 L1 L2 E. destruct (H _ _ Z1) as [[N1 Z1']|(-> & _ & ->)]; [|discriminate].
    destruct (H _ _ Z2) as [[N2 Z2']|(-> & _ & ->)]; [|discriminate]. eapply (I_names _ _ _ _ J1); eassumption.
  - intros q z Z D. destruct (H _ _ Z) as [[N1 Z1']|(-> & _ & ->)]; [apply (I_good _ _ _ _ J1); assumption|].
    destruct D as [D|D]; [congruence|discriminate].
  - intros j k Q. pose proof (I_items _ _ _ _ J1 _ _ Q) as A. destruct (pfx (hkey k)) as [m|]; [|exact A].
    destruct A as (z & Z & L & E). exists z. split; [|auto]. apply H'; [|exact Z]. apply (NP j k Q).
  - intros q z Z L. destruct (H _ _ Z) as [[N1 Z1']|(-> & _ & ->)]; [|discriminate].
    destruct (I_used _ _ _ _ J1 _ _ Z1' L) as [E|U]; [congruence|right; exact U].
  - intros q Q. pose proof (I_fresh _ _ _ _ J1 _ Q) as F. destruct (hp q) as [z|] eqn:Z; [|reflexivity].
    destruct (H _ _ Z) as [[N1 Z1']|(-> & _ & _)]; congruence.
  - rewrite (I_total _ _ _ _ J1). unfold linked_ids. cbn [buck].
    destruct (flat_bset (buck s2) b (remove N.eq_dec p (buck s2 b)) buckets buckets_nodup) as [FB _].
    specialize (FB (pbucket_in hash (pname y))). pose proof (remove_len p (buck s2 b) (I_nodup _ _ _ _ J1 b) PB) as RL.
    replace (length (flat_map (buck s2) buckets)) with (1 + length (flat_map (bset (buck s2) b (remove N.eq_dec p (buck s2 b))) buckets))%nat by lia.
    set (n := length (flat_map (bset _ _ _) buckets)). rewrite N.add_mod_idemp_l by discriminate.
    replace (N.of_nat (1 + n) + (u32 - 1)) with (N.of_nat n + 1 * u32) by (unfold u32; lia). apply N.mod_add. discriminate.
  - intros q z Z N. destruct (H _ _ Z) as [[N1 Z1']|(-> & _ & ->)]; [eapply (I_held _ _ _ _ J1); eassumption|].
    cbn [pref]. eapply (I_held _ _ _ _ J1); eassumption.
  - intros q Q. pose proof (I_alive _ _ _ _ J1 _ Q) as A. destruct (N.eq_dec q p) as [->|N].
    + pose proof (I_held _ _ _ _ J1 _ _ HY P0) as R. unfold hp. apply (count_occ_In N.eq_dec) in Q.
      destruct (N.eqb_spec (pref y) 0); [lia|]. unfold hset. rewrite N.eqb_refl. discriminate.
    + destruct (heap s2 q) as [z|] eqn:Z; [|congruence]. rewrite (H' _ _ N Z). discriminate.
  - intros q z Z N L. destruct (H _ _ Z) as [[N1 Z1']|(-> & R & ->)]; [eapply (I_dead _ _ _ _ J1); eassumption|exact R].
  - apply (I_ids _ _ _ _ J1).
  - apply (I_keys _ _ _ _ J1).
  - intros q z Z N. destruct (H _ _ Z) as [[N1 Z1']|(-> & R & ->)]; [eapply (I_intl _ _ _ _ J1); eassumption|].
    cbn [pint pname]. eapply (I_intl _ _ _ _ J1); eassumption.
Qed.

End P.
