(* One operation, and whole histories. *)
From Verif Require Import Base UtilModel KvModel KvSpec KvRefine PfxModel PfxSpec PfxProofs PfxRun PfxHist.
Local Open Scope N_scope.

Definition legal1 (hd : list N) (o : pop) : Prop :=
  match o with
  | PLink _ k _ _ _ _ => ~ long_prefix k
  | PRelease p => In p hd
  | _ => True
  end.

(* the engine wide statistics *)
Definition ginv (s : pstate) : Prop :=
  curr_items (gs s) = tot (fun _ => 1) (its s) mod u64 /\ curr_bytes (gs s) = tot stotal (its s) mod u64.
Definition sinv (s : pstate) : Prop :=
  sticky_items (gs s) = tot (fun h => w1 (sticky h) 1) (its s) mod u64 /\
  sticky_bytes (gs s) = tot (fun h => w1 (sticky h) (stotal h)) (its s) mod u64.
(* the caller breaks an assertion of the operation *)
Definition misuse (s : pstate) (o : pop) : Prop :=
  match o with
  | PLink i k _ _ _ _ => In i (map fst (its s)) \/ In k (map (fun e => hkey (snd e)) (its s))
  | PReplace i j _ _ => ~ In i (map fst (its s)) \/ In j (map fst (its s))
  | PGrow i _ => ~ In i (map fst (its s))
  | PShrink i n => forall h, In (i, h) (its s) -> extra h < n
  | _ => False
  end.

Section P.
Variable hash : bytes -> N.
Notation inv := (inv hash).

Lemma cell_of s hd i h : inv 0 s hd -> In (i, h) (its s) ->
  exists x, heap s (ptr h) = Some x /\ (ptr h = 0 \/ plinked x = true).
Proof.
  intros I IN. pose proof (I_items _ _ _ _ I _ _ IN) as A. destruct (pfx (hkey h)).
  - destruct A as (x & X & L & _). exists x. auto.
  - destruct (I_null _ _ _ _ I) as (x & X & _). exists x. rewrite A. auto.
Qed.

(* linked item gives way to one with the same key, type and prefix *)
Lemma swap_item s hd i h h' l y g x : inv 0 s hd -> iget (its s) i = Some h -> heap s (ptr h) = Some x ->
  hkey h' = hkey h -> htype h' = htype h -> ptr h' = ptr h ->
  (forall f, tot f l + f h = tot f (its s) + f h') ->
  (forall j k, In (j, k) l -> k = h' \/ In (j, k) (its s)) -> In h' (map snd l) ->
  (forall j k, In (j, k) (its s) -> j <> i -> In (j, k) l) ->
  NoDup (map fst l) -> NoDup (map (fun e => hkey (snd e)) l) ->
  same_cell x y -> good l (ptr h) y ->
  inv 0 (w_gs (w_its (w_heap s (hset (heap s) (ptr h) (Some y))) l) g) hd.
Proof.
  intros I IG X K T P E L1 L2 L3 N1 N2 SC G. pose proof (iget_in _ _ _ IG) as IN.
  apply inv_cell with (e := 0) (x := x); try assumption.
  - auto.
  - intros q z N Z D. eapply good_other; [|apply (I_good _ _ _ _ I); eassumption].
    intros f F. specialize (E f). rewrite (F h), (F h') in E by congruence. lia.
  - intros j k Q. destruct (L1 _ _ Q) as [->|Q']; [|apply (I_items _ _ _ _ I _ _ Q')].
    rewrite K, P. apply (I_items _ _ _ _ I _ _ IN).
  - intros q z Z L. right. destruct (I_used _ _ _ _ I _ _ Z L) as [->|(j & k & Q & W)].
    + exfalso. destruct (I_null _ _ _ _ I) as (w & W & V). congruence.
    + destruct (N.eq_dec j i) as [->|N].
      * assert (k = h) by (apply (in_iget _ _ _ (I_ids _ _ _ _ I)) in Q; congruence). subst k.
        apply in_map_iff in L2 as ([a b] & B1 & B2). cbn in B1. subst b. exists a, h'. split; [exact B2|congruence].
      * exists j, k. split; [apply L3; assumption|exact W].
Qed.

Lemma small_in l i h : fits (abs l) -> In (i, h) l -> stotal h < u32.
Proof.
  intros (F & _) IN. rewrite Forall_forall in F. apply (F (abs1 (i, h))). apply in_map. exact IN.
Qed.
Lemma fits_len l : fits (abs l) -> N.of_nat (length l) < u64.
Proof. intros (_ & _ & F). unfold number in F. rewrite abs_len in F. change u64 with (2 ^ 64). lia. Qed.

Lemma key_notin k l : existsb (fun e : N * hitem => beqb k (hkey (snd e))) l = false -> ~ In k (map (fun e => hkey (snd e)) l).
Proof.
  intros E Q. apply in_map_iff in Q as (e & <- & Q). assert (X : existsb (fun e0 : N * hitem => beqb (hkey (snd e)) (hkey (snd e0))) l = true).
  { apply existsb_exists. exists e. split; [exact Q|]. apply beqb_refl. } congruence.
Qed.

(* one operation: it does not fail unless misused, and does what the specification says *)
Lemma step_ok s hd o : inv 0 s hd -> fits (abs (its s)) -> legal1 hd o ->
  match pstep hash s o with
  | Some (s', x) =>
      fits (effect (abs (its s)) o x) ->
      inv 0 s' (holds hd o x) /\ abs (its s') = effect (abs (its s)) o x /\ (ginv s -> ginv s') /\
      (sinv s -> same_sticky (abs (its s)) o -> sinv s')
  | None => misuse s o \/ match o with PScan _ _ _ => True | _ => False end
  end.
Proof.
  intros I F L. destruct o as [i k t z st mem|i|i j z st|i n|i n|cur req asz|p]; cbn [pstep legal1 misuse] in *.
  - (* link *)
    destruct (iget (its s) i) eqn:IG; cbn [orb].
    { left. left. apply iget_in in IG. change i with (fst (i, h)). apply in_map. exact IG. }
    destruct (existsb _ (its s)) eqn:EX.
    { left. right. apply existsb_exists in EX as (e & E1 & E2). apply beqb_eq in E2. rewrite E2. apply (in_map (fun e => hkey (snd e))). exact E1. }
    apply iget_none in IG. apply key_notin in EX.
    assert (G : forall e s1 p x, inv e s1 hd -> its s1 = its s -> gs s1 = gs s -> heap s1 p = Some x -> e = 0 \/ e = p ->
       match pfx k with None => p = 0 | Some n => plinked x = true /\ pname x = n end ->
       let s2 := w_heap s1 (hset (heap s1) p (Some (count_incr x t z))) in
       fits (effect (abs (its s)) (PLink i k t z st mem) PDone) ->
       let s' := w_gs (w_its s2 ((i, mkHi k t z 0 st p) :: its s2)) (stat_link (gs s2) st z) in
       inv 0 s' hd /\ abs (its s') = effect (abs (its s)) (PLink i k t z st mem) PDone /\ (ginv s -> ginv s') /\
       (sinv s -> True -> sinv s')).
    { intros e s1 p x I1 E1 E2 X E0 PX s2 F' s'.
      assert (Z : z < u32) by (destruct F' as (F1 & _); inversion F1; assumption).
      split; [|split; [|split]].
      - set (h := mkHi k t z 0 st p). assert (Sz : stotal h = z) by (unfold stotal; cbn; lia).
        pose proof (link_item hash e s1 hd p x i h (stat_link (gs s2) st z) I1 X eq_refl E0 PX) as LI.
        rewrite Sz in LI. apply LI; [exact Z|rewrite E1; exact IG|rewrite E1; exact EX].
      - unfold s', s2. cbn. rewrite E1. unfold abs1, stotal. cbn. rewrite N.add_0_r. reflexivity.
      - intros [G1 G2]. unfold s', s2; split; cbn [w_gs w_its w_heap its gs stat_link curr_items curr_bytes]; rewrite E1, E2, tot_cons.
        + rewrite G1, add64. f_equal. lia.
        + rewrite G2, add64. f_equal. unfold stotal at 2. cbn [base extra]. lia.
      - intros [G1 G2] _. unfold s', s2; split; cbn [w_gs w_its w_heap its gs stat_link sticky_items sticky_bytes]; rewrite E1, E2, tot_cons; cbn [sticky].
        + destruct st; cbn [w1]; rewrite G1; [rewrite add64; f_equal; lia|reflexivity].
        + unfold stotal at 1. cbn [base extra]. destruct st; cbn [w1]; rewrite G2; [rewrite add64; f_equal; lia|reflexivity]. }
    unfold prefix_link. destruct (pfx k) as [n|] eqn:PK.
    + destruct (pfind_ok hash 0 s hd n I) as (r & R & S). rewrite R. destruct r as [p|].
      * destruct S as (x & X & LX & NX). rewrite X. intro F'. apply (G 0 s p x); auto.
      * destruct (negb (name_ok k n)).
        { intros _. split; [exact I|]. split; [reflexivity|]. split; auto. }
        destruct (negb mem).
        { intros _. split; [exact I|]. split; [reflexivity|]. split; auto. }
        destruct (new_inv hash s hd n I S) as (I1 & X1 & NF). rewrite X1. intro F'. apply (G (fresh s) (new_prefix hash s n) (fresh s)); auto.
    + destruct (I_null _ _ _ _ I) as (x & X & _). rewrite X. intro F'. apply (G 0 s 0 x); auto.
  - (* unlink *)
    destruct (iget (its s) i) as [h|] eqn:IG.
    + destruct (unlink_item hash s hd i h I IG) as (s1 & U & E1 & E2 & I1).
      { eapply small_in; [exact F|apply iget_in, IG]. } { apply fits_len, F. }
      rewrite U. intros _. pose proof (I_ids _ _ _ _ I) as ND. split; [apply I1|]. split.
      { cbn [w_gs w_its its]. rewrite E1. apply abs_idel. }
      split.
      * intros [G1 G2]. split; cbn [w_gs w_its its gs stat_unlink curr_items curr_bytes]; rewrite E2, E1.
        -- rewrite G1. rewrite (tot_idel _ _ _ _ ND IG). apply sub64_add.
        -- rewrite G2. rewrite (tot_idel _ _ _ _ ND IG). apply sub64_add.
      * intros [G1 G2] _. split; cbn [w_gs w_its its gs stat_unlink sticky_items sticky_bytes]; rewrite E2, E1.
        -- rewrite G1. rewrite (tot_idel _ _ _ _ ND IG). destruct (sticky h); cbn [w1]; [apply sub64_add|reflexivity].
        -- rewrite G2. rewrite (tot_idel _ _ _ _ ND IG). destruct (sticky h); cbn [w1]; [apply sub64_add|reflexivity].
    + intros _. split; [exact I|]. split; [|auto]. cbn [effect]. apply iget_none in IG.
      rewrite <- abs_idel, idel_id by exact IG. reflexivity.
  - (* replace *)
    destruct (iget (its s) i) as [h|] eqn:IG; [|left; left; apply iget_none, IG].
    destruct (iget (its s) j) as [h2|] eqn:JG.
    { left. right. apply iget_in in JG. change j with (fst (j, h2)). apply in_map. exact JG. }
    apply iget_none in JG. pose proof (I_ids _ _ _ _ I) as ND. pose proof (iget_in _ _ _ IG) as IN.
    destruct (cell_of _ _ _ _ I IN) as (x & X & PL). rewrite X. intro F'.
    assert (Sh : stotal h < u32) by (eapply small_in; [exact F|exact IN]).
    set (h' := mkHi (hkey h) (htype h) z 0 st (ptr h)). assert (Sz : stotal h' = z) by (unfold stotal; cbn; lia).
    set (l := (j, h') :: idel (its s) i).
    assert (AB : abs l = effect (abs (its s)) (PReplace i j z st) PDone).
    { cbn [effect]. rewrite <- abs_idel. erewrite (abs_replace (its s) i h) by (first [exact ND|exact IG|reflexivity]).
      unfold l, abs. cbn [map app]. f_equal. unfold abs1. cbn [fst snd]. rewrite Sz. reflexivity. }
    assert (Z : z < u32). { rewrite <- AB in F'. destruct F' as (F1 & _). unfold l in F1. inversion F1. cbn in H1. rewrite Sz in H1. exact H1. }
    assert (E : forall f, tot f l + f h = tot f (its s) + f h').
    { intro f. unfold l. rewrite tot_cons, (tot_idel f _ _ _ ND IG). lia. }
    cbn [w_heap its gs]. fold h' l. split; [|split; [exact AB|split]].
    + eapply swap_item with (h' := h') (x := x); try eassumption; try reflexivity.
      * intros a b [Q|Q]; [left; congruence|right]. apply in_idel in Q. tauto.
      * left. reflexivity.
      * intros a b Q N. right. apply in_idel. auto.
      * cbn. constructor; [|apply nodup_idel, ND]. intro Q. apply JG. apply in_map_iff in Q as (e & <- & Q). apply in_idel in Q. apply in_map. tauto.
      * cbn. constructor; [|apply nodup_idel, (I_keys _ _ _ _ I)]. intro Q. apply in_map_iff in Q as ([a b] & K & Q). cbn in K.
        apply in_idel in Q as [Q N]. cbn in N. pose proof (I_keys _ _ _ _ I) as NK.
        assert (EQ : (a, b) = (i, h)); [|congruence].
        clear - NK Q IN K. revert NK Q IN. generalize (its s). induction l as [|[c d] l IH]; cbn; intros NK Q IN; [tauto|].
        inversion NK; subst. destruct Q as [Q|Q], IN as [IN|IN].
        -- congruence.
        -- exfalso. apply H1. injection Q as -> ->. rewrite K. apply (in_map (fun e => hkey (snd e)) l (i, h)). exact IN.
        -- exfalso. apply H1. injection IN as -> ->. rewrite <- K. apply (in_map (fun e => hkey (snd e)) l (a, b)). exact Q.
        -- auto.
      * destruct (stotal h <? z); [repeat split|]. destruct (z <? stotal h); repeat split.
      * destruct (good_swap (its s) l (ptr h) x h h' E) as (G1 & G2 & G3); auto.
        { apply (I_good _ _ _ _ I); assumption. } { rewrite Sz. exact Z. }
        rewrite Sz in *. destruct (stotal h <? z) eqn:L1; [apply G1, N.ltb_lt, L1|].
        destruct (z <? stotal h) eqn:L2; [apply G2, N.ltb_lt, L2|]. apply G3. apply N.ltb_ge in L1, L2. lia.
    + intros [G1 G2]. split; cbn [w_gs w_its its gs stat_replace curr_items curr_bytes].
      * rewrite G1. f_equal. specialize (E (fun _ => 1)). cbn beta in E. lia.
      * rewrite G2, add64. specialize (E stotal). rewrite Sz in E. rewrite <- E.
        rewrite N.add_comm. apply sub64_add.
    + intros [G1 G2] SS. cbn [same_sticky] in SS. assert (ST : sticky h = st).
      { apply (SS (abs1 (i, h))); [apply in_map, IN|reflexivity]. }
      split; cbn [w_gs w_its its gs stat_replace sticky_items sticky_bytes].
      * rewrite G1. f_equal. specialize (E (fun h => w1 (sticky h) 1)). cbn beta in E. cbn [sticky h'] in E. rewrite ST in E. destruct st; cbn [w1] in E; lia.
      * rewrite G2. specialize (E (fun h => w1 (sticky h) (stotal h))). cbn beta in E. cbn [sticky h'] in E. rewrite ST, Sz in E. destruct st; cbn [w1] in E.
        -- rewrite add64. rewrite <- E. rewrite N.add_comm. apply sub64_add.
        -- f_equal. lia.
  - (* grow *)
    destruct (iget (its s) i) as [h|] eqn:IG; [|left; apply iget_none, IG].
    pose proof (I_ids _ _ _ _ I) as ND. pose proof (iget_in _ _ _ IG) as IN.
    destruct (cell_of _ _ _ _ I IN) as (x & X & PL). rewrite X. intro F'.
    assert (Sh : stotal h < u32) by (eapply small_in; [exact F|exact IN]).
    assert (Z : stotal h + n < u32).
    { cbn [effect] in F'. destruct F' as (F1 & _). rewrite Forall_forall in F1.
      apply (F1 (i, mkSi (hkey h) (htype h) (stotal h + n) (sticky h))). unfold swap. apply in_map_iff. exists (abs1 (i, h)).
      split; [cbn; rewrite N.eqb_refl; reflexivity|]. apply in_map, IN. }
    set (h' := mkHi (hkey h) (htype h) (base h) ((extra h + n) mod u32) (sticky h) (ptr h)).
    assert (Sz : stotal h' = stotal h + n).
    { unfold stotal in *. cbn [base extra h']. rewrite N.mod_small by lia. lia. }
    set (l := iset (its s) i h').
    assert (AB : abs l = effect (abs (its s)) (PGrow i n) PDone).
    { cbn [effect]. apply abs_swap with (h := h); try assumption. unfold abs1. cbn. rewrite Sz. reflexivity. }
    assert (E : forall f, tot f l + f h = tot f (its s) + f h') by (intro f; apply tot_iset; assumption).
    cbn [w_heap its gs]. fold h' l. split; [|split; [exact AB|split]].
    + eapply swap_item with (h' := h') (x := x); try eassumption; try reflexivity.
      * intros a b Q. apply in_iset in Q; [|exact ND]. destruct Q as [Q|Q]; [left; congruence|tauto].
      * apply in_map_iff. exists (i, h'). split; [reflexivity|]. unfold l, iset. apply in_map_iff. exists (i, h). cbn. rewrite N.eqb_refl. auto.
      * intros a b Q N. unfold l, iset. apply in_map_iff. exists (a, b). cbn. destruct (N.eqb_spec a i); [congruence|auto].
      * unfold l. rewrite map_fst_iset. exact ND.
      * unfold l, iset. rewrite map_map. erewrite map_ext_in; [exact (I_keys _ _ _ _ I)|]. intros [a b] Q. cbn.
        destruct (N.eqb_spec a i) as [->|]; [|reflexivity]. cbn. apply (in_iget _ _ _ ND) in Q. congruence.
      * repeat split.
      * destruct (N.eq_dec n 0) as [->|N0].
        -- destruct (good_swap (its s) l (ptr h) x h h' E) as (G1 & G2 & G3); auto; try lia.
           { apply (I_good _ _ _ _ I); assumption. }
           destruct (G3 ltac:(lia)) as (H1 & H2 & H3 & H4). unfold good, bytes_incr. cbv zeta. cbn [tcnt tbyt cnts byts]. change (0 mod u32) with 0. rewrite !N.add_0_r.
           repeat split; auto.
           ++ rewrite H2, N.mod_mod by discriminate. reflexivity.
           ++ intro t. unfold tset. destruct (ity_eqb_spec t (htype h)) as [->|]; [|apply H4]. rewrite H4, N.mod_mod by discriminate. reflexivity.
        -- destruct (good_swap (its s) l (ptr h) x h h' E) as (G1 & G2 & G3); auto; try lia.
           { apply (I_good _ _ _ _ I); assumption. }
           specialize (G1 ltac:(lia)). replace (stotal h' - stotal h) with n in G1 by lia. exact G1.
    + intros [G1 G2]. split; cbn [w_gs w_its its gs stat_bytes curr_items curr_bytes].
      * rewrite G1. f_equal. specialize (E (fun _ => 1)). cbn beta in E. lia.
      * rewrite G2, add64. f_equal. specialize (E stotal). lia.
    + intros [G1 G2] _. split; cbn [w_gs w_its its gs stat_bytes sticky_items sticky_bytes].
      * rewrite G1. f_equal. specialize (E (fun h => w1 (sticky h) 1)). cbn beta in E. cbn [sticky h'] in E. lia.
      * specialize (E (fun h => w1 (sticky h) (stotal h))). cbn beta in E. cbn [sticky h'] in E. destruct (sticky h); cbn [w1] in E.
        -- rewrite G2, add64. f_equal. lia.
        -- rewrite G2. f_equal. lia.
  - (* shrink *)
    destruct (iget (its s) i) as [h|] eqn:IG.
    2:{ left. intros h IN. apply iget_none in IG. exfalso. apply IG. change i with (fst (i, h)). apply in_map. exact IN. }
    pose proof (I_ids _ _ _ _ I) as ND. pose proof (iget_in _ _ _ IG) as IN.
    destruct (extra h <? n) eqn:EN.
    { left. intros k Q. apply (in_iget _ _ _ ND) in Q. apply N.ltb_lt in EN. congruence. }
    apply N.ltb_ge in EN.
    destruct (cell_of _ _ _ _ I IN) as (x & X & PL). rewrite X. intro F'.
    assert (Sh : stotal h < u32) by (eapply small_in; [exact F|exact IN]).
    set (h' := mkHi (hkey h) (htype h) (base h) (extra h - n) (sticky h) (ptr h)).
    assert (Sz : stotal h' = stotal h - n) by (unfold stotal in *; cbn; lia).
    assert (Sn : n <= stotal h) by (unfold stotal; lia).
    set (l := iset (its s) i h').
    assert (AB : abs l = effect (abs (its s)) (PShrink i n) PDone).
    { cbn [effect]. apply abs_swap with (h := h); try assumption. unfold abs1. cbn. rewrite Sz. reflexivity. }
    assert (E : forall f, tot f l + f h = tot f (its s) + f h') by (intro f; apply tot_iset; assumption).
    cbn [w_heap its gs]. fold h' l. split; [|split; [exact AB|split]].
    + eapply swap_item with (h' := h') (x := x); try eassumption; try reflexivity.
      * intros a b Q. apply in_iset in Q; [|exact ND]. destruct Q as [Q|Q]; [left; congruence|tauto].
      * apply in_map_iff. exists (i, h'). split; [reflexivity|]. unfold l, iset. apply in_map_iff. exists (i, h). cbn. rewrite N.eqb_refl. auto.
      * intros a b Q N. unfold l, iset. apply in_map_iff. exists (a, b). cbn. destruct (N.eqb_spec a i); [congruence|auto].
      * unfold l. rewrite map_fst_iset. exact ND.
      * unfold l, iset. rewrite map_map. erewrite map_ext_in; [exact (I_keys _ _ _ _ I)|]. intros [a b] Q. cbn.
        destruct (N.eqb_spec a i) as [->|]; [|reflexivity]. cbn. apply (in_iget _ _ _ ND) in Q. congruence.
      * repeat split.
      * destruct (N.eq_dec n 0) as [->|N0].
        -- destruct (good_swap (its s) l (ptr h) x h h' E) as (G1 & G2 & G3); auto; try lia.
           { apply (I_good _ _ _ _ I); assumption. }
           destruct (G3 ltac:(lia)) as (H1 & H2 & H3 & H4). unfold good, bytes_decr. cbv zeta. cbn [tcnt tbyt cnts byts]. change (0 mod u32) with 0.
           assert (S0 : forall a, sub64 (a mod u64) 0 = a mod u64) by (intro a; rewrite <- (N.add_0_l a) at 1; apply sub64_add).
           repeat split; auto.
           ++ rewrite H2. apply S0.
           ++ intro t. unfold tset. destruct (ity_eqb_spec t (htype h)) as [->|]; [|apply H4]. rewrite H4. apply S0.
        -- destruct (good_swap (its s) l (ptr h) x h h' E) as (G1 & G2 & G3); auto; try lia.
           { apply (I_good _ _ _ _ I); assumption. }
           specialize (G2 ltac:(lia)). replace (stotal h - stotal h') with n in G2 by lia. exact G2.
    + intros [G1 G2]. split; cbn [w_gs w_its its gs stat_bytes curr_items curr_bytes].
      * rewrite G1. f_equal. specialize (E (fun _ => 1)). cbn beta in E. lia.
      * rewrite G2. specialize (E stotal). replace (tot stotal (its s)) with (n + tot stotal l) by lia. apply sub64_add.
    + intros [G1 G2] _. split; cbn [w_gs w_its its gs stat_bytes sticky_items sticky_bytes].
      * rewrite G1. f_equal. specialize (E (fun h => w1 (sticky h) 1)). cbn beta in E. cbn [sticky h'] in E. lia.
      * specialize (E (fun h => w1 (sticky h) (stotal h))). cbn beta in E. cbn [sticky h'] in E. rewrite G2. destruct (sticky h); cbn [w1] in E.
        -- replace (tot (fun h => w1 (sticky h) (stotal h)) (its s)) with (n + tot (fun h => w1 (sticky h) (stotal h)) l) by lia. apply sub64_add.
        -- f_equal. lia.
  - (* scan *)
    destruct (prefix_scan s cur req asz) as [[s' r]|] eqn:R; [|right; exact Logic.I]. intros _. unfold prefix_scan in R.
    destruct ((asz =? 0) || (asz <? req)); [discriminate|]. destruct (safe_strtoul cur) as [b|].
    + destruct (1024 <=? b) eqn:B.
      * injection R as <- <-. split; [exact I|]. split; [reflexivity|]. auto.
      * apply N.leb_gt in B. destruct (scan_loop 1025 s b req asz 0 []) as [[[s1 out] b']|] eqn:SL; [|discriminate].
        injection R as <- <-. apply (scan_loop_ok hash 0) with (hd := hd) in SL as (I1 & (E1 & E2 & E3 & E4 & E5 & E6) & _); [|exact I|exact B].
        split; [exact I1|]. split; [cbn [effect]; rewrite E4; reflexivity|]. unfold ginv, sinv. rewrite E4, E5. auto.
    + injection R as <- <-. split; [exact I|]. split; [reflexivity|]. auto.
  - (* release *)
    destruct (release_ok hash 0 s hd p I L) as (s' & R & I' & E1 & E2). rewrite R. intros _.
    split; [exact I'|]. split; [cbn [effect]; rewrite E1; reflexivity|]. unfold ginv, sinv. rewrite E1, E2. auto.
Qed.

(* whole histories *)
Lemma run_ok ops : forall s hd s' outs, inv 0 s hd -> fits (abs (its s)) -> legal (abs (its s)) hd ops outs ->
  prun hash s ops = Some (s', outs) ->
  inv 0 s' (held hd ops outs) /\ abs (its s') = stored (abs (its s)) ops outs /\ fits (abs (its s')) /\ (ginv s -> ginv s') /\
  (sinv s -> never_turns (abs (its s)) ops outs -> sinv s').
Proof.
  induction ops as [|o ops IH]; intros s hd s' outs I F L R; cbn [prun] in R.
  - injection R as <- <-. split; [exact I|]. split; [reflexivity|]. auto.
  - destruct (pstep hash s o) as [[s1 x]|] eqn:S; [|discriminate]. destruct (prun hash s1 ops) as [[s2 xs]|] eqn:R1; [|discriminate].
    injection R as <- <-. cbn [legal] in L. destruct L as (L1 & L2 & L3).
    pose proof (step_ok s hd o I F L1) as ST. rewrite S in ST. destruct (ST L2) as (I1 & A1 & G1 & S1).
    rewrite <- A1 in L2, L3. destruct (IH s1 (holds hd o x) s2 xs I1 L2 L3 R1) as (I2 & A2 & F2 & G2 & S2).
    cbn [held stored never_turns]. rewrite <- A1. split; [exact I2|]. split; [exact A2|]. split; [exact F2|]. split; [auto|].
    intros Q [Q1 Q2]. auto.
Qed.

End P.
