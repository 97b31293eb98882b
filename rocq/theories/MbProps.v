From Coq Require Import List NArith ZArith Bool Arith Lia Permutation.
From Verif Require Import Base MbModel MbSpec MbProofs.
Local Open Scope list_scope.
Local Open Scope nat_scope.

Lemma Forall2_len {A B} (P : A -> B -> Prop) l m : Forall2 P l m -> List.length l = List.length m.
Proof. induction 1; cbn; congruence. Qed.
Lemma blocks_enough body len cnt : (0 < len <= body)%N -> (0 < cnt < 2 ^ 32)%N ->
  per_block body len <> 0%N /\ enough (body / len)%N cnt (blocks_for body len cnt) /\ 1 <= blocks_for body len cnt.
Proof.
  intros L C. unfold blocks_for, per_block. pose proof (N.div_str_pos body len L) as D. set (d := (body / len)%N) in *. clearbody d.
  replace ((cnt + 2 ^ 32 - 1) mod 2 ^ 32)%N with (cnt - 1)%N.
  2: { replace (cnt + 2 ^ 32 - 1)%N with (cnt - 1 + 1 * 2 ^ 32)%N by lia. rewrite N.mod_add by discriminate. symmetry. apply N.mod_small. lia. }
  split; [lia|]. pose proof (N.div_mod (cnt - 1) d ltac:(lia)) as E. pose proof (N.mod_lt (cnt - 1) d ltac:(lia)) as M. set (q := ((cnt - 1) / d)%N) in *. set (r := ((cnt - 1) mod d)%N) in *. clearbody q r.
  unfold enough. rewrite N2Nat.id. split; [|lia]. replace (q + 1 - 1)%N with q by lia. rewrite N.mul_add_distr_l. lia.
Qed.

(* the blocks at the front of the pool *)
Lemma take_R s fl given n len cnt body : R 0 s (fl, given) -> 1 <= n -> n <= List.length fl ->
  exists a t got rest, p_head (pl s) = Some a /\ walk (hp s) a (n - 1) = Some t /\ fl = got ++ rest /\ List.length got = n /\
    R 0 (mkS (set_next (hp s) t None) (brk s) (mkP (hp s t) (match hp s t with None => None | Some _ => p_tail (pl s) end) (p_body (pl s)) (p_used (pl s) + Z.of_nat n) (p_free (pl s) - Z.of_nat n))
             (slots s ++ [mkL true (Some a) (Some t) n cnt len body])) (rest, given ++ [Some got]).
Proof.
  intros (F & T & N & U & O & P) N1 N2. destruct (perm_nodup _ _ P) as [ND LT].
  assert (G : List.length (firstn n fl) = n) by (apply firstn_length_le; exact N2).
  assert (NE : firstn n fl <> []) by (intro Q; rewrite Q in G; cbn in G; lia). destruct (exists_last NE) as (q & t & EQ).
  assert (FL : fl = q ++ t :: skipn n fl) by (rewrite <- (firstn_skipn n fl) at 1; rewrite EQ, <- app_assoc; reflexivity).
  assert (QL : List.length q = n - 1) by (rewrite EQ, app_length in G; cbn in G; lia).
  pose proof (follows_head _ _ _ F) as HD. destruct fl as [|a fl0]; [destruct q; discriminate|]. exists a, t, (q ++ [t]), (skipn n (a :: fl0)).
  set (rest := skipn n (a :: fl0)) in *. set (fl := a :: fl0) in *. clearbody rest. split; [exact HD|]. rewrite HD in F.
  assert (FR : fl = (q ++ [t]) ++ rest) by (rewrite <- app_assoc; exact FL). rewrite FL in F.
  split; [rewrite <- QL; eapply walk_to; exact F|]. split; [exact FR|]. split; [rewrite app_length; cbn; lia|].
  pose proof (follows_rest _ _ _ _ _ F) as F2. rewrite FR, <- !app_assoc in ND. pose proof ND as ND0. apply nodup_app in ND. destruct ND as (_ & ND & NQ). cbn [app] in ND. inversion ND as [|? ? NT _]; subst.
  assert (TQ : ~ In t q) by (intro Q; apply (NQ t Q); left; reflexivity).
  unfold R. cbn [hp pl p_head p_tail p_free p_used slots brk]. split; [apply follows_set; [exact F2|intro Q; apply NT, in_or_app; auto]|].
  split. { pose proof (follows_head _ _ _ F2) as H2. destruct rest as [|y r]; rewrite H2; [reflexivity|]. rewrite T, FR. apply lasto_join. discriminate. }
  split; [rewrite FR, !app_length in N; cbn in N; lia|]. split; [rewrite all_app, app_length, U; cbn [map List.concat blocks_of]; rewrite app_nil_r, app_length; cbn; lia|].
  split.
  - apply Forall2_app.
    + eapply owns_all; [exact O|]. intros x X. apply set_other. intros ->. apply NT, in_or_app. auto.
    + constructor; [|constructor]. cbn. split; [reflexivity|]. split; [|split; [symmetry; apply lasto_app|rewrite app_length; cbn; lia]].
      eapply follows_cut; [exact F|exact TQ|constructor].
  - rewrite all_app. cbn [map List.concat blocks_of]. rewrite app_nil_r. rewrite <- P, FR. rewrite (app_assoc rest), (Permutation_app_comm (rest ++ all given)), <- !app_assoc. reflexivity.
Qed.
Lemma alloc_R s fl given len cnt av : R 0 s (fl, given) -> proper (p_body (pl s)) (fl, given) (Alloc len cnt av) ->
  exists s' x st', step s (Alloc len cnt av) = Some (s', x) /\ anext (p_body (pl s)) (fl, given) (Alloc len cnt av) x st' /\ R 0 s' st' /\ p_body (pl s') = p_body (pl s).
Proof.
  intros H [L C]. destruct (blocks_enough _ _ _ L C) as (P0 & EN & N1). cbn [step]. unfold mblck_list_alloc.
  destruct (N.eqb_spec len 0) as [?|X1]; [lia|]. destruct (N.eqb_spec (per_block (p_body (pl s)) len) 0) as [?|X2]; [congruence|].
  set (n := blocks_for (p_body (pl s)) len cnt) in *. clearbody n. pose proof H as (_ & _ & NF & _ & O & _).
  assert (COMMON : forall s1 more, R 0 s1 (fl ++ more, given) -> p_body (pl s1) = p_body (pl s) -> slots s1 = slots s -> n <= List.length (fl ++ more) -> (more <> [] -> List.length (fl ++ more) = n) ->
    exists s' x st', (if Z.ltb (p_free (pl s1)) (Z.of_nat n) then None else
       match p_head (pl s1) with
       | None => None
       | Some a => match walk (hp s1) a (n - 1) with
         | None => None
         | Some t => Some (mkS (set_next (hp s1) t None) (brk s1) (mkP (hp s1 t) (match hp s1 t with None => None | Some _ => p_tail (pl s1) end) (p_body (pl s1)) (p_used (pl s1) + Z.of_nat n) (p_free (pl s1) - Z.of_nat n))
             (slots s1 ++ [mkL true (Some a) (Some t) n cnt len (per_block (p_body (pl s)) len * len)%N]), Got (List.length (slots s1)))
         end end) = Some (s', x) /\ anext (p_body (pl s)) (fl, given) (Alloc len cnt av) x st' /\ R 0 s' st' /\ p_body (pl s') = p_body (pl s)).
  { intros s1 more H1 B1 S1 LN MO. pose proof H1 as (_ & _ & NF1 & _ & _ & _). destruct (Z.ltb_spec (p_free (pl s1)) (Z.of_nat n)); [lia|].
    destruct (take_R s1 _ _ n len cnt (per_block (p_body (pl s)) len * len)%N H1 N1 LN) as (a & t & got & rest & E1 & E2 & E3 & E4 & E5). rewrite E1, E2.
    eexists _, _, (rest, given ++ [Some got]). split; [reflexivity|]. split; [|split; [exact E5|exact B1]]. rewrite S1, (Forall2_len _ _ _ O).
    econstructor; [exact EN|exact E3|exact E4|]. intro Q. specialize (MO Q). rewrite E3, app_length in MO. destruct rest; [reflexivity|cbn in MO; lia]. }
  destruct (Z.ltb_spec (p_free (pl s)) (Z.of_nat n)) as [Q|Q].
  - destruct (do_mblck_pool_grow s (Z.to_nat (Z.of_nat n - p_free (pl s))) av) as [s1 c] eqn:E. destruct (grow_R _ _ _ _ _ _ _ H E) as (more & M1 & M2 & H1 & B1 & S1).
    destruct (Nat.ltb_spec c (Z.to_nat (Z.of_nat n - p_free (pl s)))) as [K|K].
    + eexists _, _, (fl ++ more, given). split; [reflexivity|]. split; [constructor; lia|]. split; [exact H1|exact B1].
    + apply (COMMON s1 more); auto; [|intros _]; rewrite app_length; lia.
  - destruct (Nat.ltb_spec (Z.to_nat (Z.of_nat n - p_free (pl s))) (Z.to_nat (Z.of_nat n - p_free (pl s)))); [lia|].
    apply (COMMON s []); rewrite ?app_nil_r; auto; [lia|congruence].
Qed.
Lemma free_R s fl given i : R 0 s (fl, given) -> proper (p_body (pl s)) (fl, given) (Free i) ->
  exists s' x st', step s (Free i) = Some (s', x) /\ anext (p_body (pl s)) (fl, given) (Free i) x st' /\ R 0 s' st' /\ p_body (pl s') = p_body (pl s).
Proof.
  intros (F & T & N & U & O & P) (b & E). cbn [snd] in E. destruct (slot_of _ _ _ _ _ O E) as (L & EL & (W & FB & TB & CB)). cbn [step]. unfold mblck_list_free. rewrite EL, W.
  destruct (perm_nodup _ _ P) as [ND _]. destruct (slot_split _ _ _ E) as [SP _].
  pose proof (all_put given i (Some b) None E) as AP. cbn [blocks_of] in AP. rewrite app_nil_r in AP.
  assert (PP : Permutation ((b ++ fl) ++ all (put given i None)) (seq 0 (brk s))).
  { rewrite <- P, <- AP. rewrite (Permutation_app_comm b fl), <- app_assoc. apply Permutation_app_head, Permutation_app_comm. }
  assert (LEN : List.length (all given) = List.length (all (put given i None)) + List.length b) by (rewrite <- (Permutation_length AP), app_length; reflexivity).
  rewrite CB. destruct (Nat.ltb_spec 0 (List.length b)) as [Q|Q].
  - destruct (lasto b) as [t|] eqn:LB; [|apply lasto_none in LB; subst b; cbn in Q; lia]. rewrite TB. destruct (lasto_some _ _ LB) as (q & EQ).
    eexists _, _, (b ++ fl, put given i None). split; [reflexivity|]. split; [constructor; exact E|]. split; [|reflexivity].
    assert (NDA : NoDup (b ++ fl ++ all (firstn i given) ++ all (skipn (S i) given))).
    { eapply Permutation_NoDup; [|exact ND]. rewrite SP at 1. rewrite all_app. cbn [map List.concat blocks_of]. rewrite (app_assoc b fl), (Permutation_app_comm b fl), <- !app_assoc. apply Permutation_app_head.
      rewrite !app_assoc. apply Permutation_app_tail, Permutation_app_comm. }
    assert (TI : In t b) by (rewrite EQ; apply in_or_app; right; left; reflexivity).
    destruct (nodup_app _ _ NDA) as (NDB & _ & SEP). assert (TQ : ~ In t q) by (rewrite EQ in NDB; apply nodup_app in NDB; destruct NDB as (_ & _ & Z); intro X; apply (Z t X); left; reflexivity).
    unfold R. cbn [hp pl p_head p_tail p_free p_used slots brk]. split.
    + rewrite EQ, <- app_assoc. cbn [app]. rewrite EQ in FB. eapply follows_cut; [exact FB|exact TQ|]. apply follows_set; [exact F|]. intro X. apply (SEP t TI), in_or_app. auto.
    + split; [rewrite T; destruct (lasto fl) eqn:LF; [rewrite lasto_join; [auto|intros ->; discriminate]|apply lasto_none in LF; subst fl; rewrite app_nil_r; auto]|].
      split; [rewrite app_length; lia|]. split; [lia|]. split; [|exact PP].
      rewrite (upd_put _ _ _ _ EL). eapply frame_put; [exact O|congruence| |reflexivity]. intros x X. apply set_other. intros ->. apply (SEP t TI), in_or_app. auto.
  - destruct b; [|cbn in Q; lia]. eexists _, _, ([] ++ fl, put given i None). split; [reflexivity|]. split; [constructor; exact E|]. split; [|reflexivity].
    unfold R. cbn [hp pl p_head p_tail p_free p_used slots brk app]. repeat split; auto; [cbn in LEN; lia|].
    rewrite (upd_put _ _ _ _ EL). apply slot_put; [exact O|apply nth_error_Some; congruence|reflexivity].
Qed.
Lemma nth_put_ne {A} (l : list A) i j (x y : A) : nth_error l j = Some y -> i <> j -> nth_error (put l j x) i = nth_error l i.
Proof. revert i j. induction l as [|z l IH]; intros [|i] [|j] E N; cbn in *; try discriminate; try congruence; try reflexivity. apply (IH i j E). congruence. Qed.
Lemma merge_R s fl given i j : R 0 s (fl, given) -> proper (p_body (pl s)) (fl, given) (Merge i j) ->
  exists s' x st', step s (Merge i j) = Some (s', x) /\ anext (p_body (pl s)) (fl, given) (Merge i j) x st' /\ R 0 s' st' /\ p_body (pl s') = p_body (pl s).
Proof.
  intros (F & T & N & U & O & P) (NE & (a0 & a1 & Ea) & (b0 & b1 & Eb)). cbn [snd] in *. set (b := b0 :: b1) in *. set (a := a0 :: a1) in *. assert (AN : a <> []) by discriminate. assert (BN : b <> []) by discriminate. clearbody a b.
  destruct (slot_of _ _ _ _ _ O Ea) as (La & ELa & (Wa & Fa & Ta & Ca)). destruct (slot_of _ _ _ _ _ O Eb) as (Lb & ELb & (Wb & Fb & Tb & Cb)).
  cbn [step]. unfold mblck_list_merge. rewrite ELa, ELb, Wa, Wb. cbn [andb]. destruct (lasto a) as [t|] eqn:LA; [|apply lasto_none in LA; congruence]. rewrite Ta. destruct (lasto_some _ _ LA) as (q & EQ).
  destruct (perm_nodup _ _ P) as [ND _].
  set (g1 := put given j (Some [])) in *. set (bl := mkL true None None 0 (l_items Lb) (l_len Lb) (l_body Lb)).
  assert (E1 : nth_error g1 i = Some (Some a)) by (unfold g1; rewrite (nth_put_ne _ _ _ _ _ Eb NE); exact Ea).
  assert (EL1 : nth_error (put (slots s) j bl) i = Some La) by (rewrite (nth_put_ne _ _ _ _ _ ELb NE); exact ELa).
  assert (O1 : Forall2 (owns (hp s)) (put (slots s) j bl) g1).
  { apply slot_put; [exact O|apply nth_error_Some; congruence|]. cbn. repeat split; constructor. }
  pose proof (all_put given j (Some b) (Some []) Eb) as AP1. cbn [blocks_of] in AP1. rewrite app_nil_r in AP1. fold g1 in AP1.
  pose proof (all_put g1 i (Some a) (Some (a ++ b)) E1) as AP2. cbn [blocks_of] in AP2.
  assert (AP : Permutation (all (put g1 i (Some (a ++ b)))) (all given)).
  { apply (Permutation_app_inv_r a). rewrite AP2, <- AP1. rewrite (Permutation_app_comm a b), app_assoc. reflexivity. }
  eexists _, _, (fl, put g1 i (Some (a ++ b))). split; [reflexivity|]. split; [constructor; assumption|]. split; [|reflexivity].
  destruct (slot_split _ _ _ E1) as [SP _].
  assert (NDA : NoDup (a ++ b ++ fl ++ all (firstn i g1) ++ all (skipn (S i) g1))).
  { eapply Permutation_NoDup; [|exact ND]. rewrite <- AP1. rewrite SP at 1. rewrite all_app. cbn [map List.concat blocks_of]. set (x := all (firstn i g1)). set (y := all (skipn (S i) g1)).
    rewrite (Permutation_app_comm (x ++ a ++ y) b). rewrite (app_assoc fl b), (Permutation_app_comm fl b), <- !app_assoc. rewrite (app_assoc a b), (Permutation_app_comm a b), <- app_assoc. apply Permutation_app_head.
    rewrite (app_assoc a fl), (Permutation_app_comm a fl), <- app_assoc. apply Permutation_app_head. rewrite !app_assoc. apply Permutation_app_tail, Permutation_app_comm. }
  assert (TI : In t a) by (rewrite EQ; apply in_or_app; right; left; reflexivity).
  destruct (nodup_app _ _ NDA) as (NDB & _ & SEP). assert (TQ : ~ In t q) by (rewrite EQ in NDB; apply nodup_app in NDB; destruct NDB as (_ & _ & Z); intro X; apply (Z t X); left; reflexivity).
  unfold R. cbn [hp pl p_head p_tail p_free p_used slots brk]. split; [apply follows_set; [exact F|]; intro X; apply (SEP t TI), in_or_app; right; apply in_or_app; auto|].
  split; [exact T|]. split; [exact N|]. split; [rewrite (Permutation_length AP); exact U|]. split; [|rewrite AP; exact P].
  rewrite (upd_put (slots s) j bl Lb ELb), (upd_put _ _ _ _ EL1). eapply frame_put; [exact O1|congruence| |].
  - intros x X. apply set_other. intros ->. apply (SEP t TI). apply in_or_app. right. apply in_or_app. auto.
  - cbn. split; [reflexivity|]. split; [|split; [rewrite Tb, lasto_join; [reflexivity|exact BN]|rewrite Ca, Cb, app_length; reflexivity]].
    rewrite EQ, <- app_assoc. cbn [app]. rewrite EQ in Fa. eapply follows_cut; [exact Fa|exact TQ|]. apply follows_set; [exact Fb|]. intro X. apply (SEP t TI), in_or_app. auto.
Qed.

(* ---- histories ---- *)
Definition kind (g : option (list nat)) : status := match g with Some (_ :: _) => Full | Some [] => Empty | None => Back end.
Lemma map_put {A B} (f : A -> B) l i x : map f (put l i x) = put (map f l) i (f x).
Proof. unfold put. rewrite map_app. cbn [map]. now rewrite firstn_map, skipn_map. Qed.
Lemma put_id {A} (l : list A) i x : nth_error l i = Some x -> put l i x = l.
Proof. intro E. destruct (slot_split _ _ _ E) as [SP _]. symmetry. exact SP. Qed.
Lemma step_R s st m o : R 0 s st -> map kind (snd st) = m -> allowed (p_body (pl s)) m o ->
  exists s' x st', step s o = Some (s', x) /\ anext (p_body (pl s)) st o x st' /\ R 0 s' st' /\ p_body (pl s') = p_body (pl s) /\ map kind (snd st') = next_status m (o, x).
Proof.
  destruct st as [fl given]. cbn [snd]. intros H M A.
  assert (PR : proper (p_body (pl s)) (fl, given) o).
  { destruct o as [len cnt av|i j|i]; cbn [allowed proper snd] in *; [exact A| |].
    - destruct A as (NE & A1 & A2). subst m. rewrite nth_error_map in A1, A2. split; [exact NE|]. split.
      + destruct (nth_error given i) as [[[|x r]|]|]; try discriminate. eauto.
      + destruct (nth_error given j) as [[[|x r]|]|]; try discriminate. eauto.
    - subst m. rewrite nth_error_map in A. destruct (nth_error given i) as [[b|]|]; [eauto|destruct A; discriminate|destruct A; discriminate]. }
  assert (Q : exists s' x st', step s o = Some (s', x) /\ anext (p_body (pl s)) (fl, given) o x st' /\ R 0 s' st' /\ p_body (pl s') = p_body (pl s)) by (destruct o; [apply alloc_R|apply merge_R|apply free_R]; assumption).
  destruct Q as (s' & x & st' & E1 & E2 & E3 & E4). exists s', x, st'. repeat (split; [assumption|]). subst m. inversion E2; subst; cbn [snd next_status].
  - rewrite map_app. cbn [map kind]. destruct got; [|reflexivity]. exfalso. destruct PR as [_ PR]. match goal with Z : enough _ _ _ |- _ => destruct Z as [Z _]; cbn in Z; lia end.
  - reflexivity.
  - rewrite !map_put. cbn [kind]. destruct PR as (_ & (x0 & r0 & PA) & _). cbn [snd] in PA. match goal with Z : nth_error given i = Some (Some a) |- _ => rewrite Z in PA; injection PA as -> end. cbn [app].
    apply put_id. rewrite (nth_put_ne _ _ _ _ (kind (Some b))); [|rewrite nth_error_map; match goal with Z : nth_error given j = _ |- _ => rewrite Z end; reflexivity|assumption].
    rewrite nth_error_map. match goal with Z : nth_error given i = _ |- _ => rewrite Z end. reflexivity.
  - apply map_put.
Qed.
Lemma run_R l : forall s st m, R 0 s st -> map kind (snd st) = m -> use (p_body (pl s)) s m l ->
  exists s' os st', run s l = Some (s', os) /\ ahistory (p_body (pl s)) st l os st' /\ R 0 s' st' /\ map kind (snd st') = fold_left next_status (combine l os) m.
Proof.
  induction l as [|o l IH]; intros s st m H M U; cbn [use run] in *.
  - exists s, [], st. split; [reflexivity|]. split; [constructor|]. auto.
  - destruct U as [A U]. destruct (step_R _ _ _ _ H M A) as (s1 & x & st1 & E1 & E2 & E3 & E4 & E5). rewrite E1 in *. rewrite <- E4 in U.
    destruct (IH _ _ _ E3 E5 U) as (s2 & os & st2 & F1 & F2 & F3 & F4). exists s2, (x :: os), st2. rewrite F1. rewrite E4 in F2. split; [reflexivity|]. split; [econstructor; eassumption|]. auto.
Qed.
Lemma create_R bl n av s : mblck_pool_create bl n av = Some s -> exists fl, R 0 s (fl, []) /\ List.length fl = n /\ p_body (pl s) = (bl - 8)%N.
Proof.
  unfold mblck_pool_create. destruct (do_mblck_pool_grow _ n av) as [s1 c] eqn:E. destruct (grow_R _ _ _ _ _ _ _ (init_R bl) E) as (more & A & B & C & D & _).
  destruct (Nat.ltb_spec c n); intro Q; [discriminate|]. injection Q as <-. exists more. split; [exact C|]. split; [lia|exact D].
Qed.

(* C67: whatever lists are taken, merged and given back, and whenever malloc fails: no assertion fails and no null pointer is followed,
   every list is, by its pointers, a sequence of blocks of its own, large enough for its items, merged lists are the one after
   the other, and no block is lost or in two places *)
Theorem C67_lists bl n av s0 l : mblck_pool_create bl n av = Some s0 -> use (bl - 8) s0 [] l ->
  exists s os fl0 fl given, run s0 l = Some (s, os) /\ List.length fl0 = n /\ ahistory (bl - 8) (fl0, []) l os (fl, given) /\
    follows (hp s) (p_head (pl s)) fl /\
    (forall i b, nth_error given i = Some (Some b) -> exists L, nth_error (slots s) i = Some L /\ follows (hp s) (l_head L) b /\ l_cnt L = List.length b) /\
    Permutation (fl ++ List.concat (map blocks_of given)) (seq 0 (brk s)).
Proof.
  intros C U. destruct (create_R _ _ _ _ C) as (fl0 & H & L0 & B). rewrite <- B in *. destruct (run_R l s0 (fl0, []) [] H eq_refl U) as (s & os & [fl given] & E1 & E2 & E3 & E4).
  destruct E3 as (F & T & N & UU & O & P). exists s, os, fl0, fl, given. repeat (split; [assumption|]). split; [|exact P].
  intros i b G. destruct (slot_of _ _ _ _ _ O G) as (L & EL & (W & FB & TB & CB)). eauto.
Qed.
(* when every list is given back or merged away, destroying the pool gives every block back once *)
Lemma final_all h l : forall a fuel acc, follows h a l -> List.length l <= fuel -> final_loop fuel h a acc = Some (rev l ++ acc).
Proof.
  induction l as [|x l IH]; intros a fuel acc F B; inversion F; subst; cbn [rev app].
  - destruct fuel; reflexivity.
  - destruct fuel as [|fuel]; cbn in B; [lia|]. cbn [final_loop]. rewrite (IH _ fuel (x :: acc)) by (try assumption; lia). rewrite <- app_assoc. reflexivity.
Qed.
Theorem C67_destroy bl n av s0 l s os : mblck_pool_create bl n av = Some s0 -> use (bl - 8) s0 [] l -> run s0 l = Some (s, os) ->
  ~ In Full (fold_left next_status (combine l os) []) -> exists freed, mblck_pool_destroy s = Some freed /\ Permutation freed (seq 0 (brk s)).
Proof.
  intros C U RN NF. destruct (create_R _ _ _ _ C) as (fl0 & H & L0 & B). rewrite <- B in *. destruct (run_R l s0 (fl0, []) [] H eq_refl U) as (s' & os' & [fl given] & E1 & E2 & E3 & E4).
  rewrite RN in E1. injection E1 as <- <-. destruct E3 as (F & T & N & UU & O & P). cbn [snd] in E4. rewrite <- E4 in NF.
  assert (Z : List.concat (map blocks_of given) = []).
  { clear - NF. induction given as [|g given IH]; [reflexivity|]. cbn in *. rewrite IH by tauto. destruct g as [[|x r]|]; [reflexivity|exfalso; apply NF; left; reflexivity|reflexivity]. }
  rewrite Z, app_nil_r in P. rewrite Z in UU. unfold mblck_pool_destroy. rewrite UU. cbn [List.length Z.of_nat Z.eqb].
  rewrite (final_all _ _ _ _ _ F) by (rewrite (Permutation_length P), seq_length; lia). rewrite app_nil_r, rev_length.
  destruct (Z.eqb_spec (p_free (pl s) - Z.of_nat (List.length fl)) 0); [|lia]. exists (rev fl). split; [reflexivity|]. rewrite <- P. apply Permutation_sym, Permutation_rev.
Qed.
(* every item lies within one block of the list it was taken for *)
Theorem C67_room bl n av s0 l len cnt a s s' os i : mblck_pool_create bl n av = Some s0 -> use (bl - 8) s0 [] (l ++ [Alloc len cnt a]) -> run s0 l = Some (s, os) ->
  step s (Alloc len cnt a) = Some (s', Got i) -> (i = List.length (slots s)) /\
  exists L, nth_error (slots s') i = Some L /\ l_items L = cnt /\ (l_body L <= bl - 8)%N /\ (cnt * len <= l_body L * N.of_nat (l_cnt L))%N /\ (exists k, l_body L = k * len)%N.
Proof.
  intros C U RN ST. destruct (create_R _ _ _ _ C) as (fl0 & H & L0 & B). rewrite <- B in *.
  assert (US : forall l s0 m, use (p_body (pl s0)) s0 m (l ++ [Alloc len cnt a]) -> forall st, R 0 s0 st -> map kind (snd st) = m -> forall s os, run s0 l = Some (s, os) -> exists st', R 0 s st' /\ p_body (pl s) = p_body (pl s0) /\ (0 < len <= p_body (pl s))%N /\ (0 < cnt < 2 ^ 32)%N).
  { clear. induction l as [|o l IH]; intros s0 m U st H M s os RN; cbn [app use run] in *.
    - injection RN as <- <-. destruct U as [A _]. exists st. split; [exact H|]. split; [reflexivity|]. exact A.
    - destruct U as [A U]. destruct (step_R _ _ _ _ H M A) as (s1 & x & st1 & E1 & E2 & E3 & E4 & E5). rewrite E1 in *. destruct (run s1 l) as [[s2 xs]|] eqn:R2; [|discriminate]. injection RN as <- <-.
      rewrite <- E4 in U. destruct (IH _ _ U _ E3 E5 _ _ R2) as (st2 & Q1 & Q2 & Q3). exists st2. split; [exact Q1|]. split; [congruence|exact Q3]. }
  destruct (US l s0 [] U _ H eq_refl _ _ RN) as ([fl given] & HR & BB & LL & CC). rewrite <- BB. destruct (blocks_enough _ _ _ LL CC) as (P0 & EN & N1).
  cbn [step] in ST. unfold mblck_list_alloc in ST. destruct (N.eqb_spec len 0); [discriminate|]. destruct (N.eqb (per_block (p_body (pl s)) len) 0); [discriminate|].
  set (k := blocks_for (p_body (pl s)) len cnt) in *. clearbody k.
  set (need := Z.to_nat (Z.of_nat k - p_free (pl s))) in *.
  destruct (if Z.ltb (p_free (pl s)) (Z.of_nat k) then do_mblck_pool_grow s need a else (s, need)) as [s1 c] eqn:G.
  assert (SL : slots s1 = slots s).
  { destruct (Z.ltb (p_free (pl s)) (Z.of_nat k)); [destruct (grow_R _ _ _ _ _ _ _ HR G) as (? & _ & _ & _ & _ & Q); exact Q|injection G as <- _; reflexivity]. }
  destruct (Nat.ltb c need); [discriminate|]. match type of ST with context[Z.ltb ?u ?v] => destruct (Z.ltb u v) end; [discriminate|]. destruct (p_head (pl s1)) as [x|]; [|discriminate]. destruct (walk (hp s1) x (k - 1)) as [t|]; [|discriminate].
  injection ST as <- <-. cbn [slots]. rewrite SL. split; [reflexivity|]. rewrite nth_error_app2, Nat.sub_diag by lia. eexists. split; [reflexivity|]. cbn [l_items l_body l_cnt]. split; [reflexivity|].
  unfold per_block in *. split; [rewrite N.mul_comm; apply N.mul_div_le; assumption|]. split; [|eexists; reflexivity].
  destruct EN as [EN _]. set (d := (p_body (pl s) / len)%N) in *. replace (d * len * N.of_nat k)%N with (d * N.of_nat k * len)%N by lia. apply N.mul_le_mono_r. exact EN.
Qed.

(* the limits in [allowed] are needed (memcached.c asks for items of one byte, at least two of them; mc_util.c 487 merges new lists only): no item asks for (2^32 - 1) / per + 1 blocks; a list merged with an empty one cannot be given back;
   an item larger than a block divides by zero *)
Example C67_zero_items : exists body len, (0 < len <= body)%N /\ (4000000 < N.of_nat (blocks_for body len 0))%N.
Proof. exists 8184%N, 8%N. split; [lia|]. unfold blocks_for. rewrite N2Nat.id. vm_compute. reflexivity. Qed.
Example C67_empty_merge : exists s0 l s os, mblck_pool_create 1024 3 3 = Some s0 /\ run s0 l = Some (s, os) /\ step s (Free 2) = None.
Proof.
  destruct (mblck_pool_create 1024 3 3) as [s0|] eqn:C; [|vm_compute in C; discriminate]. exists s0.
  destruct (run s0 [Alloc 8 1 0; Alloc 8 1 0; Alloc 8 1 0; Merge 0 1; Merge 2 1]) as [[s os]|] eqn:E; [|vm_compute in C; injection C as <-; vm_compute in E; discriminate].
  exists [Alloc 8 1 0; Alloc 8 1 0; Alloc 8 1 0; Merge 0 1; Merge 2 1], s, os. split; [reflexivity|]. split; [exact E|]. vm_compute in C. injection C as <-. vm_compute in E. injection E as <- <-. reflexivity.
Qed.
Example C67_ex : match mblck_pool_create 64 2 2 with
  | Some s0 => use 56 s0 [] [Alloc 8 20 5; Alloc 8 3 0; Alloc 8 3 1; Merge 0 1; Free 0; Free 1; Alloc 8 30 9; Free 2] /\
      option_map (fun x => (snd x, brk (fst x), p_free (pl (fst x)))) (run s0 [Alloc 8 20 5; Alloc 8 3 0; Alloc 8 3 1; Merge 0 1; Free 0; Free 1; Alloc 8 30 9; Free 2])
      = Some ([Got 0; NoMem; Got 1; Done; Done; Done; Got 2; Done], 5, 5%Z)
  | None => False end.
Proof. vm_compute. repeat split; auto; discriminate. Qed.
Print Assumptions C67_lists.
Print Assumptions C67_destroy.
Print Assumptions C67_room.
