(* The invariant over whole histories, and what a scan returns. *)
From Verif Require Import Base UtilModel KvModel KvSpec KvRefine PfxModel PfxSpec PfxProofs PfxRun.
Local Open Scope N_scope.

Definition abs1 (e : N * hitem) : N * sitem :=
  (fst e, mkSi (hkey (snd e)) (htype (snd e)) (stotal (snd e)) (sticky (snd e))).
Definition abs (l : list (N * hitem)) : store := map abs1 l.

Lemma abs_idel l i : abs (idel l i) = filter (fun e => negb (fst e =? i)) (abs l).
Proof.
  unfold abs, idel. induction l as [|[j h] l IH]; [reflexivity|]. cbn. destruct (negb (j =? i)); cbn; rewrite IH; reflexivity.
Qed.
Lemma abs_swap l i h h' f : NoDup (map fst l) -> iget l i = Some h -> f (abs1 (i, h)) = abs1 (i, h') ->
  abs (iset l i h') = swap (abs l) i f.
Proof.
  intros ND IG F. unfold abs, swap, iset. rewrite !map_map. apply map_ext_in. intros [j x] Hx. cbn.
  destruct (N.eqb_spec j i) as [->|E]; [|reflexivity]. apply (in_iget _ _ _ ND) in Hx.
  assert (x = h) by congruence. subst x. symmetry. exact F.
Qed.
Lemma abs_replace l i h (j : N) k t z st f : NoDup (map fst l) -> iget l i = Some h -> k = hkey h -> t = htype h -> 
  f = (fun e : N * sitem => if fst e =? i then [(j, mkSi (s_key (snd e)) (s_type (snd e)) z st)] else []) ->
  flat_map f (abs l) = [(j, mkSi k t z st)].
Proof.
  intros ND IG -> -> ->. induction l as [|[j' x] l IH]; cbn in *; [discriminate|]. inversion ND; subst.
  destruct (N.eqb_spec j' i) as [->|E].
  - injection IG as ->. cbn. f_equal. clear - H1. induction l as [|[j' x] l IH]; [reflexivity|]. cbn in *.
    destruct (N.eqb_spec j' i) as [->|E]; [tauto|]. apply IH. tauto.
  - cbn. apply IH; assumption.
Qed.
Lemma sum_abs f l : sum f (abs l) = tot (fun h => f (mkSi (hkey h) (htype h) (stotal h) (sticky h))) l.
Proof. induction l as [|[i h] l IH]; [reflexivity|]. cbn. fold (abs l). fold (sum f (abs l)). rewrite IH. reflexivity. Qed.
Lemma abs_len l : length (abs l) = length l.
Proof. apply map_length. Qed.

Section P.
Variable hash : bytes -> N.
Notation pbucket := (pbucket hash).
Notation inv := (inv hash).

Lemma inv_perm e s hd hd' : (forall q, count_occ N.eq_dec hd q = count_occ N.eq_dec hd' q) -> inv e s hd -> inv e s hd'.
Proof.
  intros E []. constructor; try assumption.
  - intros p x X N. rewrite <- E. auto.
  - intros p P. apply I_alive. apply (count_occ_In N.eq_dec). rewrite E. apply (count_occ_In N.eq_dec). exact P.
Qed.

(* only the reference count of cell p changes *)
Definition with_ref (x : pt) (n : N) : pt := mkPt (pname x) (pint x) (plinked x) n (cnts x) (byts x) (tcnt x) (tbyt x).
Lemma inv_ref e s hd hd' p x n : inv e s hd -> heap s p = Some x -> p <> 0 ->
  (forall q, q <> p -> count_occ N.eq_dec hd' q = count_occ N.eq_dec hd q) -> n = N.of_nat (count_occ N.eq_dec hd' p) ->
  (n = 0 -> plinked x = true) -> 
  inv e (w_heap s (hset (heap s) p (Some (with_ref x n)))) hd'.
Proof.
  intros I X P C CN A.
  assert (H : forall q z, hset (heap s) p (Some (with_ref x n)) q = Some z ->
            exists z0, heap s q = Some z0 /\ pname z0 = pname z /\ pint z0 = pint z /\ plinked z0 = plinked z /\
                       (forall l, good l q z0 -> good l q z) /\ (q <> p -> z0 = z) /\ (q = p -> z = with_ref x n)).
  { intros q z. unfold hset. destruct (N.eqb_spec q p) as [->|E].
    - injection 1 as <-. exists x. do 4 (split; [auto|]). split; [intros l G; exact G|]. split; [congruence|auto].
    - intro Z. exists z. do 4 (split; [auto|]). split; [auto|]. split; [auto|congruence]. }
  assert (H' : forall q z, heap s q = Some z -> exists z1, hset (heap s) p (Some (with_ref x n)) q = Some z1 /\
             pname z1 = pname z /\ plinked z1 = plinked z).
  { intros q z Z. unfold hset. destruct (N.eqb_spec q p) as [->|E].
    - exists (with_ref x n). assert (z = x) by congruence. subst z. auto.
    - exists z. auto. }
  constructor; cbn [w_heap heap buck its fresh total gs].
  - destruct (I_null _ _ _ _ I) as (z & Z & L). destruct (H' _ _ Z) as (z1 & Z1 & A1 & A2). exists z1. split; [exact Z1|congruence].
  - intros b q Q. destruct (I_cell _ _ _ _ I _ _ Q) as (z & Z & L & B). destruct (H' _ _ Z) as (z1 & Z1 & A1 & A2).
    exists z1. split; [exact Z1|]. split; congruence.
  - intros q z Z L. destruct (H _ _ Z) as (z0 & Z0 & A1 & A2 & A3 & _). rewrite <- A1. apply (I_conv _ _ _ _ I); [exact Z0|congruence].
  - apply (I_nodup _ _ _ _ I).
  - intros q r z1 z2 Z1 Z2 L1 L2 E. destruct (H _ _ Z1) as (a & Aa & A1 & A2 & A3 & _).
    destruct (H _ _ Z2) as (b & B & B1 & B2 & B3 & _). eapply (I_names _ _ _ _ I q r a b); congruence.
  - intros q z Z D. destruct (H _ _ Z) as (z0 & Z0 & A1 & A2 & A3 & G & _). apply G. apply (I_good _ _ _ _ I); [exact Z0|].
    rewrite A3. exact D.
  - intros i h Ih. pose proof (I_items _ _ _ _ I _ _ Ih) as IT. destruct (pfx (hkey h)); [|exact IT]. destruct IT as (z & Z & L & N).
    destruct (H' _ _ Z) as (z1 & Z1 & A1 & A2). exists z1. split; [exact Z1|]. split; congruence.
  - intros q z Z L. destruct (H _ _ Z) as (z0 & Z0 & A1 & A2 & A3 & _). eapply (I_used _ _ _ _ I); [exact Z0|congruence].
  - intros q Q. unfold hset. destruct (N.eqb_spec q p) as [->|E]; [|apply (I_fresh _ _ _ _ I); exact Q].
    rewrite (I_fresh _ _ _ _ I) in X by exact Q. discriminate.
  - exact (I_total _ _ _ _ I).
  - intros q z Z N. destruct (H _ _ Z) as (z0 & Z0 & A1 & A2 & A3 & G & Eq & Ep). destruct (N.eq_dec q p) as [->|E].
    + rewrite (Ep eq_refl). exact CN.
    + rewrite C by exact E. rewrite <- (Eq E). eapply (I_held _ _ _ _ I); eassumption.
  - intros q Q. destruct (N.eq_dec q p) as [->|E].
    + unfold hset. rewrite N.eqb_refl. discriminate.
    + assert (Q' : In q hd). { apply (count_occ_In N.eq_dec). rewrite <- C by exact E. apply (count_occ_In N.eq_dec), Q. }
      pose proof (I_alive _ _ _ _ I _ Q') as L. unfold hset. destruct (N.eqb_spec q p); congruence.
  - intros q z Z N L. destruct (H _ _ Z) as (z0 & Z0 & A1 & A2 & A3 & G & Eq & Ep). destruct (N.eq_dec q p) as [->|E].
    + rewrite (Ep eq_refl) in *. cbn in *. intro N0. rewrite (A N0) in L. discriminate.
    + rewrite <- (Eq E). eapply (I_dead _ _ _ _ I); [exact Z0|exact N|]. rewrite (Eq E). exact L.
  - apply (I_ids _ _ _ _ I).
  - apply (I_keys _ _ _ _ I).
  - intros q z Z N. destruct (H _ _ Z) as (z0 & Z0 & A1 & A2 & A3 & _). rewrite <- A1, <- A2. eapply (I_intl _ _ _ _ I); eassumption.
Qed.

(* nothing but reference counts differs *)
Definition eqr (s s' : pstate) : Prop :=
  fresh s' = fresh s /\ buck s' = buck s /\ total s' = total s /\ its s' = its s /\ gs s' = gs s /\
  forall p, match heap s p, heap s' p with
            | Some x, Some y => exists n, y = with_ref x n
            | None, None => True
            | _, _ => False
            end.
Lemma eqr_refl s : eqr s s.
Proof. repeat split. intro p. destruct (heap s p) as [x|]; [|exact I]. exists (pref x). destruct x; reflexivity. Qed.
Lemma eqr_trans a b c : eqr a b -> eqr b c -> eqr a c.
Proof.
  intros (A1 & A2 & A3 & A4 & A5 & A6) (B1 & B2 & B3 & B4 & B5 & B6). repeat split; try congruence.
  intro p. specialize (A6 p). specialize (B6 p). destruct (heap a p), (heap b p), (heap c p); try tauto.
  destruct A6 as (n & ->), B6 as (m & ->). exists m. reflexivity.
Qed.

Lemma ref_incr_ok e s hd p s' : inv e s hd -> ref_incr s p = Some s' -> inv e s' (p :: hd) /\ eqr s s'.
Proof.
  intros I R. unfold ref_incr in R. destruct (N.eqb_spec p 0) as [->|P].
  - injection R as <-. split; [|apply eqr_refl]. destruct (I_null _ _ _ _ I) as (z & Z & _).
    destruct I. constructor; try assumption.
    + intros q x X N. cbn [count_occ]. destruct (N.eq_dec 0 q); [congruence|]. auto.
    + intros q [<-|Q]; [congruence|auto].
  - destruct (heap s p) as [x|] eqn:X; [|discriminate]. destruct (pref x <? 65535); [|discriminate]. injection R as <-. split.
    + apply (inv_ref e s hd (p :: hd) p x (pref x + 1)); try assumption.
      * intros q N. cbn [count_occ]. destruct (N.eq_dec p q); [congruence|reflexivity].
      * rewrite (I_held _ _ _ _ I _ _ X P). cbn [count_occ]. destruct (N.eq_dec p p); [lia|congruence].
      * lia.
    + repeat split. intro q. cbn [w_heap heap]. unfold hset. destruct (N.eqb_spec q p) as [->|N].
      * rewrite X. eexists. reflexivity.
      * destruct (heap s q) as [z|]; [|exact Logic.I]. exists (pref z). destruct z; reflexivity.
Qed.

Lemma perm_hd e s p out hd : inv e s (p :: out ++ hd) -> inv e s ((out ++ [p]) ++ hd).
Proof.
  apply inv_perm. intro q. rewrite <- app_assoc. cbn [app count_occ]. rewrite !count_occ_app. cbn [count_occ].
  destruct (N.eq_dec p q); lia.
Qed.

(* the names a scan can return *)
Definition shown (h : N -> option pt) (p : N) : bool :=
  match h p with Some x => negb (pint x || pempty x) | None => false end.
Lemma shown_eqr s s' p : eqr s s' -> shown (heap s') p = shown (heap s) p.
Proof.
  intros (_ & _ & _ & _ & _ & E). specialize (E p). unfold shown. destruct (heap s p), (heap s' p); try tauto.
  destruct E as (n & ->). reflexivity.
Qed.

Lemma scan_chain_ok e l asz : forall s hd out s' out', inv e s (out ++ hd) -> scan_chain s l asz out = Some (s', out') ->
  inv e s' (out' ++ hd) /\ eqr s s' /\ out' = out ++ filter (shown (heap s)) l.
Proof.
  induction l as [|p l IH]; cbn [scan_chain filter]; intros s hd out s' out' I R.
  - injection R as <- <-. rewrite app_nil_r. split; [exact I|]. split; [apply eqr_refl|reflexivity].
  - unfold shown at 1. destruct (heap s p) as [x|] eqn:X; [|discriminate]. destruct (pint x || pempty x).
    + apply IH with (hd := hd) in R; [|exact I]. exact R.
    + destruct (asz <=? N.of_nat (length out)); [discriminate|]. destruct (ref_incr s p) as [s1|] eqn:R1; [|discriminate].
      apply (ref_incr_ok e s (out ++ hd)) in R1 as [I1 E1]; [|exact I]. apply IH with (hd := hd) in R; [|apply perm_hd, I1].
      destruct R as (A & B & C). split; [exact A|]. split; [eapply eqr_trans; eassumption|].
      rewrite C, <- app_assoc. cbn [negb app]. f_equal. f_equal. apply filter_ext. intro q. apply shown_eqr, E1.
Qed.

Definition null_shown (s : pstate) : list N :=
  match heap s 0 with Some n => if pempty n then [] else [0] | None => [] end.
(* what a scan returns for bucket b *)
Definition bucket_names (s : pstate) (b : N) : list N :=
  (if b =? 0 then null_shown s else []) ++ filter (shown (heap s)) (buck s b).
Fixpoint range (b : N) (n : nat) : list N := match n with O => [] | S m => b :: range (b + 1) m end.

Lemma bucket_names_eqr s s' b : eqr s s' -> bucket_names s' b = bucket_names s b.
Proof.
  intro E. pose proof E as (_ & B & _ & _ & _ & H). unfold bucket_names, null_shown. rewrite B. f_equal.
  - destruct (b =? 0); [|reflexivity]. specialize (H 0). destruct (heap s 0), (heap s' 0); try tauto. destruct H as (n & ->). reflexivity.
  - apply filter_ext. intro q. apply shown_eqr, E.
Qed.

Lemma scan_loop_ok e req asz f : forall s hd b hc out s' out' b', inv e s (out ++ hd) -> b < 1024 ->
  scan_loop f s b req asz hc out = Some (s', out', b') ->
  inv e s' (out' ++ hd) /\ eqr s s' /\ b <= b' <= 1024 /\ out' = out ++ flat_map (bucket_names s) (range b (N.to_nat (b' - b))) /\
  ((N.of_nat (length out) <? req) && (hc <? req * 4) = true -> b < b').
Proof.
  induction f as [|f IH]; cbn [scan_loop]; intros s hd b hc out s' out' b' I B R; [discriminate|].
  destruct ((N.of_nat (length out) <? req) && (hc <? req * 4)).
  - destruct (heap s 0) as [n|] eqn:X; [|discriminate].
    set (out1 := if (b =? 0) && negb (pempty n) then out ++ [0] else out) in R.
    assert (I1 : inv e s (out1 ++ hd)).
    { unfold out1. destruct ((b =? 0) && negb (pempty n)); [|exact I]. apply perm_hd.
      destruct (ref_incr_ok e s (out ++ hd) 0 s I eq_refl) as [J _]. exact J. }
    assert (O1 : out1 = out ++ (if b =? 0 then null_shown s else [])).
    { unfold out1, null_shown. rewrite X. destruct (b =? 0), (pempty n); cbn; rewrite ?app_nil_r; reflexivity. }
    destruct (scan_chain s (buck s b) asz out1) as [[s1 out2]|] eqn:C; [|discriminate].
    apply (scan_chain_ok e) with (hd := hd) in C as (I2 & E2 & O2); [|exact I1].
    assert (O3 : out2 = out ++ bucket_names s b).
    { rewrite O2, O1, <- app_assoc. reflexivity. }
    destruct (1024 <=? b + 1) eqn:L.
    + injection R as <- <- <-. apply N.leb_le in L. split; [exact I2|]. split; [exact E2|]. split; [lia|]. split; [|lia].
      replace (N.to_nat (b + 1 - b)) with 1%nat by lia. cbn. rewrite app_nil_r. exact O3.
    + apply N.leb_gt in L. apply IH with (hd := hd) in R as (J1 & J2 & J3 & J4 & J5); [|exact I2|exact L].
      split; [exact J1|]. split; [eapply eqr_trans; eassumption|]. split; [lia|]. split; [|lia].
      rewrite J4, O3, <- app_assoc. f_equal. replace (N.to_nat (b' - b)) with (1 + N.to_nat (b' - (b + 1)))%nat by lia.
      cbn [range Nat.add flat_map]. f_equal. apply flat_map_ext. intro c. apply bucket_names_eqr, E2.
  - injection R as <- <- <-. split; [exact I|]. split; [apply eqr_refl|]. split; [lia|].
    replace (N.to_nat (b - b)) with 0%nat by lia. cbn. rewrite app_nil_r. split; [reflexivity|discriminate].
Qed.

Lemma release_ok e s hd p : inv e s hd -> In p hd ->
  exists s', prefix_release s p = Some s' /\ inv e s' (holds hd (PRelease p) PDone) /\ its s' = its s /\ gs s' = gs s.
Proof.
  intros I P. set (hd' := holds hd (PRelease p) PDone).
  assert (C : forall q, q <> p -> count_occ N.eq_dec hd' q = count_occ N.eq_dec hd q).
  { intros q N. unfold hd'. cbn [holds]. clear P I hd'. induction hd as [|r hd IH]; [reflexivity|].
    destruct (N.eqb_spec r p) as [->|E]; cbn [count_occ].
    - destruct (N.eq_dec p q); [congruence|reflexivity].
    - rewrite IH. reflexivity. }
  assert (D : count_occ N.eq_dec hd p = (1 + count_occ N.eq_dec hd' p)%nat).
  { unfold hd'. cbn [holds]. clear I hd' C. induction hd as [|r hd IH]; [destruct P|].
    destruct (N.eqb_spec r p) as [->|E]; cbn [count_occ].
    - destruct (N.eq_dec p p); [reflexivity|congruence].
    - destruct (N.eq_dec r p); [congruence|]. apply IH. destruct P; [congruence|assumption]. }
  unfold prefix_release. destruct (N.eqb_spec p 0) as [->|NP].
  - exists s. split; [reflexivity|]. split; [|auto]. assert (forall q, In q hd' -> In q hd).
    { intros q Q. apply (count_occ_In N.eq_dec) in Q. apply (count_occ_In N.eq_dec). destruct (N.eq_dec q 0) as [->|N]; [lia|]. rewrite <- C; assumption. }
    destruct I. constructor; try assumption.
    + intros q x X N. rewrite C by exact N. auto.
    + auto.
  - pose proof (I_alive _ _ _ _ I _ P) as A. destruct (heap s p) as [x|] eqn:X; [|congruence].
    pose proof (I_held _ _ _ _ I _ _ X NP) as R. destruct (N.eqb_spec (pref x) 0); [lia|].
    destruct ((pref x =? 1) && negb (plinked x)) eqn:E.
    + apply andb_true_iff in E as [E1 E2]. apply N.eqb_eq in E1. apply negb_true_iff in E2.
      eexists. split; [reflexivity|]. split; [|auto].
      assert (H : forall q z, hset (heap s) p None q = Some z -> q <> p /\ heap s q = Some z).
      { intros q z. unfold hset. destruct (N.eqb_spec q p); [discriminate|auto]. }
      assert (H' : forall q z, heap s q = Some z -> plinked z = true -> hset (heap s) p None q = Some z).
      { intros q z Z L. unfold hset. destruct (N.eqb_spec q p); [congruence|exact Z]. }
      constructor; cbn [w_heap heap buck its fresh total gs].
      * destruct (I_null _ _ _ _ I) as (z & Z & L). exists z. split; [|exact L]. unfold hset. destruct (N.eqb_spec 0 p); [congruence|exact Z].
      * intros b q Q. destruct (I_cell _ _ _ _ I _ _ Q) as (z & Z & L & B). exists z. auto.
      * intros q z Z L. apply H in Z as [_ Z]. apply (I_conv _ _ _ _ I); assumption.
      * apply (I_nodup _ _ _ _ I).
      * intros q r y z Z1 Z2. apply H in Z1 as [_ Z1]. apply H in Z2 as [_ Z2]. apply (I_names _ _ _ _ I); assumption.
      * intros q z Z D0. apply H in Z as [_ Z]. apply (I_good _ _ _ _ I); assumption.
      * intros i h Ih. pose proof (I_items _ _ _ _ I _ _ Ih) as IT. destruct (pfx (hkey h)); [|exact IT]. destruct IT as (z & Z & L & N). exists z. auto.
      * intros q z Z L. apply H in Z as [_ Z]. eapply (I_used _ _ _ _ I); eassumption.
      * intros q Q. unfold hset. destruct (N.eqb_spec q p); [reflexivity|]. apply (I_fresh _ _ _ _ I), Q.
      * exact (I_total _ _ _ _ I).
      * intros q z Z N. apply H in Z as [M Z]. rewrite C by exact M. eapply (I_held _ _ _ _ I); eassumption.
      * intros q Q. assert (q <> p).
        { intros ->. apply (count_occ_In N.eq_dec) in Q. lia. }
        unfold hset. destruct (N.eqb_spec q p); [congruence|]. apply (I_alive _ _ _ _ I). apply (count_occ_In N.eq_dec). rewrite <- C by assumption. apply (count_occ_In N.eq_dec), Q.
      * intros q z Z N. apply H in Z as [_ Z]. eapply (I_dead _ _ _ _ I); eassumption.
      * apply (I_ids _ _ _ _ I).
      * apply (I_keys _ _ _ _ I).
      * intros q z Z N. apply H in Z as [_ Z]. eapply (I_intl _ _ _ _ I); eassumption.
    + eexists. split; [reflexivity|]. split; [|auto].
      apply (inv_ref e s hd hd' p x (pref x - 1)); try assumption; [lia|]. intro Z.
      destruct (plinked x); [reflexivity|]. rewrite andb_true_r in E. apply N.eqb_neq in E. lia.
Qed.

End P.
