(* What the statistics and the prefix scan show. *)
From Verif Require Import Base UtilModel KvModel KvSpec KvRefine PfxModel PfxSpec PfxProofs PfxRun PfxHist PfxAll.
Local Open Scope N_scope.

Lemma index_upto r : forall n, match upto r with
  | Some q => index_of 58 r n = Some (n + length q)%nat /\ firstn (length q) r = q
  | None => index_of 58 r n = None
  end.
Proof.
  induction r as [|c r IH]; intro n; cbn [upto index_of]; [reflexivity|]. destruct (c =? 58) eqn:C.
  - split; [f_equal; cbn; lia|reflexivity].
  - specialize (IH (S n)). destruct (upto r) as [q|]; [|exact IH]. destruct IH as [A B]. cbn [length firstn]. rewrite A, B. split; f_equal. lia.
Qed.
Lemma pfx_prefix k : ~ long_prefix k -> pfx k = prefix_of k.
Proof.
  unfold long_prefix, pfx, prefix_of. destruct k as [|c r]; [reflexivity|]. pose proof (index_upto r 1) as U. cbn [tl] in *.
  destruct (upto r) as [q|]; [|rewrite U; reflexivity]. destruct U as [A B]. rewrite A. cbn [length]. intro L.
  rewrite Nat.mod_small by lia. cbn [firstn Nat.add]. rewrite B. reflexivity.
Qed.

(* only keys without an overlong prefix are stored *)
Definition keys_ok (l : store) : Prop := forall e, In e l -> ~ long_prefix (s_key (snd e)).
Lemma effect_keys l hd o x : legal1 hd o -> keys_ok l -> keys_ok (effect l o x).
Proof.
  intros L K. unfold keys_ok in *. destruct o as [i k t z st mem|i|i j z st|i n|i n|cur req asz|p]; cbn [effect legal1] in *; try exact K.
  - destruct x; try exact K. intros e [<-|E]; [exact L|auto].
  - intros e E. apply filter_In in E. apply K. tauto.
  - intros e E. apply in_app_iff in E as [E|E].
    + apply in_flat_map in E as (d & D & E). destruct (fst d =? i); [|destruct E]. destruct E as [<-|[]]. cbn. apply K, D.
    + apply filter_In in E. apply K. tauto.
  - intros e E. unfold swap in E. apply in_map_iff in E as (d & <- & D). destruct (fst d =? i); cbn; apply K, D.
  - intros e E. unfold swap in E. apply in_map_iff in E as (d & <- & D). destruct (fst d =? i); cbn; apply K, D.
Qed.
Lemma stored_keys ops : forall l hd outs, legal l hd ops outs -> keys_ok l -> keys_ok (stored l ops outs).
Proof.
  induction ops as [|o ops IH]; intros l hd outs L K; [exact K|]. destruct outs as [|x outs]; [exact K|]. cbn [legal stored] in *.
  destruct L as (L1 & _ & L3). eapply IH; [exact L3|]. apply (effect_keys l hd); assumption.
Qed.


Lemma sum_under q f l : sum f (under q (abs l)) =
  tot (fun h => w1 (obeqb (prefix_of (hkey h)) q) (f (mkSi (hkey h) (htype h) (stotal h) (sticky h)))) l.
Proof.
  induction l as [|[i h] l IH]; [reflexivity|]. rewrite tot_cons, <- IH. unfold under, abs. cbn [map filter abs1 fst snd s_key].
  destruct (obeqb (prefix_of (hkey h)) q); cbn [w1]; [reflexivity|lia].
Qed.
Lemma sum_type t f l : sum f (of_type t l) = sum (fun x => w1 (ity_eqb (s_type x) t) (f x)) l.
Proof.
  induction l as [|e l IH]; [reflexivity|]. unfold of_type. cbn [filter]. fold (of_type t l). unfold sum at 2. cbn [fold_right].
  fold (sum (fun x => w1 (ity_eqb (s_type x) t) (f x)) l). rewrite <- IH.
  destruct (ity_eqb (s_type (snd e)) t); cbn [w1]; [reflexivity|lia].
Qed.
Lemma number_sum l : number l = sum (fun _ => 1) l.
Proof. induction l as [|e l IH]; [reflexivity|]. unfold number in *. cbn [length sum fold_right]. fold (sum (fun _ => 1) l). lia. Qed.
Lemma tot_ext f g l : (forall i h, In (i, h) l -> f h = g h) -> tot f l = tot g l.
Proof.
  induction l as [|[i h] l IH]; intro E; [reflexivity|]. rewrite !tot_cons. rewrite (E i h) by (left; reflexivity).
  rewrite IH; [reflexivity|]. intros j k K. apply (E j). right. exact K.
Qed.
Lemma tot_le f g l : (forall h, f h <= g h) -> tot f l <= tot g l.
Proof. intro E. induction l as [|[i h] l IH]; [apply N.le_refl|]. rewrite !tot_cons. specialize (E h). lia. Qed.

Lemma obeqb_spec a b : reflect (a = b) (obeqb a b).
Proof.
  destruct a as [a|], b as [b|]; cbn; try (constructor; congruence).
  destruct (beqb a b) eqn:E; constructor; [apply beqb_eq in E; congruence|]. intro Q. injection Q as ->. rewrite beqb_refl in E. discriminate.
Qed.

Section P.
Variable hash : bytes -> N.
Notation inv := (inv hash).

Definition name_of (s : pstate) (p : N) : option bytes :=
  if p =? 0 then None else match heap s p with Some x => Some (pname x) | None => None end.

Section View.
Variables (s : pstate) (hd : list N).
Hypothesis IV : inv 0 s hd.
Hypothesis F : fits (abs (its s)).
Hypothesis K : keys_ok (abs (its s)).

Lemma key_pfx i h : In (i, h) (its s) -> pfx (hkey h) = prefix_of (hkey h).
Proof. intro IN. apply pfx_prefix. apply (K (abs1 (i, h))). apply in_map. exact IN. Qed.

(* the items of a prefix cell are the items with that prefix *)
Lemma at_name p x i h : heap s p = Some x -> p = 0 \/ plinked x = true -> In (i, h) (its s) ->
  at_p p h = obeqb (prefix_of (hkey h)) (name_of s p).
Proof.
  intros X L IN. pose proof (I_items _ _ _ _ IV _ _ IN) as A. rewrite (key_pfx _ _ IN) in A. unfold at_p, name_of. rewrite X.
  destruct (I_null _ _ _ _ IV) as (z & Z & ZL).
  destruct (N.eqb_spec p 0) as [->|P0].
  - destruct (prefix_of (hkey h)) as [n|]; cbn [obeqb].
    + destruct A as (y & Y & YL & _). apply N.eqb_neq. intro Q. rewrite Q in Y. congruence.
    + rewrite A. reflexivity.
  - destruct L as [L|L]; [contradiction|]. destruct (prefix_of (hkey h)) as [n|]; cbn [obeqb].
    + destruct A as (y & Y & YL & YN). destruct (N.eqb_spec (ptr h) p) as [E|E].
      * rewrite E in Y. assert (x = y) by congruence. subst y. rewrite YN. symmetry. apply beqb_refl.
      * destruct (beqb n (pname x)) eqn:B; [|reflexivity]. apply beqb_eq in B. exfalso. apply E.
        apply (I_names _ _ _ _ IV (ptr h) p y x Y X YL L). congruence.
    + apply N.eqb_neq. congruence.
Qed.

Lemma good_summary p x : heap s p = Some x -> p = 0 \/ plinked x = true ->
  line_of p x = summary (name_of s p) (abs (its s)).
Proof.
  intros X L. destruct (I_good _ _ _ _ IV _ _ X L) as (G1 & G2 & G3 & G4).
  assert (A : forall f, tot (fun h => w1 (at_p p h) (f h)) (its s) = tot (fun h => w1 (obeqb (prefix_of (hkey h)) (name_of s p)) (f h)) (its s)).
  { intro f. apply tot_ext. intros i h IN. rewrite (at_name p x i h X L IN). reflexivity. }
  assert (A2 : forall f t, tot (fun h => w1 (at_p p h && ity_eqb (htype h) t) (f h)) (its s) =
     tot (fun h => w1 (obeqb (prefix_of (hkey h)) (name_of s p)) (w1 (ity_eqb (htype h) t) (f h))) (its s)).
  { intros f t. apply tot_ext. intros i h IN. rewrite (at_name p x i h X L IN). destruct (obeqb _ _); reflexivity. }
  destruct F as (_ & F2 & F3). rewrite sum_abs in F2. rewrite number_sum, sum_abs in F3. cbn [s_size] in F2. cbn beta in F3.
  assert (B1 : forall f, (forall h, f h <= 1) -> tot f (its s) mod u64 = tot f (its s)).
  { intros f H. apply N.mod_small. pose proof (tot_le f (fun _ => 1) (its s) H) as Q. change u64 with (2 ^ 64). lia. }
  assert (B2 : forall f, (forall h, f h <= stotal h) -> tot f (its s) mod u64 = tot f (its s)).
  { intros f H. apply N.mod_small. pose proof (tot_le f stotal (its s) H) as Q. change u64 with (2 ^ 64).
    eapply N.le_lt_trans; [exact Q|]. exact F2. }
  unfold line_of, summary. f_equal.
  - unfold name_of. rewrite X. reflexivity.
  - rewrite G1, number_sum, sum_under. rewrite B1 by (intro h; destruct (at_p p h); cbn; lia). apply A.
  - apply map_ext. intro t. rewrite G3, number_sum, sum_type, sum_under. cbn [s_type].
    rewrite B1 by (intro h; destruct (at_p p h && ity_eqb (htype h) t); cbn; lia). apply (A2 (fun _ => 1)).
  - rewrite G2, sum_under. rewrite B2 by (intro h; destruct (at_p p h); cbn; lia). apply A.
  - apply map_ext. intro t. rewrite G4, sum_type, sum_under. cbn [s_type s_size].
    rewrite B2 by (intro h; destruct (at_p p h && ity_eqb (htype h) t); cbn; lia). apply A2.
Qed.

Lemma under_in q : under q (abs (its s)) <> [] <-> exists i h, In (i, h) (its s) /\ prefix_of (hkey h) = q.
Proof.
  split.
  - intro H. destruct (under q (abs (its s))) as [|e r] eqn:U; [congruence|]. assert (IN : In e (under q (abs (its s)))) by (rewrite U; left; reflexivity).
    apply filter_In in IN as [IN E]. apply in_map_iff in IN as ([i h] & <- & IN). exists i, h. split; [exact IN|]. cbn in E. destruct (obeqb_spec (prefix_of (hkey h)) q); congruence.
  - intros (i & h & IN & E) U. assert (IN2 : In (abs1 (i, h)) (under q (abs (its s)))); [|rewrite U in IN2; destruct IN2].
    apply filter_In. split; [apply in_map, IN|]. cbn. rewrite E. destruct (obeqb_spec q q); congruence.
Qed.

(* a line has items exactly if its count is not zero *)
Lemma count_under p x : heap s p = Some x -> p = 0 \/ plinked x = true -> (0 <? tcnt x) = true <-> under (name_of s p) (abs (its s)) <> [].
Proof.
  intros X L. pose proof (good_summary p x X L) as G. apply (f_equal l_cnt) in G. cbn in G. rewrite G. unfold number. rewrite N.ltb_lt.
  destruct (under (name_of s p) (abs (its s))); cbn [length]; split; try congruence; lia.
Qed.

Lemma named p x : heap s p = Some x -> plinked x = true -> name_of s p = Some (pname x) /\ p <> 0.
Proof.
  intros X L. destruct (I_null _ _ _ _ IV) as (z & Z & ZL). assert (p <> 0) by (intros ->; congruence).
  unfold name_of. rewrite X. destruct (N.eqb_spec p 0); [contradiction|]. auto.
Qed.

Lemma linked_used p x : heap s p = Some x -> plinked x = true -> under (Some (pname x)) (abs (its s)) <> [].
Proof.
  intros X L. apply under_in. destruct (named p x X L) as [NM P0]. destruct (I_used _ _ _ _ IV _ _ X L) as [Q|(i & h & IN & P)]; [contradiction|].
  exists i, h. split; [exact IN|]. pose proof (I_items _ _ _ _ IV _ _ IN) as A. rewrite (key_pfx _ _ IN) in A.
  destruct (prefix_of (hkey h)) as [n|].
  - destruct A as (y & Y & _ & YN). rewrite P in Y. congruence.
  - congruence.
Qed.

Lemma in_linked p : In p (linked_ids s) <-> exists x, heap s p = Some x /\ plinked x = true.
Proof.
  unfold linked_ids. rewrite in_flat_map. split.
  - intros (b & B & P). destruct (I_cell _ _ _ _ IV _ _ P) as (x & X & L & _). exists x. auto.
  - intros (x & X & L). exists (pbucket hash (pname x)). split; [apply pbucket_in|]. apply (I_conv _ _ _ _ IV _ _ X L).
Qed.

Lemma linked_nodup : NoDup (linked_ids s).
Proof.
  unfold linked_ids. generalize buckets_nodup. induction buckets as [|b r IH]; intro N; [constructor|]. inversion N; subst. cbn [flat_map].
  assert (Q : NoDup (flat_map (buck s) r)) by auto. revert Q.
  assert (D : forall p, In p (buck s b) -> ~ In p (flat_map (buck s) r)).
  { intros p P Q. apply in_flat_map in Q as (c & C1 & C2). destruct (I_cell _ _ _ _ IV _ _ P) as (x & X & _ & B1).
    destruct (I_cell _ _ _ _ IV _ _ C2) as (y & Y & _ & B2). assert (x = y) by congruence. subst y. rewrite B1 in B2. congruence. }
  revert D. generalize (I_nodup _ _ _ _ IV b). generalize (buck s b). induction l as [|p l IHl]; intros N2 D Q; [exact Q|]. inversion N2; subst. cbn [app].
  constructor; [|apply IHl; auto; intros; apply D; right; assumption]. intro R. apply in_app_iff in R as [R|R]; [contradiction|].
  apply (D p); [left; reflexivity|exact R].
Qed.

Lemma lines_ok l : (forall p, In p l -> exists x, heap s p = Some x /\ plinked x = true) ->
  lines (heap s) l = Some (map (fun p => summary (name_of s p) (abs (its s))) l).
Proof.
  induction l as [|p l IH]; intro H; [reflexivity|]. cbn [lines map]. destruct (H p) as (x & X & L); [left; reflexivity|]. rewrite X, IH.
  - rewrite (good_summary p x X) by auto. reflexivity.
  - intros q Q. apply H. right. exact Q.
Qed.

(* the shown cells *)
Definition null_line : list N := match heap s 0 with Some n => if 0 <? tcnt n then [0] else [] | None => [] end.
Lemma dump_all_ok : dump_all s = Some (map (fun p => summary (name_of s p) (abs (its s))) (null_line ++ linked_ids s)).
Proof.
  unfold dump_all, null_line. destruct (I_null _ _ _ _ IV) as (z & Z & ZL). rewrite Z. rewrite lines_ok by (intros p P; apply in_linked, P).
  destruct (0 <? tcnt z); [|reflexivity]. cbn [app map]. rewrite <- (good_summary 0 z Z) by auto. reflexivity.
Qed.
Lemma shown_names : NoDup (map (name_of s) (null_line ++ linked_ids s)) /\
  forall q, In q (map (name_of s) (null_line ++ linked_ids s)) <-> under q (abs (its s)) <> [].
Proof.
  destruct (I_null _ _ _ _ IV) as (z & Z & ZL).
  assert (NL : forall p, In p (linked_ids s) -> exists x, heap s p = Some x /\ plinked x = true /\ name_of s p = Some (pname x)).
  { intros p P. apply in_linked in P as (x & X & L). exists x. destruct (named p x X L). auto. }
  assert (N0 : name_of s 0 = None) by reflexivity.
  split.
  - rewrite map_app. assert (ND : NoDup (map (name_of s) (linked_ids s))).
    { generalize linked_nodup NL. generalize (linked_ids s). clear - IV. induction l as [|p l IH]; intros N H; [constructor|]. inversion N; subst. cbn [map].
      constructor; [|apply IH; auto; intros q Q; apply H; right; exact Q]. intro Q. apply in_map_iff in Q as (r & R1 & R2).
      destruct (H p) as (x & X & XL & XN); [left; reflexivity|]. destruct (H r) as (y & Y & YL & YN); [right; exact R2|].
      assert (p = r) by (apply (I_names _ _ _ _ IV p r x y X Y XL YL); congruence). subst r. contradiction. }
    unfold null_line. rewrite Z. destruct (0 <? tcnt z); [|exact ND]. cbn [app map]. constructor; [|exact ND].
    intro Q. apply in_map_iff in Q as (p & P1 & P2). destruct (NL p P2) as (x & _ & _ & XN). congruence.
  - intro q. rewrite map_app, in_app_iff. split.
    + intros [Q|Q].
      * unfold null_line in Q. rewrite Z in Q. destruct (0 <? tcnt z) eqn:T; [|destruct Q]. destruct Q as [<-|[]]. apply (count_under 0 z Z); auto.
      * apply in_map_iff in Q as (p & <- & P). destruct (NL p P) as (x & X & XL & XN). rewrite XN. apply (linked_used p); assumption.
    + intro U. pose proof U as U2. apply under_in in U as (i & h & IN & E). pose proof (I_items _ _ _ _ IV _ _ IN) as A. rewrite (key_pfx _ _ IN), E in A.
      destruct q as [n|].
      * right. destruct A as (x & X & L & NM). apply in_map_iff. exists (ptr h). split; [|apply in_linked; exists x; auto].
        destruct (named _ _ X L) as [-> _]. congruence.
      * left. unfold null_line. rewrite Z. replace (0 <? tcnt z) with true by (symmetry; apply (count_under 0 z Z); auto). left. reflexivity.
Qed.

Lemma dump_names_ok ns : dump_names hash s ns =
  Some (flat_map (fun q => match under q (abs (its s)) with [] => [] | _ :: _ => [summary q (abs (its s))] end) ns).
Proof.
  induction ns as [|q ns IH]; [reflexivity|]. cbn [dump_names flat_map]. rewrite IH. destruct q as [n|].
  - destruct (pfind_ok hash 0 s hd n IV) as (r & R & Q). rewrite R. destruct r as [p|].
    + destruct Q as (x & X & L & NM). rewrite X. pose proof (linked_used p x X L) as U. rewrite NM in U.
      rewrite (good_summary p x X) by auto. destruct (named p x X L) as [-> _]. rewrite NM. destruct (under (Some n) (abs (its s))); [congruence|reflexivity].
    + destruct (under (Some n) (abs (its s))) as [|e r] eqn:U; [reflexivity|]. exfalso. assert (U2 : under (Some n) (abs (its s)) <> []) by congruence.
      apply under_in in U2 as (i & h & IN & E). pose proof (I_items _ _ _ _ IV _ _ IN) as A. rewrite (key_pfx _ _ IN), E in A.
      destruct A as (x & X & L & NM). apply (Q (ptr h) x X L NM).
  - destruct (I_null _ _ _ _ IV) as (z & Z & ZL). rewrite Z. pose proof (count_under 0 z Z (or_introl eq_refl)) as C. change (name_of s 0) with (@None bytes) in C.
    destruct (0 <? tcnt z).
    + rewrite (good_summary 0 z Z) by auto. change (name_of s 0) with (@None bytes). destruct C as [C _]. specialize (C eq_refl).
      destruct (under None (abs (its s))); [congruence|reflexivity].
    + destruct (under None (abs (its s))); [reflexivity|]. destruct C as [_ C]. discriminate C. discriminate.
Qed.

Lemma linked_small : N.of_nat (length (linked_ids s)) < 2 ^ 32.
Proof.
  destruct F as (_ & _ & F3). unfold number in F3. rewrite abs_len in F3.
  assert (INC : incl (linked_ids s) (map (fun e => ptr (snd e)) (its s))).
  { intros p P. apply in_linked in P as (x & X & L). destruct (named p x X L) as [_ P0].
    destruct (I_used _ _ _ _ IV _ _ X L) as [Q|(i & h & IN & E)]; [contradiction|]. apply in_map_iff. exists (i, h). auto. }
  apply NoDup_incl_length in INC; [|apply linked_nodup]. rewrite map_length in INC. lia.
Qed.
Lemma count_ok : prefix_count s = Some (N.of_nat (length (null_line ++ linked_ids s))).
Proof.
  unfold prefix_count, null_line. destruct (I_null _ _ _ _ IV) as (z & Z & _). rewrite Z, (I_total _ _ _ _ IV), N.mod_small by apply linked_small.
  destruct (0 <? tcnt z); cbn [app length]; f_equal; lia.
Qed.
End View.
End P.
