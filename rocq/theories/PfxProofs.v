(* The prefix statistics always equal sums over the linked items. *)
From Verif Require Import Base UtilModel KvModel KvSpec KvRefine PfxModel PfxSpec.
Local Open Scope N_scope.

Lemma u64_pos : u64 <> 0. Proof. discriminate. Qed.
Lemma add64 a z : (a mod u64 + z) mod u64 = (a + z) mod u64.
Proof. apply N.add_mod_idemp_l, u64_pos. Qed.
Lemma sub64_add a z : sub64 ((z + a) mod u64) z = a mod u64.
Proof.
  unfold sub64. pose proof (N.mod_upper_bound z u64 u64_pos) as Z.
  pose proof (N.mod_upper_bound (z + a) u64 u64_pos) as Y.
  rewrite (N.add_mod z a) in * by exact u64_pos.
  pose proof (N.mod_upper_bound a u64 u64_pos) as A.
  set (x := z mod u64) in *. set (y := a mod u64) in *. clearbody x y.
  destruct (N.lt_ge_cases (x + y) u64) as [L|G].
  - rewrite (N.mod_small (x + y)) by exact L. replace (x + y + u64 - x) with (y + 1 * u64) by lia.
    rewrite N.mod_add by exact u64_pos. apply N.mod_small. exact A.
  - assert (E : (x + y) mod u64 = x + y - u64).
    { replace (x + y) with ((x + y - u64) + 1 * u64) at 1 by lia. rewrite N.mod_add by exact u64_pos. apply N.mod_small. lia. }
    rewrite E. replace (x + y - u64 + u64 - x) with y by lia. apply N.mod_small. exact A.
Qed.

Lemma ity_eqb_spec a b : reflect (a = b) (ity_eqb a b).
Proof. destruct a, b; constructor; congruence. Qed.
Lemma ity_eqb_refl a : ity_eqb a a = true.
Proof. destruct a; reflexivity. Qed.

(* weighted sums over the linked items *)
Definition tot (f : hitem -> N) (l : list (N * hitem)) : N := fold_right (fun e a => f (snd e) + a) 0 l.

Lemma tot_cons f i h l : tot f ((i, h) :: l) = f h + tot f l.
Proof. reflexivity. Qed.
Lemma idel_id l i : ~ In i (map fst l) -> idel l i = l.
Proof.
  unfold idel. induction l as [|[j h] l IH]; cbn; intro H; [reflexivity|].
  destruct (N.eqb_spec j i) as [E|E]; [exfalso; apply H; left; exact E|]. cbn. f_equal. apply IH. tauto.
Qed.
Lemma iget_in l i h : iget l i = Some h -> In (i, h) l.
Proof.
  induction l as [|[j x] l IH]; cbn; [discriminate|]. destruct (N.eqb_spec j i) as [->|E].
  - injection 1 as ->. left. reflexivity.
  - intro H. right. apply IH, H.
Qed.
Lemma iget_none l i : iget l i = None -> ~ In i (map fst l).
Proof.
  induction l as [|[j x] l IH]; cbn; [tauto|]. destruct (N.eqb_spec j i) as [->|E]; [discriminate|].
  intros H [G|G]; [congruence|]. apply IH in H. tauto.
Qed.
Lemma in_iget l i h : NoDup (map fst l) -> In (i, h) l -> iget l i = Some h.
Proof.
  induction l as [|[j x] l IH]; cbn; intros ND H; [tauto|]. inversion ND; subst. destruct H as [H|H].
  - injection H as -> ->. rewrite N.eqb_refl. reflexivity.
  - destruct (N.eqb_spec j i) as [->|E]; [exfalso; apply H2; change i with (fst (i, h)); apply in_map; exact H|]. apply IH; assumption.
Qed.
Lemma tot_idel f l i h : NoDup (map fst l) -> iget l i = Some h -> tot f l = f h + tot f (idel l i).
Proof.
  induction l as [|[j x] l IH]; cbn; intros ND H; [discriminate|]. inversion ND; subst.
  destruct (N.eqb_spec j i) as [->|E].
  - injection H as ->. cbn. fold (idel l i). rewrite idel_id by assumption. reflexivity.
  - cbn. fold (idel l i). fold (tot f (idel l i)). fold (tot f l). rewrite (IH H3 H). lia.
Qed.
Lemma iset_id l i h : ~ In i (map fst l) -> iset l i h = l.
Proof.
  unfold iset. induction l as [|[j x] l IH]; cbn; intro H; [reflexivity|].
  destruct (N.eqb_spec j i) as [E|E]; [exfalso; apply H; left; exact E|]. f_equal. apply IH. tauto.
Qed.
Lemma tot_iset f l i h h' : NoDup (map fst l) -> iget l i = Some h -> tot f (iset l i h') + f h = tot f l + f h'.
Proof.
  induction l as [|[j x] l IH]; cbn; intros ND H; [discriminate|]. inversion ND; subst.
  destruct (N.eqb_spec j i) as [->|E].
  - injection H as ->. cbn. fold (iset l i h'). rewrite iset_id by assumption. fold (tot f l). lia.
  - cbn. fold (iset l i h'). fold (tot f (iset l i h')). fold (tot f l). pose proof (IH H3 H). lia.
Qed.
Lemma map_fst_iset l i h : map fst (iset l i h) = map fst l.
Proof.
  unfold iset. rewrite map_map. apply map_ext. intros [j x]. cbn. destruct (N.eqb_spec j i) as [->|E]; reflexivity.
Qed.
Lemma in_idel l i e : In e (idel l i) <-> In e l /\ fst e <> i.
Proof. unfold idel. rewrite filter_In, negb_true_iff, N.eqb_neq. tauto. Qed.
Lemma nodup_idel {A} (g : N * hitem -> A) l i : NoDup (map g l) -> NoDup (map g (idel l i)).
Proof.
  unfold idel. induction l as [|e l IH]; cbn; intro ND; [constructor|]. inversion ND; subst.
  destruct (negb (fst e =? i)); cbn; [|auto]. constructor; [|auto].
  intro X. apply H1. apply in_map_iff in X as (y & Ey & Iy). rewrite <- Ey. apply in_map. apply filter_In in Iy. tauto.
Qed.
Lemma in_iset l i h e : NoDup (map fst l) -> In e (iset l i h) -> e = (i, h) \/ In e l /\ fst e <> i.
Proof.
  intros ND H. unfold iset in H. apply in_map_iff in H as (x & E & I). destruct (N.eqb_spec (fst x) i) as [F|F].
  - left. congruence.
  - subst x. right. tauto.
Qed.

(* the counters of prefix cell p as sums *)
Definition at_p (p : N) (h : hitem) : bool := ptr h =? p.
Definition w1 (b : bool) (n : N) : N := if b then n else 0.
Definition good (l : list (N * hitem)) (p : N) (x : pt) : Prop :=
  tcnt x = tot (fun h => w1 (at_p p h) 1) l mod u64 /\
  tbyt x = tot (fun h => w1 (at_p p h) (stotal h)) l mod u64 /\
  (forall t, cnts x t = tot (fun h => w1 (at_p p h && ity_eqb (htype h) t) 1) l mod u64) /\
  (forall t, byts x t = tot (fun h => w1 (at_p p h && ity_eqb (htype h) t) (stotal h)) l mod u64).

Section P.
Variable hash : bytes -> N.
Notation pbucket := (pbucket hash).

Lemma pbucket_lt n : pbucket n < 1024.
Proof.
  unfold PfxModel.pbucket. change 1023 with (N.ones 10). rewrite N.land_ones. apply N.mod_upper_bound. discriminate.
Qed.
Lemma pbucket_in n : In (pbucket n) buckets.
Proof.
  unfold buckets. apply in_map_iff. exists (N.to_nat (pbucket n)). pose proof (pbucket_lt n). split; [lia|]. apply in_seq. lia.
Qed.
Lemma buckets_nodup : NoDup buckets.
Proof.
  unfold buckets. apply FinFun.Injective_map_NoDup; [|apply seq_NoDup]. intros a b. lia.
Qed.

(* e: a prefix that is allowed to have no item *)
Record inv (e : N) (s : pstate) (hd : list N) : Prop := mkInv {
  I_null : exists x, heap s 0 = Some x /\ plinked x = false;
  I_cell : forall b p, In p (buck s b) -> exists x, heap s p = Some x /\ plinked x = true /\ pbucket (pname x) = b;
  I_conv : forall p x, heap s p = Some x -> plinked x = true -> In p (buck s (pbucket (pname x)));
  I_nodup : forall b, NoDup (buck s b);
  I_names : forall p q x y, heap s p = Some x -> heap s q = Some y -> plinked x = true -> plinked y = true ->
            pname x = pname y -> p = q;
  I_good : forall p x, heap s p = Some x -> p = 0 \/ plinked x = true -> good (its s) p x;
  I_items : forall i h, In (i, h) (its s) ->
            match pfx (hkey h) with
            | None => ptr h = 0
            | Some n => exists x, heap s (ptr h) = Some x /\ plinked x = true /\ pname x = n
            end;
  I_used : forall p x, heap s p = Some x -> plinked x = true -> p = e \/ exists i h, In (i, h) (its s) /\ ptr h = p;
  I_fresh : forall p, fresh s <= p -> heap s p = None;
  I_total : total s = N.of_nat (length (linked_ids s)) mod u32;
  I_held : forall p x, heap s p = Some x -> p <> 0 -> pref x = N.of_nat (count_occ N.eq_dec hd p);
  I_alive : forall p, In p hd -> heap s p <> None;
  I_dead : forall p x, heap s p = Some x -> p <> 0 -> plinked x = false -> pref x <> 0;
  I_ids : NoDup (map fst (its s));
  I_keys : NoDup (map (fun e => hkey (snd e)) (its s));
  I_intl : forall p x, heap s p = Some x -> p <> 0 -> pint x = reserved (pname x)
}.

Lemma init_inv : inv 0 pinit [].
Proof.
  constructor; cbn.
  - exists nobody. split; reflexivity.
  - intros b p [].
  - intros p x H. destruct (p =? 0); [|discriminate]. injection H as <-. discriminate.
  - intro. constructor.
  - intros p q x y H _ L. destruct (p =? 0); [|discriminate]. injection H as <-. discriminate.
  - intros p x H _. destruct (p =? 0); [|discriminate]. injection H as <-. repeat split.
  - intros i h [].
  - intros p x H L. destruct (p =? 0); [|discriminate]. injection H as <-. discriminate.
  - intros p H. destruct (N.eqb_spec p 0); [lia|reflexivity].
  - vm_compute. reflexivity.
  - intros p x H N. destruct (N.eqb_spec p 0); [tauto|discriminate].
  - intros p [].
  - intros p x H N. destruct (N.eqb_spec p 0); [tauto|discriminate].
  - constructor.
  - constructor.
  - intros p x H N. destruct (N.eqb_spec p 0); [tauto|discriminate].
Qed.

(* looking a name up *)
Lemma find_chain_ok h n l : (forall p, In p l -> h p <> None) ->
  exists r, find_chain h n l = Some r /\
    match r with
    | Some p => In p l /\ exists x, h p = Some x /\ pname x = n
    | None => forall p x, In p l -> h p = Some x -> pname x <> n
    end.
Proof.
  induction l as [|p l IH]; intro H; cbn.
  - exists None. split; [reflexivity|]. intros p x [].
  - destruct (h p) as [x|] eqn:E; [|exfalso; apply (H p); [left; reflexivity|exact E]].
    destruct (beqb_spec n (pname x)) as [F|F].
    + exists (Some p). split; [reflexivity|]. split; [left; reflexivity|]. exists x. auto.
    + destruct IH as (r & R & S); [intros q Q; apply H; right; exact Q|]. exists r. split; [exact R|].
      destruct r as [q|]; [destruct S; split; [right|]; assumption|].
      intros q y [->|Q] G; [congruence|]. eapply S; eassumption.
Qed.
Lemma pfind_ok e s hd n : inv e s hd -> exists r, pfind hash s n = Some r /\
    match r with
    | Some p => exists x, heap s p = Some x /\ plinked x = true /\ pname x = n
    | None => forall p x, heap s p = Some x -> plinked x = true -> pname x <> n
    end.
Proof.
  intro I. destruct (find_chain_ok (heap s) n (buck s (pbucket n))) as (r & R & S).
  { intros p P. destruct (I_cell _ _ _ I _ _ P) as (x & X & _). congruence. }
  exists r. split; [exact R|]. destruct r as [p|].
  - destruct S as (P & x & X & N). exists x. split; [exact X|]. split; [|exact N].
    destruct (I_cell _ _ _ I _ _ P) as (y & Y & L & _). congruence.
  - intros p x X L N. apply (S p x); [|exact X|exact N]. rewrite <- N. apply (I_conv _ _ _ I); assumption.
Qed.
Lemma pfind_some e s hd p x : inv e s hd -> heap s p = Some x -> plinked x = true -> pfind hash s (pname x) = Some (Some p).
Proof.
  intros I X L. destruct (pfind_ok e s hd (pname x) I) as (r & R & S). rewrite R. f_equal. destruct r as [q|].
  - destruct S as (y & Y & M & E). f_equal. eapply (I_names _ _ _ I); eassumption.
  - exfalso. eapply S; eauto.
Qed.

(* ---- changing the counters of one cell together with the items ---- *)
Definition same_cell (x y : pt) : Prop :=
  pname x = pname y /\ pint x = pint y /\ plinked x = plinked y /\ pref x = pref y.

Lemma inv_cell e e' s hd p x y l g : inv e s hd -> heap s p = Some x -> same_cell x y ->
  (p = 0 \/ plinked x = true -> good l p y) ->
  (forall q z, q <> p -> heap s q = Some z -> q = 0 \/ plinked z = true -> good l q z) ->
  (forall i h, In (i, h) l -> match pfx (hkey h) with
            | None => ptr h = 0
            | Some n => exists x, heap s (ptr h) = Some x /\ plinked x = true /\ pname x = n
            end) ->
  (forall p x, heap s p = Some x -> plinked x = true -> p = e' \/ exists i h, In (i, h) l /\ ptr h = p) ->
  NoDup (map fst l) -> NoDup (map (fun e => hkey (snd e)) l) ->
  inv e' (w_gs (w_its (w_heap s (hset (heap s) p (Some y))) l) g) hd.
Proof.
  intros I X (S1 & S2 & S3 & S4) G G' IT U N1 N2.
  assert (H : forall q z, hset (heap s) p (Some y) q = Some z -> exists z0, heap s q = Some z0 /\ same_cell z0 z /\ (q <> p -> z0 = z)).
  { intros q z. unfold hset. destruct (N.eqb_spec q p) as [->|E].
    - injection 1 as <-. exists x. repeat split; auto. congruence.
    - intro Z. exists z. repeat split; auto. }
  assert (H' : forall q z, heap s q = Some z -> exists z1, hset (heap s) p (Some y) q = Some z1 /\ same_cell z z1).
  { intros q z Z. unfold hset. destruct (N.eqb_spec q p) as [->|E].
    - exists y. assert (z = x) by congruence. subst z. repeat split; auto.
    - exists z. repeat split; auto. }
  constructor; cbn [w_gs w_its w_heap heap buck its fresh total gs].
  - destruct (I_null _ _ _ I) as (z & Z & L). destruct (H' _ _ Z) as (z1 & Z1 & A1 & A2 & A3 & A4). exists z1. split; [exact Z1|congruence].
  - intros b q Q. destruct (I_cell _ _ _ I _ _ Q) as (z & Z & L & B). destruct (H' _ _ Z) as (z1 & Z1 & A1 & A2 & A3 & A4).
    exists z1. split; [exact Z1|]. split; congruence.
  - intros q z Z L. destruct (H _ _ Z) as (z0 & Z0 & (A1 & A2 & A3 & A4) & _). rewrite <- A1. apply (I_conv _ _ _ I); [exact Z0|congruence].
  - apply (I_nodup _ _ _ I).
  - intros q r z1 z2 Z1 Z2 L1 L2 E. destruct (H _ _ Z1) as (a & A & (A1 & A2 & A3 & A4) & _).
    destruct (H _ _ Z2) as (b & B & (B1 & B2 & B3 & B4) & _). eapply (I_names _ _ _ I q r a b); congruence.
  - intros q z Z D. destruct (H _ _ Z) as (z0 & Z0 & (A1 & A2 & A3 & A4) & Eq). destruct (N.eq_dec q p) as [->|E].
    + unfold hset in Z. rewrite N.eqb_refl in Z. injection Z as <-. apply G. assert (z0 = x) by congruence. subst z0.
      destruct D as [D|D]; [left; exact D|right; congruence].
    + rewrite <- (Eq E). apply G'; [exact E|exact Z0|]. rewrite (Eq E). exact D.
  - intros i h Ih. specialize (IT _ _ Ih). destruct (pfx (hkey h)); [|exact IT]. destruct IT as (z & Z & L & N).
    destruct (H' _ _ Z) as (z1 & Z1 & A1 & A2 & A3 & A4). exists z1. split; [exact Z1|]. split; congruence.
  - intros q z Z L. destruct (H _ _ Z) as (z0 & Z0 & (A1 & A2 & A3 & A4) & _). eapply U; [exact Z0|congruence].
  - intros q Q. unfold hset. destruct (N.eqb_spec q p) as [->|E]; [|apply (I_fresh _ _ _ I); exact Q].
    rewrite (I_fresh _ _ _ I) in X by exact Q. discriminate.
  - exact (I_total _ _ _ I).
  - intros q z Z N. destruct (H _ _ Z) as (z0 & Z0 & (A1 & A2 & A3 & A4) & _). rewrite <- A4. eapply (I_held _ _ _ I); eassumption.
  - intros q Q. pose proof (I_alive _ _ _ I _ Q) as A. destruct (heap s q) as [z|] eqn:Z; [|congruence].
    destruct (H' _ _ Z) as (z1 & Z1 & _). congruence.
  - intros q z Z N L. destruct (H _ _ Z) as (z0 & Z0 & (A1 & A2 & A3 & A4) & _). rewrite <- A4. eapply (I_dead _ _ _ I); [exact Z0|exact N|congruence].
  - exact N1.
  - exact N2.
  - intros q z Z N. destruct (H _ _ Z) as (z0 & Z0 & (A1 & A2 & A3 & A4) & _). rewrite <- A1, <- A2. eapply (I_intl _ _ _ I); eassumption.
Qed.

(* ---- goodness after an update ---- *)
Lemma good_other l l' p x : (forall f, (forall h, ptr h <> p -> f h = 0) -> tot f l = tot f l') -> good l p x -> good l' p x.
Proof.
  intros E (A & B & C & D). unfold good, at_p in *. repeat split; intros.
  - rewrite A. f_equal. apply E. intros h N. apply N.eqb_neq in N. rewrite N. reflexivity.
  - rewrite B. f_equal. apply E. intros h N. apply N.eqb_neq in N. rewrite N. reflexivity.
  - rewrite C. f_equal. apply E. intros h N. apply N.eqb_neq in N. rewrite N. reflexivity.
  - rewrite D. f_equal. apply E. intros h N. apply N.eqb_neq in N. rewrite N. reflexivity.
Qed.

Lemma good_link l p x i h : good l p x -> ptr h = p -> stotal h < u32 ->
  good ((i, h) :: l) p (count_incr x (htype h) (stotal h)).
Proof.
  intros (A & B & C & D) P S. unfold good, count_incr, at_p in *. cbn [tcnt tbyt cnts byts].
  rewrite (N.mod_small (stotal h)) by exact S. subst p. setoid_rewrite tot_cons. rewrite N.eqb_refl. cbn [andb w1]. repeat split; intros.
  - rewrite A, add64. f_equal. lia.
  - rewrite B, add64. f_equal. lia.
  - unfold tset. destruct (ity_eqb_spec t (htype h)) as [->|E].
    + rewrite ity_eqb_refl, C, add64. cbn [w1]. f_equal. lia.
    + destruct (ity_eqb_spec (htype h) t); [congruence|]. cbn [w1]. rewrite C. f_equal.
  - unfold tset. destruct (ity_eqb_spec t (htype h)) as [->|E].
    + rewrite ity_eqb_refl, D, add64. cbn [w1]. f_equal. lia.
    + destruct (ity_eqb_spec (htype h) t); [congruence|]. cbn [w1]. rewrite D. f_equal.
Qed.

Lemma good_unlink l p x i h : NoDup (map fst l) -> iget l i = Some h -> good l p x -> ptr h = p -> stotal h < u32 ->
  good (idel l i) p (count_decr x (htype h) (stotal h)).
Proof.
  intros ND IG (A & B & C & D) P S. unfold good, count_decr, at_p in *. cbn [tcnt tbyt cnts byts].
  rewrite (N.mod_small (stotal h)) by exact S.
  pose proof (fun f => tot_idel f _ _ _ ND IG) as Q. rewrite Q in A. rewrite Q in B.
  assert (C' : forall t, cnts x t = (w1 (ity_eqb (htype h) t) 1 + tot (fun h => w1 ((ptr h =? p) && ity_eqb (htype h) t) 1) (idel l i)) mod u64).
  { intro t. rewrite C, Q, P, N.eqb_refl. reflexivity. }
  assert (D' : forall t, byts x t = (w1 (ity_eqb (htype h) t) (stotal h) + tot (fun h => w1 ((ptr h =? p) && ity_eqb (htype h) t) (stotal h)) (idel l i)) mod u64).
  { intro t. rewrite D, Q, P, N.eqb_refl. reflexivity. }
  clear C D. rename C' into C, D' into D. rewrite P, N.eqb_refl in A, B.
  repeat split; intros.
  - rewrite A. cbn [w1]. apply sub64_add.
  - rewrite B. cbn [w1]. apply sub64_add.
  - unfold tset. destruct (ity_eqb_spec t (htype h)) as [->|E]; rewrite C.
    + rewrite ity_eqb_refl. cbn [w1]. apply sub64_add.
    + destruct (ity_eqb_spec (htype h) t); [congruence|]. cbn [w1]. reflexivity.
  - unfold tset. destruct (ity_eqb_spec t (htype h)) as [->|E]; rewrite D.
    + rewrite ity_eqb_refl. cbn [w1]. apply sub64_add.
    + destruct (ity_eqb_spec (htype h) t); [congruence|]. cbn [w1]. reflexivity.
Qed.

(* an item gives way to one of the same prefix and type *)
Lemma good_swap l l' p x h h' : (forall f, tot f l' + f h = tot f l + f h') ->
  good l p x -> ptr h = p -> ptr h' = p -> htype h' = htype h -> stotal h < u32 -> stotal h' < u32 ->
  (stotal h < stotal h' -> good l' p (bytes_incr x (htype h) (stotal h' - stotal h))) /\
  (stotal h' < stotal h -> good l' p (bytes_decr x (htype h) (stotal h - stotal h'))) /\
  (stotal h' = stotal h -> good l' p x).
Proof.
  intros E (A & B & C & D) P P' T S S'. unfold good, at_p in *.
  pose proof (E (fun h => w1 (ptr h =? p) 1)) as E1. pose proof (E (fun h => w1 (ptr h =? p) (stotal h))) as E2.
  pose proof (fun t => E (fun h => w1 ((ptr h =? p) && ity_eqb (htype h) t) 1)) as E3.
  pose proof (fun t => E (fun h => w1 ((ptr h =? p) && ity_eqb (htype h) t) (stotal h))) as E4.
  cbn beta in E1, E2, E3, E4. rewrite P, P' in E1, E2. rewrite N.eqb_refl in E1, E2. cbn [w1] in E1, E2.
  assert (E3a : forall t, tot (fun h : hitem => w1 ((ptr h =? p) && ity_eqb (htype h) t) 1) l' + w1 (ity_eqb (htype h) t) 1 =
                tot (fun h : hitem => w1 ((ptr h =? p) && ity_eqb (htype h) t) 1) l + w1 (ity_eqb (htype h) t) 1).
  { intro t. specialize (E3 t). rewrite P, P', T, N.eqb_refl in E3. exact E3. }
  assert (E4a : forall t, tot (fun h : hitem => w1 ((ptr h =? p) && ity_eqb (htype h) t) (stotal h)) l' + w1 (ity_eqb (htype h) t) (stotal h) =
                tot (fun h : hitem => w1 ((ptr h =? p) && ity_eqb (htype h) t) (stotal h)) l + w1 (ity_eqb (htype h) t) (stotal h')).
  { intro t. specialize (E4 t). rewrite P, P', T, N.eqb_refl in E4. exact E4. }
  clear E3 E4. rename E3a into E3, E4a into E4.
  assert (E3' : forall t, tot (fun h : hitem => w1 ((ptr h =? p) && ity_eqb (htype h) t) 1) l' = tot (fun h : hitem => w1 ((ptr h =? p) && ity_eqb (htype h) t) 1) l).
  { intro t. specialize (E3 t). destruct (ity_eqb (htype h) t); cbn [w1] in E3; lia. }
  assert (E1' : tot (fun h : hitem => w1 (ptr h =? p) 1) l' = tot (fun h : hitem => w1 (ptr h =? p) 1) l) by lia.
  repeat split; intros; cbn [bytes_incr bytes_decr tcnt tbyt cnts byts]; rewrite ?(N.mod_small (_ - _)) by lia;
    rewrite ?E1', ?E3'; auto.
  - rewrite B, add64. f_equal. lia.
  - unfold tset. specialize (E4 t). destruct (ity_eqb_spec t (htype h)) as [->|N].
    + rewrite D, add64. f_equal. rewrite ity_eqb_refl in E4. cbn [w1] in E4. lia.
    + destruct (ity_eqb_spec (htype h) t); [congruence|]. cbn [w1] in E4. rewrite D. f_equal. lia.
  - rewrite B. match goal with |- sub64 (?a mod _) ?z = ?b mod _ => replace a with (z + b) by lia end. apply sub64_add.
  - unfold tset. specialize (E4 t). destruct (ity_eqb_spec t (htype h)) as [->|N].
    + rewrite D. rewrite ity_eqb_refl in E4. cbn [w1] in E4. match goal with |- sub64 (?a mod _) ?z = ?b mod _ => replace a with (z + b) by lia end. apply sub64_add.
    + destruct (ity_eqb_spec (htype h) t); [congruence|]. cbn [w1] in E4. rewrite D. f_equal. lia.
  - rewrite B. f_equal. lia.
  - specialize (E4 t). rewrite D. f_equal. destruct (ity_eqb (htype h) t); cbn [w1] in E4; lia.
Qed.

End P.
