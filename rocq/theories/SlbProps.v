(* C32, C47, C48: memory handed out by the slab allocator. *)
From Verif Require Import Base SlbModel SlbCls SlbSum SlbList SlbBlk SlbOps SlbChunk SlbInv SlbStep SlbSpec SlbRun SlbLay SlbLim.
Open Scope Z_scope.

(* what malloc guarantees: a new area at a multiple of 8, apart from the slabs in use *)
Definition fresh_memory (malloc : Z -> list (Z * Z) -> Z -> option Z) : Prop :=
  forall seed slabs len a, malloc seed slabs len = Some a -> 0 < len ->
    0 < a /\ a mod 8 = 0 /\ (forall x, In x slabs -> a + len <= fst x \/ fst x + snd x <= a).

Section Props.
Variable malloc : Z -> list (Z * Z) -> Z -> option Z.
Hypothesis malloc_ok : fresh_memory malloc.
Variables (w0 : memo) (limit imax : Z) (sizes : list Z) (base : option Z).
Hypothesis Se : settings imax sizes.
Hypothesis Ba : base_ok base.

Definition start := init w0 limit imax sizes base.
Notation Inv := (Inv (icsz imax sizes) (icper imax sizes) (ilg sizes)).

Lemma run_inv ops : exists s live B, run malloc start [] ops = Some (s, live) /\ Inv s B live.
Proof.
  apply (run_ok _ _ _ (init_static imax sizes Se) malloc malloc_ok ops start [] []).
  apply init_inv; assumption.
Qed.

Lemma djA_apart x y : djA x y -> apart x y.
Proof. unfold djA, apart, inside. intros H k. lia. Qed.

Lemma FOP_all l : ForallOrdPairs djA l -> all_apart l.
Proof.
  intros H l1 x l2 y l3 ->. apply djA_apart. clear w0 limit Se Ba malloc_ok. induction l1 as [|z l1 IH]; cbn [app] in H; inversion H as [|? ? A B]; subst.
  - rewrite Forall_forall in A. apply A. apply in_or_app. right. left. reflexivity.
  - apply IH. exact B.
Qed.

Lemma icsz_le i : i <> 0 -> icsz imax sizes i <= imax.
Proof.
  intro N. unfold icsz, init_cls. destruct (Z.eqb_spec i 0); [lia|].
  destruct (nth_error sizes _) as [z|] eqn:E; [|cbn; lia]. apply nth_error_In, (se_sizes _ _ Se) in E.
  destruct (_ <=? _); cbn [c_size]; lia.
Qed.

(* No execution fails an assertion; at every moment the areas handed out and not given back share
   no byte, are at multiples of 8 and lie inside memory obtained from malloc. *)
Theorem C32_no_overlap ops :
  exists s live, run malloc start [] ops = Some (s, live) /\
    in_use (history malloc start [] ops) [] = live /\
    all_apart live /\ all_apart (s_pages s) /\
    (forall x, In x live -> 0 < fst x /\ fst x mod 8 = 0 /\ 0 < snd x <= imax /\
                            exists q, In q (s_pages s) /\ within x q).
Proof.
  destruct (run_inv ops) as (s & live & B & R & I). exists s, live. split; [exact R|].
  split; [apply (history_use malloc ops _ _ _ _ R)|].
  pose proof (init_static imax sizes Se) as ST.
  split; [apply FOP_all, (live_dj _ _ _ ST _ _ _ I)|]. split; [apply FOP_all, (cc_pg _ _ _ _ _ (v_c _ _ _ _ _ _ I))|].
  intros x Hx. destruct (live_page _ _ _ ST _ _ _ x I Hx) as (P1 & P2 & q & Hq & Q1 & Q2).
  destruct (v_lv _ _ _ _ _ _ I x Hx) as [L1 L2].
  split; [exact P1|]. split; [exact P2|]. split.
  - destruct (cid_range _ _ _ ST (snd x)) as [|[_ L3]]; [lia|]. split; [exact L1|]. eapply Z.le_trans; [exact L3|].
    apply icsz_le. lia.
  - exists q. split; [exact Hq|]. unfold within, inside. intros k Hk. lia.
Qed.

(* An area keeps what was written into it since it was handed out, whatever happens elsewhere. *)
Theorem C32_contents ops s live : run malloc start [] ops = Some (s, live) ->
  forall x off w, In x live -> 0 <= off < snd x ->
    last_written (history malloc start [] ops) x off None = Some w ->
    m_w (s_mem s) (fst x + off) = w.
Proof.
  intro R. pose proof (init_static imax sizes Se) as ST.
  apply (history_content _ _ _ ST malloc malloc_ok ops start [] [] (fun _ _ => None) s live); [apply init_inv; assumption| |exact R].
  intros x off w [].
Qed.

Lemma run_inv' ops s live : run malloc start [] ops = Some (s, live) -> exists B, Inv s B live.
Proof. intro R. destruct (run_inv ops) as (s1 & l1 & B & R1 & I). rewrite R in R1. injection R1 as <- <-. exists B. exact I. Qed.

(* The blocks for small areas are divided into pieces: the pieces in use are exactly the small areas
   in use, free neighbours are merged, no block is entirely free; the reported totals are the sums. *)
Theorem C32_layout ops s live : run malloc start [] ops = Some (s, live) ->
  exists L, layout (s_blks s) live L /\
    u_tot (s_u s) = sum (map (fun x => need (snd x)) (filter is_small live)) /\
    u_tot (s_u s) = total used_piece (pieces L) /\
    p_small (s_p s) + p_avail (s_p s) = total free_piece (pieces L) /\
    u_tot (s_u s) + p_small (s_p s) + p_avail (s_p s) = 262112 * Z.of_nat (length (s_blks s)).
Proof.
  intro R. destruct (run_inv' ops s live R) as (B & I). exists (lay B).
  split; [apply (lay_ok _ _ _ s B live I)|]. split; [apply (used_total _ _ _ s B live I)|].
  destruct (totals_ok _ _ _ s B live I) as (T1 & T2 & T3). split; [exact T1|]. split; [exact T2|]. lia.
Qed.

(* number of blocks *)
Lemma blocks_le L live : layout (map fst L) live L -> (length L <= length (filter is_small live))%nat.
Proof.
  intro H. pose proof (Permutation_length (lay_used _ _ _ H)) as E. rewrite map_length in E. refine (Nat.le_trans _ _ _ _ (Nat.eq_le_incl _ _ E)).
  assert (A : forall b, In b L -> exists p, In p (snd b) /\ snd p = true) by apply (lay_some _ _ _ H).
  clear H E Se Ba malloc_ok. induction L as [|b L IH]; [apply Nat.le_0_l|].
  assert (IH' : (length L <= length (used_areas L))%nat) by (apply IH; intros x Hx; apply A; right; exact Hx).
  unfold used_areas in *. cbn [map concat length]. rewrite app_length.
  assert (N : (1 <= length (map (fun x : Z * piece => (fst x, fst (snd x))) (filter (fun x => snd (snd x)) (place (fst b + 32) (snd b)))))%nat).
  { destruct (A b (or_introl eq_refl)) as (p & Hp & Hu). generalize (fst b + 32). induction (snd b) as [|q l IHl]; [destruct Hp|].
    intro a. cbn [place filter snd]. unfold piece in *. destruct (snd q) eqn:E; [cbn [map length]; apply le_n_S, Nat.le_0_l|].
    destruct Hp as [->|Hp]; [congruence|]. apply IHl. exact Hp. }
  exact (Nat.add_le_mono _ _ _ _ N IH').
Qed.

(* Blocks are given back: never more blocks than small areas; none when no small area is in use. *)
Theorem C32_blocks_returned ops s live : run malloc start [] ops = Some (s, live) ->
  (length (s_blks s) <= length (filter is_small live))%nat /\
  (filter is_small live = [] -> s_blks s = [] /\ u_tot (s_u s) = 0 /\ p_small (s_p s) = 0 /\ p_avail (s_p s) = 0).
Proof.
  intro R. destruct (C32_layout ops s live R) as (L & HL & T1 & T2 & T3 & T4).
  pose proof (lay_blocks _ _ _ HL) as EB. assert (Le : (length (s_blks s) <= length (filter is_small live))%nat).
  { rewrite <- EB, map_length. apply blocks_le. rewrite EB. exact HL. }
  split; [exact Le|]. intro E. rewrite E in *. cbn [length map sum] in *.
  assert (E0 : s_blks s = []) by (destruct (s_blks s); [reflexivity|cbn in Le; lia]).
  rewrite E0 in T4. cbn [length] in T4. split; [exact E0|]. split; [exact T1|].
  destruct (run_inv' ops s live R) as (B & I). pose proof (v_s _ _ _ _ _ _ I) as HS. destruct (sv_l _ _ _ _ _ HS) as [FL HLi].
  assert (EB0 : B = []) by (pose proof (v_bl _ _ _ _ _ _ I) as X; rewrite E0 in X; destruct B; [reflexivity|discriminate X]).
  subst B. destruct (li_p _ _ _ _ _ HLi) as [-> ->]. split; reflexivity.
Qed.

Lemma skipn_more (l : list Z) : forall n k, skipn k (skipn n l) = skipn (n + k) l.
Proof.
  intro n. revert l. induction n as [|n IH]; intros l k; [reflexivity|]. destruct l as [|x l]; [rewrite !skipn_nil; reflexivity|apply IH].
Qed.

Lemma first_fit_eq : forall l k res size, 1 <= res -> length l = k -> l = skipn (Z.to_nat (res - 1)) (sizes ++ [imax]) ->
  cloop (icsz imax sizes) (ilg sizes) k size res = first_fit l size res.
Proof.
  induction l as [|z l IH]; intros k res size H1 Hk E; cbn [length] in Hk; subst k; [reflexivity|]. cbn [cloop first_fit].
  assert (Lr : res <= ilg sizes).
  { pose proof (f_equal (@length Z) E) as X. rewrite skipn_length, app_length in X. cbn [length] in X. unfold ilg. lia. }
  assert (Ez : icsz imax sizes res = z).
  { unfold icsz, init_cls. destruct (Z.eqb_spec res 0); [lia|].
    assert (En : nth_error (sizes ++ [imax]) (Z.to_nat (res - 1)) = Some z).
    { rewrite <- (firstn_skipn (Z.to_nat (res - 1)) (sizes ++ [imax])), <- E, nth_error_app2;
        rewrite firstn_length, app_length; cbn [length]; unfold ilg in Lr; [|lia].
      replace (Z.to_nat (res - 1) - Nat.min (Z.to_nat (res - 1)) (length sizes + 1))%nat with 0%nat by lia. reflexivity. }
    unfold ilg in Lr. destruct (Z_le_dec res (Z.of_nat (length sizes))) as [L|L].
    - rewrite nth_error_app1 in En by lia. rewrite En. destruct (Z.leb_spec res (Z.of_nat (length sizes))); [reflexivity|lia].
    - rewrite nth_error_app2 in En by lia. replace (Z.to_nat (res - 1) - length sizes)%nat with 0%nat in En by lia. injection En as <-.
      rewrite (proj2 (nth_error_None sizes (Z.to_nat (res - 1)))) by lia. reflexivity. }
  rewrite Ez. destruct (Z.gtb_spec size z), (Z.leb_spec size z); try lia.
  assert (El : l = skipn (Z.to_nat (res + 1 - 1)) (sizes ++ [imax])).
  { replace (Z.to_nat (res + 1 - 1)) with (Z.to_nat (res - 1) + 1)%nat by lia. rewrite <- skipn_more, <- E. reflexivity. }
  destruct (Z.eqb_spec res (ilg sizes)) as [Er|Nr].
  - destruct l as [|y l]; [reflexivity|]. exfalso. pose proof (f_equal (@length Z) El) as X. rewrite skipn_length, app_length in X.
    cbn [length] in X. unfold ilg in Er. lia.
  - apply IH; [lia|reflexivity|exact El].
Qed.

Lemma cid_class size : 0 < size -> cid (icsz imax sizes) (ilg sizes) size = chunk_class imax sizes size.
Proof.
  intro H. unfold cid, chunk_class. destruct (Z.eqb_spec size 0); [lia|]. apply first_fit_eq; [lia| |reflexivity].
  rewrite app_length. cbn [length]. unfold ilg. lia.
Qed.

Lemma first_fit_some l size : forall i, 1 <= i -> (exists z, In z l /\ size <= z) -> i <= first_fit l size i < i + Z.of_nat (length l).
Proof.
  induction l as [|z l IH]; intros i Hi (y & Hy & L); [destruct Hy|]. cbn [first_fit length]. destruct (Z.leb_spec size z); [lia|].
  destruct Hy as [->|Hy]; [lia|]. assert (X : exists z, In z l /\ size <= z) by (exists y; auto). specialize (IH (i + 1) ltac:(lia) X). lia.
Qed.

Lemma class_some size : size <= imax -> 1 <= chunk_class imax sizes size <= ilg sizes.
Proof.
  intro H. unfold chunk_class. pose proof (first_fit_some (sizes ++ [imax]) size 1 ltac:(lia)) as X.
  rewrite app_length in X. cbn [length] in X. unfold ilg. assert (Y : exists z, In z (sizes ++ [imax]) /\ size <= z).
  { exists imax. split; [apply in_or_app; right; left; reflexivity|exact H]. } specialize (X Y). lia.
Qed.

(* When an allocation of a legal size is refused: no slab can be had for its class, the class has no
   free chunk, and for a small area no free piece is at least twice as long as needed (no free piece
   is as long as needed if at most 1024 bytes are needed). *)
Theorem C32_refused ops s live size seed s' : run malloc start [] ops = Some (s, live) ->
  0 < size <= imax -> slabs_alloc malloc s size seed = Some (s', 0) ->
  let i := if size <=? 49148 then 0 else chunk_class imax sizes size in
  c_slots (s_cls s i) = [] /\ c_endp (s_cls s i) = 0 /\ no_slab malloc s i seed /\
  (size <= 49148 -> exists L, layout (s_blks s) live L /\
     forall p, In p (pieces L) -> snd p = false ->
       fst p < 2 * need size /\ fst p < 49152 /\ (need size <= 1024 -> fst p < need size)).
Proof.
  intros R Hs H. pose proof (init_static imax sizes Se) as ST. destruct (run_inv' ops s live R) as (B & I).
  unfold slabs_alloc in H. rewrite (clsid_eq _ _ _ ST s _ size (v_c _ _ _ _ _ _ I)), (cc_lg _ _ _ _ _ (v_c _ _ _ _ _ _ I)) in H.
  rewrite (cid_class size) in H by lia. pose proof (class_some size ltac:(lia)) as C.
  destruct (Z.ltb_spec (chunk_class imax sizes size) 1); [lia|]. destruct (Z.ltb_spec (ilg sizes) (chunk_class imax sizes size)); [lia|].
  cbn [orb] in H. unfold MAX_SM_VALUE_LEN in H. change (MAXS - 4) with 49148 in H. destruct (Z.leb_spec size 49148) as [L|L]; cbv zeta.
  - destruct (sm_refused _ _ _ ST malloc malloc_ok s B live size seed s' I ltac:(lia) H) as (P & C1 & C2 & N).
    split; [exact C1|]. split; [exact C2|]. split; [exact N|]. intros _. exists (lay B). split; [apply (lay_ok _ _ _ s B live I)|exact P].
  - destruct (chunk_refused _ _ _ ST malloc malloc_ok s _ size (chunk_class imax sizes size) seed s' (v_c _ _ _ _ _ _ I) ltac:(lia) H) as (C1 & C2 & N).
    split; [exact C1|]. split; [exact C2|]. split; [exact N|]. lia.
Qed.

(* C48: every chunk of every slab is in use, on the free list or unused at the end of the last slab,
   and the requested bytes reported for a class are the sum of the sizes in use. *)
Theorem C48_chunks ops s live : run malloc start [] ops = Some (s, live) ->
  (forall i, 1 <= i <= Z.of_nat (length sizes) + 1 ->
     c_slabs (s_cls s i) * c_per (s_cls s i) =
       Z.of_nat (length (filter (large_in imax sizes i) live)) + Z.of_nat (length (c_slots (s_cls s i))) + c_endn (s_cls s i) /\
     c_req (s_cls s i) = sum (map snd (filter (large_in imax sizes i) live))) /\
  c_slabs (s_cls s 0) * c_per (s_cls s 0) =
    Z.of_nat (length (s_blks s)) + Z.of_nat (length (c_slots (s_cls s 0))) + c_endn (s_cls s 0) /\
  c_req (s_cls s 0) = 262144 * Z.of_nat (length (s_blks s)) /\
  s_malloced s = sum (map snd (s_pages s)).
Proof.
  intro R. pose proof (init_static imax sizes Se) as ST. destruct (run_inv' ops s live R) as (B & I). pose proof (v_c _ _ _ _ _ _ I) as C.
  assert (Zs : forall l, zsum l = sum l) by (induction l; cbn [zsum sum]; congruence).
  assert (Cn : forall i, 0 <= i <= ilg sizes -> c_slabs (s_cls s i) * c_per (s_cls s i) =
     Z.of_nat (length (out (icsz imax sizes) (ilg sizes) B live i)) + Z.of_nat (length (c_slots (s_cls s i))) + c_endn (s_cls s i)).
  { intros i Hi. rewrite (cc_per _ _ _ _ _ C i Hi), (cc_cnt _ _ _ _ _ C i Hi). unfold held. rewrite !app_length, endl_len.
    destruct (cc_end _ _ _ _ _ C i Hi) as [[_ E]|[_ E]]; lia. }
  assert (Bg : forall i, 1 <= i -> filter (big (icsz imax sizes) (ilg sizes) i) live = filter (large_in imax sizes i) live).
  { intros i Hi. apply filter_ext_in. intros x Hx. unfold big, large_in. change (small x) with (is_small x).
    rewrite cid_class; [reflexivity|]. apply (v_lv _ _ _ _ _ _ I x Hx). }
  assert (Lb : Z.of_nat (length (s_blks s)) = Z.of_nat (length B)) by (rewrite (v_bl _ _ _ _ _ _ I), map_length; reflexivity).
  split; [|split; [|split]].
  - intros i Hi. fold (ilg sizes) in Hi. rewrite (Cn i) by lia. rewrite (v_req _ _ _ _ _ _ I i) by lia. unfold out.
    destruct (Z.eqb_spec i 0); [lia|]. rewrite (Bg i) by lia. rewrite map_length, Zs. auto.
  - rewrite (Cn 0) by (unfold ilg; lia). unfold out. cbn [Z.eqb]. rewrite map_length, Lb. reflexivity.
  - rewrite (v_req _ _ _ _ _ _ I 0) by (unfold ilg; lia). cbn [Z.eqb]. rewrite Lb. reflexivity.
  - rewrite (cc_mal _ _ _ _ _ C). apply Zs.
Qed.

(* C47 *)
Lemma reserve_eq per : 1 <= per -> rsvd_of per = reserve per.
Proof.
  intro H. unfold rsvd_of, reserve. destruct (Z.ltb_spec (per * 4) 6).
  - assert (per = 1) by lia. subst. reflexivity.
  - assert ((6 + per - 1) / per <= 4); [|lia]. apply Z.div_le_upper_bound; lia.
Qed.

Lemma start_lim : 0 <= limit -> LimInv start.
Proof.
  intro H0. pose proof (init_static imax sizes Se) as ST.
  assert (A : forall i, 0 <= i <= s_largest start -> 0 <= c_slabs (s_cls start i) /\ 0 <= c_rsvd (s_cls start i) /\ 0 <= slab_len start i).
  { intros i Hi. unfold start in *. cbn [init s_cls s_largest] in *. destruct (init_plain imax sizes i) as (_ & _ & _ & -> & _).
    split; [lia|]. split.
    + unfold init_cls. destruct (i =? 0); [cbn; lia|].
      assert (P : forall z, 0 <= rsvd_of (imax / z) \/ ~ In z sizes).
      { intro z. destruct (in_dec Z.eq_dec z sizes) as [Hz|Hz]; [left|right; exact Hz].
        pose proof (se_sizes _ _ Se z Hz). rewrite reserve_eq; [unfold reserve; lia|]. apply Z.div_le_lower_bound; lia. }
      destruct (nth_error sizes (Z.to_nat (i - 1))) as [z|] eqn:E; [|cbn; lia]. apply nth_error_In in E.
      destruct (i <=? _); cbn [c_rsvd]; [destruct (P z); [assumption|contradiction]|lia].
    + unfold slab_len, start. cbn [init s_cls]. pose proof (st_sz _ _ _ ST i Hi). pose proof (st_per _ _ _ ST i Hi). unfold icsz, icper in *. nia. }
  split; [exact A|cbn; lia|].
  exists 0. split; [unfold start; cbn; lia|]. split; [left; reflexivity|]. right.
  change (s_malloced start) with 0. change (s_memlimit start) with limit.
  change (c_slabs (s_cls start 0)) with 0. change (c_rsvd (s_cls start 0)) with 0. cbn [Z.min Z.max Z.sub Z.compare Z.mul].
  rewrite (sum_ext (beyond start) (fun _ => 0)).
  - assert (E : forall l : list Z, sum (map (fun _ => 0) l) = 0) by (induction l; cbn [map sum]; lia). rewrite E. lia.
  - intros i Hi. apply ids_in in Hi. destruct (A i ltac:(lia)) as (_ & X & _). unfold beyond.
    replace (c_slabs (s_cls start i)) with 0; [rewrite Z.min_l by exact X; reflexivity|].
    unfold start. cbn [init s_cls]. destruct (init_plain imax sizes i) as (_ & _ & _ & -> & _). reflexivity.
Qed.

Definition top_up (i : Z) : Z := c_rsvd (init_cls imax sizes i) * (c_size (init_cls imax sizes i) * c_per (init_cls imax sizes i)).

Lemma top_up_sum : forall post pre, sizes = pre ++ post ->
  sum (map top_up (map Z.of_nat (seq (S (length pre)) (length post)))) =
  sum (map (fun z => reserve (imax / z) * (z * (imax / z))) post).
Proof.
  induction post as [|z post IH]; intros pre E; [reflexivity|]. cbn [length seq map sum].
  assert (E' : sizes = (pre ++ [z]) ++ post) by (rewrite <- app_assoc; exact E).
  specialize (IH (pre ++ [z]) E'). rewrite app_length in IH. cbn [length] in IH. rewrite Nat.add_1_r in IH. rewrite IH. f_equal.
  unfold top_up, init_cls. destruct (Z.eqb_spec (Z.of_nat (S (length pre))) 0); [lia|].
  replace (Z.to_nat (Z.of_nat (S (length pre)) - 1)) with (length pre) by lia.
  assert (En : nth_error sizes (length pre) = Some z) by (rewrite E, nth_error_app2, Nat.sub_diag by lia; reflexivity). rewrite En.
  destruct (Z.leb_spec (Z.of_nat (S (length pre))) (Z.of_nat (length sizes))) as [L|L].
  - cbn [c_rsvd c_size c_per]. rewrite reserve_eq; [reflexivity|].
    assert (Hz : In z sizes) by (rewrite E; apply in_or_app; right; left; reflexivity).
    pose proof (se_sizes _ _ Se z Hz). apply Z.div_le_lower_bound; lia.
  - rewrite E, app_length in L. cbn [length] in L. lia.
Qed.

Lemma top_up_all : sum (map top_up (ids start)) = extra imax sizes.
Proof.
  unfold ids, start. cbn [init s_largest]. replace (Z.to_nat (Z.of_nat (length sizes) + 1)) with (S (length sizes)) by lia.
  rewrite seq_S, !map_app.
  assert (Sa : forall a b : list Z, sum (a ++ b) = sum a + sum b) by (induction a; intro b; cbn [app sum]; [lia|rewrite IHa; lia]).
  rewrite Sa. unfold extra. f_equal; [apply (top_up_sum sizes []); reflexivity|].
  cbn [map sum]. unfold top_up, init_cls. destruct (Z.eqb_spec (Z.of_nat (1 + length sizes)) 0); [lia|].
  rewrite (proj2 (nth_error_None sizes (Z.to_nat (Z.of_nat (1 + length sizes) - 1)))) by lia. cbn [c_rsvd c_size c_per]. lia.
Qed.

Lemma start_own : OwnInv limit (match base with Some _ => true | None => false end) start \/ limit < 0.
Proof.
  destruct (Z_lt_dec limit 0); [right; assumption|left]. pose proof (init_static imax sizes Se) as ST. split.
  - reflexivity.
  - intro i. unfold slab_len, start. cbn [init s_cls]. destruct (Z_le_dec 0 i), (Z_le_dec i (ilg sizes)).
    + pose proof (st_sz _ _ _ ST i ltac:(lia)). pose proof (st_per _ _ _ ST i ltac:(lia)). unfold icsz, icper in *. nia.
    + unfold ilg in *. unfold init_cls. destruct (Z.eqb_spec i 0); [lia|]. rewrite (proj2 (nth_error_None sizes (Z.to_nat (i - 1)))) by lia.
      cbn [c_size c_per]. pose proof (se_imax _ _ Se). lia.
    + assert (P : forall z, In z sizes -> 0 <= z * (imax / z)).
      { intros z Hz. pose proof (se_sizes _ _ Se z Hz). assert (0 <= imax / z) by (apply Z.div_pos; lia). nia. }
      unfold init_cls. destruct (Z.eqb_spec i 0); [lia|]. destruct (nth_error sizes (Z.to_nat (i - 1))) as [z|] eqn:E.
      * apply nth_error_In in E. specialize (P z E). pose proof (se_imax _ _ Se). destruct (i <=? _); cbn [c_size c_per]; lia.
      * cbn [c_size c_per]. pose proof (se_imax _ _ Se). lia.
    + unfold ilg in *. lia.
  - unfold arena_ok, start. cbn [init s_arena s_malloced]. destruct base; [lia|reflexivity].
Qed.

(* The slabs take at most the memory limit, plus the reserve of each class of larger areas, plus for
   the blocks of small areas 4 slabs or 5 percent of the slabs they have (0 stands for no limit). *)
Theorem C47_limit ops s live : 0 <= limit -> run malloc start [] ops = Some (s, live) ->
  s_memlimit s = 0 \/
  s_malloced s <= s_memlimit s + extra imax sizes +
    Z.max 4 (c_slabs (s_cls s 0) / 100 * 5) * (262144 * (imax / 262144)).
Proof.
  intros H0 R. assert (Hl : 0 <= s_largest start) by (unfold start; cbn [init s_largest]; lia).
  destruct (lim_run malloc ops _ _ _ _ (start_lim H0) Hl R) as [[A B (b & C1 & C2 & C3)] Lg].
  destruct start_own as [O|O]; [|lia]. destruct (own_run malloc limit _ ops _ _ _ _ O Hl R) as [_ (_ & _ & F)].
  destruct C3 as [C3|C3]; [left; exact C3|right].
  assert (S1 : sum (map (beyond s) (ids s)) <= extra imax sizes).
  { rewrite <- top_up_all. replace (ids s) with (ids start) by (unfold ids; rewrite Lg; reflexivity).
    apply sum_le. intros i Hi. apply ids_in in Hi. destruct (F i) as [F1 F2]. destruct (A i ltac:(lia)) as (X1 & X2 & X3).
    unfold beyond. rewrite F1, F2 in * by lia. change (top_up i) with (c_rsvd (s_cls start i) * slab_len start i). nia. }
  assert (E0 : slab_len s 0 = 262144 * (imax / 262144)) by (destruct (F 0) as [-> _]; reflexivity).
  destruct (A 0 ltac:(lia)) as (X1 & X2 & X3). rewrite E0 in C3, X3. set (len := 262144 * (imax / 262144)) in *.
  assert (Sh : Z.max 0 (Z.min (c_slabs (s_cls s 0)) (c_rsvd (s_cls s 0)) - b) <= Z.max 4 (c_slabs (s_cls s 0) / 100 * 5)).
  { assert (b / 100 <= c_slabs (s_cls s 0) / 100) by (apply Z.div_le_mono; lia).
    unfold share in C2. destruct C2 as [C2|C2]; rewrite C2; lia. }
  clearbody len. clear F. nia.
Qed.

(* so at most about 5 percent and a fixed amount more than the limit *)
Theorem C47_limit_total ops s live : 0 <= limit -> run malloc start [] ops = Some (s, live) ->
  s_memlimit s = 0 \/ 19 * s_malloced s <= 20 * (s_memlimit s + extra imax sizes + 4 * imax).
Proof.
  intros H0 R. assert (Hl : 0 <= s_largest start) by (unfold start; cbn [init s_largest]; lia).
  destruct (C47_limit ops s live H0 R) as [C|C]; [left; exact C|right].
  destruct start_own as [O|O]; [|lia]. destruct (own_run malloc limit _ ops _ _ _ _ O Hl R) as [[O1 O2 _] (_ & _ & F)].
  destruct (lim_run malloc ops _ _ _ _ (start_lim H0) Hl R) as [[A _ _] Lg]. destruct (A 0 ltac:(lia)) as (X1 & _ & X3).
  assert (E0 : slab_len s 0 = 262144 * (imax / 262144)) by (destruct (F 0) as [-> _]; reflexivity). rewrite E0 in O1, X3.
  assert (Li : 262144 * (imax / 262144) <= imax) by (apply Z.mul_div_le; lia).
  set (len := 262144 * (imax / 262144)) in *. clearbody len.
  set (n := c_slabs (s_cls s 0)) in *. clearbody n.
  assert (E : 20 * (Z.max 4 (n / 100 * 5) * len) <= 80 * len + n * len).
  { assert (20 * Z.max 4 (n / 100 * 5) <= 80 + n); [|nia]. pose proof (Z.mul_div_le n 100 ltac:(lia)). lia. }
  lia.
Qed.

(* With the memory taken at the start, the slabs never take more than that. *)
Theorem C47_preallocated ops s live b : 0 <= limit -> base = Some b -> run malloc start [] ops = Some (s, live) ->
  s_malloced s <= limit.
Proof.
  intros H0 Hb R. assert (Hl : 0 <= s_largest start) by (unfold start; cbn [init s_largest]; lia).
  destruct start_own as [O|O]; [|lia]. destruct (own_run malloc limit _ ops _ _ _ _ O Hl R) as [[_ _ O3] _].
  unfold arena_ok in O3. rewrite Hb in O3. destruct (s_arena s) as [[cur avail]|] eqn:Ea; [lia|discriminate O3].
Qed.
End Props.

(* ------------------------------------------------------------------ concrete cases *)

(* a malloc: the next multiple of 8 with room for a header *)
Fixpoint top_end (l : list (Z * Z)) : Z :=
  match l with [] => 0 | x :: r => Z.max (fst x + snd x) (top_end r) end.
Definition bump (_ : Z) (slabs : list (Z * Z)) (_ : Z) : option Z := Some (16 + 8 * ((top_end slabs + 7) / 8)).

Lemma top_end_pos l : 0 <= top_end l.
Proof. induction l; cbn [top_end]; lia. Qed.
Example bump_ok : fresh_memory bump.
Proof.
  intros seed slabs len a H Hl. unfold bump in H.
  assert (E : a = 16 + 8 * ((top_end slabs + 7) / 8)) by congruence. subst a. clear H.
  pose proof (top_end_pos slabs). pose proof (Z.div_mod (top_end slabs + 7) 8 ltac:(lia)).
  pose proof (Z.mod_pos_bound (top_end slabs + 7) 8 ltac:(lia)).
  split; [lia|]. split; [replace (16 + _) with ((2 + (top_end slabs + 7) / 8) * 8) by lia; apply Z_mod_mult|]. intros x Hx. right.
  assert (fst x + snd x <= top_end slabs); [|lia]. clear -Hx. induction slabs as [|y l IH]; [destruct Hx|].
  cbn [top_end] in *. pose proof (top_end_pos l). destruct Hx as [->|Hx]; [lia|]. specialize (IH Hx). lia.
Qed.

Definition ex_sizes : list Z := [256; 65536; 524288].
Example ex_settings : settings 1048576 ex_sizes.
Proof. split; [lia|]. intros z [<-|[<-|[<-|[]]]]; (split; [lia|reflexivity]). Qed.
Definition mem0 : memo := mkM (fun _ => (7, 7)) (fun _ => 99) (fun _ => 99).
Definition ex_start : st := start mem0 67108864 1048576 ex_sizes None.
Definition ex_ops : list op :=
  [OAlloc 100 0; OAlloc 60000 0; OAlloc 5000 0; OAlloc 49148 0; OWrite 48 100 8 (5, 6) 1;
   OFree 152 5000 (0, 0); OAlloc 30 0; OAlloc 60000 0; OFree 49312 0 (0, 0); OLimit 134217728].

Definition view (r : option (st * list (Z * Z))) : option (list (Z * Z) * list Z * (Z * Z * Z * Z)) :=
  match r with
  | Some (s, live) => Some (live, s_blks s, (u_tot (s_u s), p_small (s_p s), p_avail (s_p s), s_malloced s))
  | None => None
  end.
Example C32_run_case :
  view (run bump ex_start [] ex_ops) =
  Some ([(1114144, 60000); (152, 30); (5160, 49148); (1048608, 60000); (48, 100)], [16], (49296, 4968, 207848, 2097152)) /\
  history bump ex_start [] ex_ops =
  [Got 48 100; Got 1048608 60000; Got 152 5000; Got 5160 49148; Wrote 48 100 8 (5, 6); Gave 152 5000; Got 152 30;
   Got 1114144 60000; Nothing; Nothing].
Proof. split; vm_compute; reflexivity. Qed.
Example C32_contents_case : last_written (history bump ex_start [] ex_ops) (48, 100) 8 None = Some (5, 6).
Proof. vm_compute. reflexivity. Qed.

(* a refusal: one megabyte is taken at the start, and the blocks have it *)
Definition pre_start : st := start mem0 1048576 1048576 ex_sizes (Some 4096).
Example C32_refused_case :
  match run bump pre_start [] [OAlloc 100 0] with
  | Some (s, _) => option_map snd (slabs_alloc bump s 600000 0) = Some 0 /\ option_map snd (slabs_alloc bump s 49148 0) = Some 4232
  | None => False
  end.
Proof. vm_compute. auto. Qed.
Example C47_reserve_case : extra 1048576 ex_sizes = 16777216 + 2097152 /\ 0 <= 67108864.
Proof. vm_compute. split; [reflexivity|discriminate]. Qed.
(* beyond the limit: with a limit of 1 MB two areas of a class are still served from its reserve *)
Example C47_beyond_case :
  match run bump (start mem0 1048576 1048576 ex_sizes None) [] [OAlloc 600000 0; OAlloc 600000 0; OAlloc 100 0] with
  | Some (s, live) => s_malloced s = 3145728 /\ length live = 3%nat
  | None => False
  end.
Proof. vm_compute. auto. Qed.

(* The server accepts item_size_max from 20 KB (memcached.c 15837), but the blocks for small areas
   have 256 KB: below that, a slab of blocks has no block at all (slabs.c 357), do_slabs_newslab
   obtains an area of length 0 and do_slabs_alloc hands out 256 KB at its address.  The areas
   handed out are then outside of the memory obtained from malloc and overlap. *)
Theorem C32_small_item_size_max_refuted :
  exists imax, 20480 <= imax /\
  (exists s live x, run bump (start mem0 67108864 imax [] None) [] [OAlloc 100 0] = Some (s, live) /\ In x live /\
     forall q, In q (s_pages s) -> ~ within x q) /\
  (exists s live, run bump (start mem0 67108864 imax [] None) [] [OAlloc 100 0; OAlloc 100000 0] = Some (s, live) /\
     ~ all_apart live).
Proof.
  exists 131072. split; [lia|]. split.
  - destruct (run bump (start mem0 67108864 131072 [] None) [] [OAlloc 100 0]) as [[s live]|] eqn:E.
    + assert (V : (live, s_pages s) = ([(48, 100)], [(16, 0)])).
      { pose proof (f_equal (option_map (fun r => (snd r, s_pages (fst r)))) E) as X. cbn [option_map fst snd] in X.
        vm_compute in X. injection X as -> ->. reflexivity. }
      injection V as -> V. exists s, [(48, 100)], (48, 100). split; [reflexivity|]. split; [left; reflexivity|].
      rewrite V. intros q [<-|[]] W. specialize (W 48). unfold inside in W. cbn [fst snd] in W. lia.
    + pose proof (f_equal (option_map (fun r => snd r)) E) as X. vm_compute in X. discriminate X.
  - destruct (run bump (start mem0 67108864 131072 [] None) [] [OAlloc 100 0; OAlloc 100000 0]) as [[s live]|] eqn:E.
    + assert (V : live = [(32, 100000); (48, 100)]).
      { pose proof (f_equal (option_map (fun r => snd r)) E) as X. cbn [option_map snd] in X. vm_compute in X. injection X as ->. reflexivity. }
      exists s, live. split; [reflexivity|]. rewrite V. intro A.
      specialize (A [] (32, 100000) [] (48, 100) [] eq_refl). apply (A 48). unfold inside. cbn [fst snd]. lia.
    + pose proof (f_equal (option_map (fun r => snd r)) E) as X. vm_compute in X. discriminate X.
Qed.

Print Assumptions C32_no_overlap.
Print Assumptions C32_contents.
Print Assumptions C32_layout.
Print Assumptions C32_blocks_returned.
Print Assumptions C32_refused.
Print Assumptions C47_limit.
Print Assumptions C47_limit_total.
Print Assumptions C47_preallocated.
Print Assumptions C48_chunks.
Print Assumptions C32_small_item_size_max_refuted.
