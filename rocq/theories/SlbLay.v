(* The layout of the blocks, the totals, and when an allocation is refused. *)
From Verif Require Import Base SlbModel SlbCls SlbSum SlbList SlbBlk SlbOps SlbChunk SlbInv SlbStep SlbSpec SlbRun.
Open Scope Z_scope.

Lemma need_eq size : need size = slen_of size.
Proof.
  unfold need, slen_of. change MINS with 32. destruct (Z.ltb_spec (((size + 4 - 1) / 8 + 1) * 8) 32); lia.
Qed.

Lemma memid_exact n len : 0 <= n <= 1024 -> n mod 8 = 0 -> n <= len -> memid n true <= memid len false.
Proof.
  intros H1 H3 H2. rewrite !memid_eq. unfold cdiv. cbn [andb].
  memid_cases; try lia;
    match goal with |- context [?x mod ?u =? 0] => destruct (Z.eqb_spec (x mod u) 0) end;
    cbn [negb]; lia.
Qed.

Lemma memid_mono a b : 0 <= a <= b -> memid a false <= memid b false.
Proof. intros H. rewrite !memid_eq. unfold cdiv. cbn [andb]. memid_cases; lia. Qed.

Lemma memid_double n len : 32 <= n <= 49152 -> n mod 8 = 0 -> (2 * n <= len \/ 49152 <= len) -> memid n true <= memid len false.
Proof.
  intros H1 H2 [H|H].
  - pose proof (memid_twice n H1 H2). pose proof (memid_mono (n * 2) len ltac:(lia)). lia.
  - apply memid_big in H. pose proof (memid_range n true ltac:(lia)). lia.
Qed.

(* ---- the class chosen has a free slot if any class that fits has one *)
Lemma find_full m f FL l pc ssl slen c : FInv m f FL l -> (forall x, In x l -> geo1 x) ->
  32 <= slen <= 49152 -> slen mod 8 = 0 ->
  find_class f pc ssl slen (memid slen true) = Some c -> fl_head (f_sl f c) = 0 ->
  forall g, In g l -> g_u g = false -> 32 <= g_l g -> fcls g < memid slen true.
Proof.
  intros I G H1 H2 Hc H0 g Hg Hu Hl. set (targ := memid slen true) in *.
  assert (Hf : FL (fcls g) <> []).
  { intro E. assert (X : In (g_a g) (FL (fcls g))).
    { apply (fi_in _ _ _ _ I). exists g. split; [exact Hg|]. unfold lnk. rewrite Hu. cbn [negb andb].
      split; [apply Z.leb_le; exact Hl|auto]. }
    rewrite E in X. destruct X. }
  destruct (proj2 (FL_empty m f FL l (fcls g) I G) Hf) as (Hh & _ & Hcn & _).
  rewrite (fi_count _ _ _ _ I) in Hcn.
  assert (Rg : 0 <= fcls g <= 708) by (apply memid_range; lia).
  unfold find_class in Hc. set (full := fun i => negb (fl_head (f_sl f i) =? 0)) in *.
  assert (Nf : full c = false) by (unfold full; rewrite H0; reflexivity).
  destruct (Z.gtb_spec targ (f_max f)) as [L|L].
  { assert (Ec : c = 708) by (rewrite NCLS_eq in Hc; inversion Hc; reflexivity). rewrite Ec in H0.
    destruct (Z.eq_dec (fcls g) 708) as [E|E]; [rewrite E in Hh; contradiction|].
    pose proof (b_in _ _ _ _ (fi_bnd _ _ _ _ I) (fcls g)) as X.
    specialize (X ltac:(apply andb_true_iff; split; apply Z.ltb_lt; lia)). lia. }
  exfalso.
  assert (Fm : full (f_max f) = true).
  { pose proof (memid_range slen true ltac:(lia)) as R. fold targ in R.
    pose proof (fi_bnd _ _ _ _ I) as B. destruct (b_at _ _ _ _ B) as [[_ X]|[_ X]]; [lia|].
    apply andb_true_iff in X as [X _]. apply Z.ltb_lt in X.
    destruct (FL_empty m f FL l (f_max f) I G) as [_ Y].
    pose proof (fi_len _ _ _ _ I (f_max f)).
    destruct Y as [Y _]; [intros E; rewrite E in *; cbn in *; lia|].
    unfold full. apply Z.eqb_neq in Y. rewrite Y. reflexivity. }
  assert (Up : forall n, (if n >? f_max f then Some (f_max f)
     else let r := scan_up (Z.to_nat (f_max f - n + 1)) n full in
          if r <=? f_max f then Some r else None) = Some c -> False).
  { intro n. destruct (Z.gtb_spec n (f_max f)); [intro E; injection E as <-; congruence|].
    cbv zeta. destruct (scan_up_spec _ _ _ _ (eq_refl (scan_up (Z.to_nat (f_max f - n + 1)) n full))) as (S1 & S2 & S3).
    set (r := scan_up (Z.to_nat (f_max f - n + 1)) n full) in *.
    destruct (Z.leb_spec r (f_max f)); intro E; [|discriminate E]. injection E as <-. rewrite S3 in Nf by lia. discriminate. }
  change (negb (fl_head (f_sl f targ) =? 0)) with (full targ) in Hc.
  destruct (full targ) eqn:Ft; [injection Hc as <-; congruence|].
  destruct (Z.geb_spec targ pc); [apply (Up _ Hc)|].
  cbv zeta in Hc. destruct (Z.gtb_spec ssl 0); [|apply (Up _ Hc)].
  match type of Hc with (if ?r >? targ then _ else _) = _ => set (r0 := r) in *; assert (Er : r = r0) by reflexivity end.
  apply scan_down_spec in Er as (S1 & S2 & S3).
  destruct (Z.gtb_spec r0 targ); [|apply (Up _ Hc)].
  injection Hc as <-. rewrite S3 in Nf by lia. discriminate.
Qed.

(* ---- from slots to pieces *)
Definition pc (g : gs) : piece := (g_l g, g_u g).
Definition lay (B : list blk) : list block := map (fun b => (fst b, map pc (snd b))) B.

Lemma place_tile b e : forall l a, tile b a e l ->
  place a (map pc l) = map (fun g => (g_a g, pc g)) l /\ total (fun _ => true) (map pc l) = e - a.
Proof.
  induction l as [|g l IH]; intros a H; cbn [tile] in H.
  - subst. split; [reflexivity|]. cbn. lia.
  - destruct H as (_ & <- & _ & H). destruct (IH _ H) as [E1 E2]. cbn [map place total pc fst]. change (fst (pc g)) with (g_l g).
    rewrite E1. split; [reflexivity|]. rewrite E2. lia.
Qed.

Lemma total_app f a b : total f (a ++ b) = total f a + total f b.
Proof. induction a as [|x a IH]; cbn [app total]; lia. Qed.

Lemma pieces_lay B : pieces (lay B) = map pc (slots B).
Proof.
  unfold pieces, lay, slots. rewrite map_map. cbn [snd]. rewrite concat_map, map_map. reflexivity.
Qed.

Lemma total_used l : total used_piece (map pc l) = utot l.
Proof. induction l as [|g l IH]; [reflexivity|]. cbn [map total]. unfold utot in *. cbn [wsum]. rewrite IH. reflexivity. Qed.

Lemma total_free c l : posl l -> total free_piece (map pc l) = fsm c l + fav c l.
Proof.
  induction l as [|g l IH]; intro P; [reflexivity|]. cbn [map total]. unfold fsm, fav in *. cbn [wsum]. rewrite IH.
  - unfold free_piece, pc, iff, lnk. cbn [fst snd]. destruct (g_u g); cbn [negb andb]; [lia|].
    destruct (Z.ltb_spec (g_l g) 32), (Z.leb_spec 32 (g_l g)); cbn [orb andb]; try lia.
    destruct (Z.ltb_spec (fcls g) c), (Z.leb_spec c (fcls g)); lia.
  - intros x Hx. apply P. right. exact Hx.
Qed.

Lemma total_all l : total used_piece l + total free_piece l = total (fun _ => true) l.
Proof. induction l as [|p l IH]; [reflexivity|]. cbn [total]. unfold used_piece at 1, free_piece at 1. destruct (snd p); cbn [negb]; lia. Qed.

Lemma total_blocks B : Forall BI B -> total (fun _ => true) (map pc (slots B)) = 262112 * Z.of_nat (length B).
Proof.
  induction 1 as [|b B H HB IH]; [reflexivity|]. rewrite slots_cons, map_app, total_app, IH.
  rewrite (proj2 (place_tile _ _ _ _ (bi_t _ H))). cbn [length]. lia.
Qed.

Lemma used_areas_lay B : Forall BI B -> used_areas (lay B) = map sla (U (slots B)).
Proof.
  induction 1 as [|b B H HB IH]; [reflexivity|]. unfold used_areas in *. cbn [lay map concat].
  change (map (fun b => (fst b, map pc (snd b))) B) with (lay B). rewrite IH. cbn [fst snd].
  rewrite (proj1 (place_tile _ _ _ _ (bi_t _ H))), slots_cons, U_app, map_app. f_equal.
  unfold U. induction (snd b) as [|g l IHl]; [reflexivity|]. cbn [map filter]. unfold pc at 1. cbn [snd].
  destruct (g_u g); cbn [map]; rewrite IHl; reflexivity.
Qed.

Lemma noff_merged l : noff l -> forall l1 p q l2, map pc l = l1 ++ p :: q :: l2 -> snd p = true \/ snd q = true.
Proof.
  induction l as [|g l IH]; intros H l1 p q l2 E; [destruct l1; discriminate E|].
  destruct l1 as [|x l1]; cbn [map app] in E.
  - injection E as <- E. destruct l as [|h l]; [discriminate E|]. injection E as <- _. cbn [noff] in H. destruct H as [H _]. exact H.
  - injection E as _ E. destruct H as [_ H]. apply (IH H l1 p q l2 E).
Qed.

Section Lay.
Variables csz cper : Z -> Z.
Variable lg : Z.
Hypothesis ST : static csz cper lg.
Notation Inv := (Inv csz cper lg).

Lemma lay_ok s B live : Inv s B live -> layout (s_blks s) live (lay B).
Proof.
  intros I. pose proof (v_s _ _ _ _ _ _ I) as HS. pose proof (sv_b _ _ _ _ _ HS) as HB. destruct (sv_l _ _ _ _ _ HS) as [FL HL].
  assert (In_lay : forall b, In b (lay B) -> exists b', In b' B /\ b = (fst b', map pc (snd b')) /\ BI b').
  { intros b Hb. unfold lay in Hb. apply in_map_iff in Hb as (b' & <- & Hb'). exists b'. split; [exact Hb'|]. split; [reflexivity|].
    rewrite Forall_forall in HB. apply HB. exact Hb'. }
  split.
  - unfold lay. rewrite map_map. cbn [fst]. symmetry. apply (v_bl _ _ _ _ _ _ I).
  - intros b Hb. destruct (In_lay b Hb) as (b' & _ & -> & X). cbn [snd]. rewrite (proj2 (place_tile _ _ _ _ (bi_t _ X))). lia.
  - intros b p Hb Hp. destruct (In_lay b Hb) as (b' & Hb' & -> & X). cbn [snd] in Hp. apply in_map_iff in Hp as (g & <- & Hg).
    assert (G : geo1 g).
    { apply (li_geo _ _ _ _ _ HL). unfold slots. apply in_concat. exists (snd b'). split; [apply in_map; exact Hb'|exact Hg]. }
    cbn [pc fst]. split; [apply (ge_l _ G)|apply (ge_l8 _ G)].
  - intros b l1 p q l2 Hb E. destruct (In_lay b Hb) as (b' & _ & -> & X). cbn [snd] in E. apply (noff_merged _ (bi_n _ X) _ _ _ _ E).
  - intros b Hb. destruct (In_lay b Hb) as (b' & _ & -> & X). destruct (bi_u _ X) as (g & Hg & Hu). exists (pc g). cbn [snd].
    split; [apply in_map; exact Hg|exact Hu].
  - rewrite (used_areas_lay B HB). eapply Permutation_trans; [apply (v_use _ _ _ _ _ _ I)|].
    match goal with |- Permutation ?a ?b => replace b with a; [apply Permutation_refl|] end.
    apply map_ext. intro x. unfold ara. rewrite need_eq. reflexivity.
Qed.

Lemma totals_ok s B live : Inv s B live ->
  u_tot (s_u s) = total used_piece (pieces (lay B)) /\
  p_small (s_p s) + p_avail (s_p s) = total free_piece (pieces (lay B)) /\
  total used_piece (pieces (lay B)) + total free_piece (pieces (lay B)) = 262112 * Z.of_nat (length (s_blks s)).
Proof.
  intros I. pose proof (v_s _ _ _ _ _ _ I) as HS. destruct (sv_l _ _ _ _ _ HS) as [FL HL].
  rewrite pieces_lay. split; [|split].
  - rewrite total_used. apply (ui_tot _ _ (sv_u _ _ _ _ _ HS)).
  - rewrite (total_free (p_cls (s_p s))) by (apply (SInv_posl _ _ _ _ _ HS)). destruct (li_p _ _ _ _ _ HL) as [-> ->]. reflexivity.
  - rewrite total_all, (total_blocks B (sv_b _ _ _ _ _ HS)), (v_bl _ _ _ _ _ _ I), map_length. reflexivity.
Qed.

Lemma used_total s B live : Inv s B live -> u_tot (s_u s) = sum (map (fun x => need (snd x)) (filter is_small live)).
Proof.
  intros I. pose proof (v_s _ _ _ _ _ _ I) as HS. rewrite (ui_tot _ _ (sv_u _ _ _ _ _ HS)).
  assert (E : forall l, utot l = sum (map snd (map sla (U l)))).
  { induction l as [|g l IH]; [reflexivity|]. unfold utot, U in *. cbn [wsum filter]. destruct (g_u g); cbn [iff map sum sla snd]; rewrite IH; reflexivity. }
  rewrite E.
  assert (P : forall a b : list Z, Permutation a b -> sum a = sum b) by (induction 1; cbn [sum]; lia).
  rewrite (P _ _ (Permutation_map snd (v_use _ _ _ _ _ _ I))). rewrite map_map. f_equal.
  apply map_ext. intro x. rewrite need_eq. reflexivity.
Qed.

Variable malloc : Z -> list (Z * Z) -> Z -> option Z.
Hypothesis malloc_ok : forall seed pages len a, malloc seed pages len = Some a -> 0 < len ->
  0 < a /\ a mod 8 = 0 /\ (forall x, In x pages -> djA (a, len) x).

(* no slab can be had for class id *)
Definition no_slab (s : st) (id seed : Z) : Prop :=
  let len := c_size (s_cls s id) * c_per (s_cls s id) in
  (s_memlimit s <> 0 /\ s_memlimit s < s_malloced s + len /\ c_rsvd (s_cls s id) <= c_slabs (s_cls s id)) \/
  match s_arena s with
  | None => malloc seed (s_pages s) len = None
  | Some (_, avail) => avail < len
  end.

Lemma chunk_refused s out size id seed s' : CInv csz cper lg s out -> 0 <= id <= lg ->
  chunk_alloc malloc s size id seed = Some (s', 0) ->
  c_slots (s_cls s id) = [] /\ c_endp (s_cls s id) = 0 /\ no_slab s id seed.
Proof.
  intros I Hi H.
  destruct (chunk_alloc_ok _ _ _ ST malloc malloc_ok s out size id seed I Hi) as (s1 & a & E & _ & _ & _ & _ & _ & _ & _ & R).
  rewrite H in E. injection E as <- <-. destruct R as [[_ Es]|[N _]]; [|congruence].
  unfold chunk_alloc in H.
  destruct (negb (c_endp (s_cls s id) =? 0) || negb (match c_slots (s_cls s id) with [] => true | _ => false end)) eqn:Ec.
  - exfalso. subst s'. destruct (c_slots (s_cls s id)) as [|a r] eqn:Es.
    + cbn [negb] in Ec. rewrite orb_false_r in Ec. destruct (c_endp (s_cls s id) =? 0) eqn:E0; [discriminate Ec|].
      injection H as _ H. rewrite H in E0. discriminate E0.
    + injection H as _ ->.
      destruct (cc_in _ _ _ _ _ I id 0 Hi) as (X & _); [|lia]. unfold held. apply in_or_app. right. apply in_or_app. left.
      rewrite Es. left. reflexivity.
  - apply orb_false_iff in Ec as [E1 E2]. apply negb_false_iff in E1, E2. apply Z.eqb_eq in E1.
    destruct (c_slots (s_cls s id)) eqn:Es0; [|discriminate E2]. split; [reflexivity|]. split; [exact E1|].
    destruct (newslab malloc s id seed) as [s2|] eqn:En.
    + exfalso.
      destruct (newslab_ok _ _ _ ST malloc malloc_ok s out id seed s2 I Hi Es0 E1 En) as (I2 & X1 & X2 & _).
      rewrite X1 in H. destruct (Z.eqb_spec (c_endp (s_cls s2 id)) 0) as [|N]; [contradiction|]. injection H as _ H. contradiction.
    + unfold newslab in En. unfold no_slab.
      destruct (negb (s_memlimit s =? 0) && (s_memlimit s <? s_malloced s + c_size (s_cls s id) * c_per (s_cls s id)) &&
                (c_rsvd (s_cls s id) <=? c_slabs (s_cls s id))) eqn:Eb.
      * left. apply andb_true_iff in Eb as [Eb B3]. apply andb_true_iff in Eb as [B1 B2].
        apply negb_true_iff in B1. apply Z.eqb_neq in B1. apply Z.ltb_lt in B2. apply Z.leb_le in B3. auto.
      * right. unfold memory_allocate in En. destruct (s_arena s) as [[cur avail]|].
        -- destruct (Z.ltb_spec avail (c_size (s_cls s id) * c_per (s_cls s id))); [assumption|discriminate En].
        -- destruct (malloc seed (s_pages s) (c_size (s_cls s id) * c_per (s_cls s id))); [discriminate En|reflexivity].
Qed.
End Lay.

Section Refuse.
Variables csz cper : Z -> Z.
Variable lg : Z.
Hypothesis ST : static csz cper lg.
Notation Inv := (Inv csz cper lg).
Variable malloc : Z -> list (Z * Z) -> Z -> option Z.
Hypothesis malloc_ok : forall seed pages len a, malloc seed pages len = Some a -> 0 < len ->
  0 < a /\ a mod 8 = 0 /\ (forall x, In x pages -> djA (a, len) x).

Lemma sm_refused s B live size seed s' : Inv s B live -> 1 <= size <= 49148 ->
  sm_alloc malloc s size seed = Some (s', 0) ->
  (forall p, In p (pieces (lay B)) -> snd p = false ->
     fst p < 2 * need size /\ fst p < 49152 /\ (need size <= 1024 -> fst p < need size)) /\
  c_slots (s_cls s 0) = [] /\ c_endp (s_cls s 0) = 0 /\ no_slab malloc s 0 seed.
Proof.
  intros I0 Hs. unfold sm_alloc.
  assert (Es0 : exists x, upd_ssl s = set_ssl s x).
  { unfold upd_ssl. destruct (s_lim s >? 0); [eexists; reflexivity|]. exists (s_ssl s). destruct s; reflexivity. }
  destruct Es0 as [ssl Es0]. rewrite Es0. clear Es0. set (s0 := set_ssl s ssl).
  assert (I : Inv s0 B live).
  { destruct I0 as [V1 V2 V3 V4 V5 V6]. split; auto. apply (CInv_same _ _ _ ST s); [repeat split; reflexivity|exact V4]. }
  change (s_cls s 0) with (s_cls s0 0). change (no_slab malloc s 0 seed) with (no_slab malloc s0 0 seed). clearbody s0. clear I0 ssl s. rename s0 into s.
  pose proof (slen_range size) as SR. unfold MAX_SM_VALUE_LEN, MAXS in SR. specialize (SR ltac:(lia)). destruct SR as (S1 & S2 & S3).
  rewrite need_eq. set (n := slen_of size) in *. cbv zeta. pose proof (st_lg _ _ _ ST) as Lg.
  pose proof (v_s _ _ _ _ _ _ I) as [[FL HL] A1 A2 A3 A4 A5].
  destruct (find_class_ok (s_mem s) (s_f s) FL (slots B) (p_cls (s_p s)) (s_ssl s) n (memid n true)
              (li_f _ _ _ _ _ HL) (li_geo _ _ _ _ _ HL) S1 S2 eq_refl) as (c & Ec & Lc).
  rewrite Ec. destruct (Z.eqb_spec (fl_head (f_sl (s_f s) c)) 0) as [E0|N0].
  - pose proof (find_full _ _ _ _ _ _ _ _ (li_f _ _ _ _ _ HL) (li_geo _ _ _ _ _ HL) S1 S2 Ec E0) as Full.
    intro H. split.
    + intros p Hp Hf. rewrite pieces_lay in Hp. apply in_map_iff in Hp as (g & <- & Hg). cbn [pc fst snd] in *.
      pose proof (li_geo _ _ _ _ _ HL g Hg) as G. pose proof (ge_l _ G).
      destruct (Z_lt_dec (g_l g) 32) as [L|L]; [lia|].
      specialize (Full g Hg Hf ltac:(lia)). unfold fcls in Full.
      split; [|split].
      * destruct (Z_lt_dec (g_l g) (2 * n)) as [|X]; [assumption|]. pose proof (memid_double n (g_l g) S1 S2 ltac:(lia)). lia.
      * destruct (Z_lt_dec (g_l g) 49152) as [|X]; [assumption|]. pose proof (memid_double n (g_l g) S1 S2 ltac:(lia)). lia.
      * intro Hn. destruct (Z_lt_dec (g_l g) n) as [|X]; [assumption|]. pose proof (memid_exact n (g_l g) ltac:(lia) S2 ltac:(lia)). lia.
    + unfold blck_alloc in H.
      destruct (chunk_alloc_ok _ _ _ ST malloc malloc_ok s (out csz lg B live) BLK 0 seed (v_c _ _ _ _ _ _ I) ltac:(lia))
        as (s1 & b & E & _ & _ & _ & _ & _ & _ & _ & R).
      destruct (Z.eq_dec b 0) as [->|Nb].
      * apply (chunk_refused _ _ _ ST malloc malloc_ok s _ BLK 0 seed s1 (v_c _ _ _ _ _ _ I)); [lia|exact E].
      * exfalso. rewrite E in H. pose proof Nb as Nb'. apply Z.eqb_neq in Nb'. rewrite Nb' in H.
        destruct R as [[X _]|(_ & HC & _)]; [contradiction|].
        assert (Hin : In b (held csz s1 (upd (out csz lg B live) 0 (b :: out csz lg B live 0)) 0)).
        { unfold held, upd. cbn [Z.eqb]. apply in_or_app. left. left. reflexivity. }
        destruct (cc_in _ _ _ _ _ HC 0 b ltac:(lia) Hin) as (Hb0 & _). rewrite Nb' in H.
        destruct (free_slot_link _ _ _ _ _ _) as [[[m f] p]|]; [|discriminate H].
        change BHEAD with 32 in H. destruct (Z.eqb_spec (b + 32) 0); [lia|].
        match type of H with match ?x with _ => _ end = _ => destruct x; [|discriminate H] end. injection H as _ H. lia.
  - intro H. exfalso. set (cur := fl_head (f_sl (s_f s) c)) in *.
    destruct (snd (m_w (s_mem s) (cur + 4)) * 8 <? n); [discriminate H|].
    destruct (free_slot_unlink (s_mem s) (s_f s) (s_p s) cur) as [[[m f] p]|]; [|discriminate H].
    apply Z.eqb_neq in N0.
    destruct (snd (m_w (s_mem s) (cur + 4)) * 8 >? n).
    + destruct (free_slot_link _ _ _ _ _ _) as [[[m1 f1] p1]|]; [|discriminate H]. rewrite N0 in H.
      match type of H with match ?x with _ => _ end = _ => destruct x; [|discriminate H] end. injection H as _ H. rewrite H in N0. discriminate N0.
    + rewrite N0 in H.
      match type of H with match ?x with _ => _ end = _ => destruct x; [|discriminate H] end. injection H as _ H. rewrite H in N0. discriminate N0.
Qed.
End Refuse.
