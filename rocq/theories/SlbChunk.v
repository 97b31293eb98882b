(* Slab chunks: every chunk of every slab is in exactly one place (handed out, on the free
   stack, in the end page), and no two chunks overlap. *)
From Verif Require Import Base SlbModel.
Open Scope Z_scope.

Definition djA (x y : Z * Z) : Prop := fst x + snd x <= fst y \/ fst y + snd y <= fst x.
Lemma djA_sym x y : djA x y -> djA y x.
Proof. unfold djA. lia. Qed.

Lemma FOPA_perm l l' : Permutation l l' -> ForallOrdPairs djA l -> ForallOrdPairs djA l'.
Proof.
  induction 1 as [|x l l' P IH|x y l|l l' l'' P1 IH1 P2 IH2]; intro H; auto.
  - inversion H as [|? ? A B]; subst. constructor; auto.
    apply Forall_forall. intros z Hz. rewrite Forall_forall in A. apply A.
    apply (Permutation_in _ (Permutation_sym P)). exact Hz.
  - inversion H as [|? ? A B]; subst. inversion B as [|? ? A2 B2]; subst.
    inversion A as [|? ? A0 A1]; subst.
    constructor; [constructor; [apply djA_sym; exact A0|exact A2]|]. constructor; assumption.
Qed.

Lemma FOPA_app l l' : ForallOrdPairs djA l -> ForallOrdPairs djA l' ->
  (forall x y, In x l -> In y l' -> djA x y) -> ForallOrdPairs djA (l ++ l').
Proof.
  induction 1 as [|x l A B IH]; intros H' Hd; cbn [app]; [exact H'|].
  constructor.
  - apply Forall_app. split; [exact A|]. apply Forall_forall. intros y Hy. apply Hd; [left; reflexivity|exact Hy].
  - apply IH; [exact H'|]. intros; apply Hd; [right|]; assumption.
Qed.

Lemma FOPA_cross l l' : ForallOrdPairs djA (l ++ l') -> forall x y, In x l -> In y l' -> djA x y.
Proof.
  induction l as [|z l IH]; intros H x y Hx Hy; [destruct Hx|]. cbn [app] in H. inversion H as [|? ? A B]; subst.
  destruct Hx as [->|Hx].
  - rewrite Forall_forall in A. apply A. apply in_or_app. right. exact Hy.
  - apply IH; auto.
Qed.

(* the chunks left in the end page *)
Definition endl (p z n : Z) : list Z := map (fun k => p + Z.of_nat k * z) (seq 0 (Z.to_nat n)).

Lemma endl_len p z n : length (endl p z n) = Z.to_nat n.
Proof. unfold endl. rewrite map_length, seq_length. reflexivity. Qed.

Lemma endl_cons p z n : 0 < n -> endl p z n = p :: endl (p + z) z (n - 1).
Proof.
  intro H. unfold endl. replace (Z.to_nat n) with (S (Z.to_nat (n - 1))) by lia. cbn [seq map].
  f_equal; [lia|]. rewrite <- seq_shift, map_map. apply map_ext. intro k. lia.
Qed.

Lemma endl_in p z n a : 0 < z -> In a (endl p z n) -> p <= a /\ a + z <= p + n * z /\ exists k, a = p + k * z.
Proof.
  intros Hz H. unfold endl in H. apply in_map_iff in H as (k & <- & H). apply in_seq in H.
  split; [nia|]. split; [nia|]. exists (Z.of_nat k). reflexivity.
Qed.

Lemma endl_dj p z n : 0 < z -> ForallOrdPairs djA (map (fun a => (a, z)) (endl p z n)).
Proof.
  intro Hz. remember (Z.to_nat n) as k eqn:Ek. revert p n Ek. induction k as [|k IH]; intros p n Ek.
  - unfold endl. rewrite <- Ek. constructor.
  - rewrite endl_cons by lia. cbn [map]. constructor; [|apply IH; lia].
    apply Forall_forall. intros x Hx. apply in_map_iff in Hx as (a & <- & Ha).
    apply endl_in in Ha; [|exact Hz]. left. cbn [fst snd]. lia.
Qed.

Section Chunks.
(* the slab classes: chunk sizes and chunks per slab, number of the largest class *)
Variables csz cper : Z -> Z.
Variable lg : Z.
Record static : Prop := mkStatic
  { st_lg : 1 <= lg;
    st_sz : forall i, 0 <= i <= lg -> 0 < csz i;
    st_per : forall i, 0 <= i <= lg -> 1 <= cper i < 4294967296;
    st_8 : forall i, 0 <= i <= lg -> csz i mod 8 = 0 \/ cper i = 1;
    st_0 : csz 0 = 262144 }.
Hypothesis ST : static.

Definition rng : list Z := map Z.of_nat (seq 0 (S (Z.to_nat lg))).
Lemma rng_in i : In i rng <-> 0 <= i <= lg.
Proof.
  pose proof (st_lg ST). unfold rng. rewrite in_map_iff. split.
  - intros (k & <- & H1). apply in_seq in H1. lia.
  - intro H1. exists (Z.to_nat i). split; [lia|]. apply in_seq. lia.
Qed.
Lemma rng_nd : NoDup rng.
Proof. unfold rng. apply FinFun.Injective_map_NoDup; [|apply seq_NoDup]. intros x y; lia. Qed.

(* all chunks, as areas *)
Definition areas (h : Z -> list Z) : list (Z * Z) :=
  flat_map (fun i => map (fun a => (a, csz i)) (h i)) rng.

Lemma areas_in h x : In x (areas h) <-> exists i a, 0 <= i <= lg /\ In a (h i) /\ x = (a, csz i).
Proof.
  unfold areas. rewrite in_flat_map. split.
  - intros (i & Hi & H). apply in_map_iff in H as (a & <- & Ha). apply rng_in in Hi. exists i, a. auto.
  - intros (i & a & Hi & Ha & ->). exists i. split; [apply rng_in; exact Hi|]. apply in_map_iff. exists a. auto.
Qed.

Lemma areas_perm h h' : (forall i, 0 <= i <= lg -> Permutation (h i) (h' i)) ->
  Permutation (areas h) (areas h').
Proof.
  intro H. unfold areas.
  assert (H' : forall i, In i rng -> Permutation (h i) (h' i)) by (intros i Hi; apply H, rng_in, Hi).
  clear H. revert H'. generalize rng. intro r. induction r as [|i l IH]; intro H; cbn [flat_map]; [constructor|].
  apply Permutation_app.
  - apply Permutation_map, H. left. reflexivity.
  - apply IH. intros; apply H; right; assumption.
Qed.

Lemma areas_add h h' i X : 0 <= i <= lg -> Permutation (h' i) (X ++ h i) ->
  (forall j, 0 <= j <= lg -> j <> i -> Permutation (h' j) (h j)) ->
  Permutation (areas h') (map (fun a => (a, csz i)) X ++ areas h).
Proof.
  intros Hi P He.
  assert (He' : forall j, In j rng -> j <> i -> Permutation (h' j) (h j)) by (intros j Hj; apply He, rng_in, Hj).
  apply rng_in in Hi. clear He. unfold areas. revert Hi He'. pose proof rng_nd as ND. revert ND.
  generalize rng. intro r. induction r as [|k l IH]; intros ND Hin He; [destruct Hin|]. inversion ND as [|? ? N ND']; subst. cbn [flat_map].
  destruct Hin as [->|Hin].
  - rewrite app_assoc. apply Permutation_app.
    + rewrite <- map_app. apply Permutation_map. exact P.
    + assert (E : forall j, In j l -> Permutation (h' j) (h j)).
      { intros j Hj. apply He; [right; exact Hj|]. intros ->. contradiction. }
      clear - E. induction l as [|j l IH]; cbn [flat_map]; [constructor|].
      apply Permutation_app; [apply Permutation_map, E; left; reflexivity|].
      apply IH. intros; apply E; right; assumption.
  - eapply Permutation_trans; [apply Permutation_app; [apply Permutation_map, He; [left; reflexivity|intros ->; contradiction]|
      apply IH; [exact ND'|exact Hin|intros; apply He; [right|]; assumption]]|].
    apply Permutation_app_swap_app.
Qed.

Definition held (s : st) (out : Z -> list Z) (i : Z) : list Z :=
  out i ++ c_slots (s_cls s i) ++ endl (c_endp (s_cls s i)) (csz i) (c_endn (s_cls s i)).

Fixpoint zsum (l : list Z) : Z := match l with [] => 0 | x :: r => x + zsum r end.

Record CInv (s : st) (out : Z -> list Z) : Prop := mkCI
  { cc_lg : s_largest s = lg;
    cc_sz : forall i, 0 <= i <= lg -> c_size (s_cls s i) = csz i;
    cc_per : forall i, 0 <= i <= lg -> c_per (s_cls s i) = cper i;
    cc_end : forall i, 0 <= i <= lg ->
       (c_endp (s_cls s i) = 0 /\ c_endn (s_cls s i) = 0) \/
       (c_endp (s_cls s i) <> 0 /\ 1 <= c_endn (s_cls s i) <= cper i);
    cc_dj : ForallOrdPairs djA (areas (held s out));
    cc_in : forall i a, 0 <= i <= lg -> In a (held s out i) ->
       0 < a /\ a mod 8 = 0 /\
       exists q, In q (s_pages s) /\ fst q <= a /\ a + csz i <= fst q + snd q;
    cc_pg : ForallOrdPairs djA (s_pages s) /\ (forall q, In q (s_pages s) -> 0 < fst q /\ 0 < snd q);
    cc_cnt : forall i, 0 <= i <= lg ->
       c_slabs (s_cls s i) * cper i = Z.of_nat (length (held s out i));
    cc_mal : s_malloced s = zsum (map snd (s_pages s));
    cc_ar : match s_arena s with
            | None => True
            | Some (cur, avail) => 0 < cur /\ cur mod 8 = 0 /\
                (forall q, In q (s_pages s) -> fst q + snd q <= cur)
            end }.

(* fields that the chunk invariant does not look at *)
Definition sameC (s s' : st) : Prop :=
  s_cls s' = s_cls s /\ s_largest s' = s_largest s /\ s_pages s' = s_pages s /\
  s_malloced s' = s_malloced s /\ s_arena s' = s_arena s.

Lemma CInv_same s s' out : sameC s s' -> CInv s out -> CInv s' out.
Proof.
  intros (E1 & E2 & E3 & E4 & E5) [A1 A2 A3 A4 A5 A6 A7 A8 A9 A10].
  assert (Eh : forall i, held s' out i = held s out i) by (intro i; unfold held; rewrite E1; reflexivity).
  split; rewrite ?E1, ?E2, ?E3, ?E4, ?E5; auto.
  - eapply FOPA_perm; [|exact A5]. apply areas_perm. intros i _. rewrite Eh. apply Permutation_refl.
  - intros i a Hi Ha. rewrite Eh in Ha. apply A6; assumption.
  - intros i Hi. rewrite Eh. apply A8. exact Hi.
Qed.

(* only the chunks matter, not their order *)
Lemma CInv_perm s s' out out' :
  s_largest s' = s_largest s -> s_pages s' = s_pages s -> s_malloced s' = s_malloced s ->
  s_arena s' = s_arena s ->
  (forall i, 0 <= i <= lg -> Permutation (held s out i) (held s' out' i) /\
     c_size (s_cls s' i) = c_size (s_cls s i) /\ c_per (s_cls s' i) = c_per (s_cls s i) /\
     c_slabs (s_cls s' i) = c_slabs (s_cls s i) /\
     ((c_endp (s_cls s' i) = 0 /\ c_endn (s_cls s' i) = 0) \/
      (c_endp (s_cls s' i) <> 0 /\ 1 <= c_endn (s_cls s' i) <= cper i))) ->
  CInv s out -> CInv s' out'.
Proof.
  intros E2 E3 E4 E5 H [A1 A2 A3 A4 A5 A6 A7 A8 A9 A10].
  split; rewrite ?E2, ?E3, ?E4, ?E5; auto.
  - intros i Hi. destruct (H i Hi) as (_ & -> & _). auto.
  - intros i Hi. destruct (H i Hi) as (_ & _ & -> & _). auto.
  - intros i Hi. apply (H i Hi).
  - eapply FOPA_perm; [|exact A5]. apply areas_perm. intros i Hi. apply (H i Hi).
  - intros i a Hi Ha. apply A6; [exact Hi|]. apply (Permutation_in _ (Permutation_sym (proj1 (H i Hi)))). exact Ha.
  - intros i Hi. destruct (H i Hi) as (P & _ & _ & -> & _). rewrite <- (Permutation_length P). auto.
Qed.

(* ---- a new slab *)
(* everything but the limits of the classes *)
Definition same_but_limits (s s' : st) : Prop :=
  (forall i, c_size (s_cls s' i) = c_size (s_cls s i) /\
             c_per (s_cls s' i) = c_per (s_cls s i) /\
             c_slots (s_cls s' i) = c_slots (s_cls s i) /\
             c_endp (s_cls s' i) = c_endp (s_cls s i) /\
             c_endn (s_cls s' i) = c_endn (s_cls s i) /\
             c_slabs (s_cls s' i) = c_slabs (s_cls s i) /\
             c_req (s_cls s' i) = c_req (s_cls s i)) /\
  s_mem s' = s_mem s /\ s_u s' = s_u s /\ s_f s' = s_f s /\ s_p s' = s_p s /\
  s_blks s' = s_blks s /\ s_largest s' = s_largest s /\ s_pages s' = s_pages s /\
  s_malloced s' = s_malloced s /\ s_arena s' = s_arena s.

Lemma sbl_refl s : same_but_limits s s.
Proof. repeat split; reflexivity. Qed.
Lemma sbl_trans a b c : same_but_limits a b -> same_but_limits b c -> same_but_limits a c.
Proof.
  intros [A0 A] [B0 B]. split.
  - intro i. destruct (A0 i) as (? & ? & ? & ? & ? & ? & ?), (B0 i) as (? & ? & ? & ? & ? & ? & ?).
    repeat split; congruence.
  - destruct A as (? & ? & ? & ? & ? & ? & ? & ? & ?), B as (? & ? & ? & ? & ? & ? & ? & ? & ?).
    repeat split; congruence.
Qed.

Lemma define_sbl s : same_but_limits s (define_rsvd s).
Proof.
  unfold define_rsvd.
  destruct ((s_memlimit s <=? s_malloced s) || (s_memlimit s - s_malloced s <? s_resv s)); [|apply sbl_refl].
  destruct (c_rsvd (s_cls s 0) =? 0); [|apply sbl_refl].
  split; [|repeat split; reflexivity]. intro i. cbn [set_limits set_cls s_cls]. unfold upd.
  destruct (Z.eqb_spec i 0) as [->|]; repeat split; reflexivity.
Qed.

Lemma CInv_sbl s s' out : same_but_limits s s' -> CInv s out -> CInv s' out.
Proof.
  intros [H0 (E1 & E2 & E3 & E4 & E5 & E6 & E7 & E8 & E9)] I.
  apply (CInv_perm s) with (out := out); auto. intros i Hi. destruct (H0 i) as (F1 & F2 & F3 & F4 & F5 & F6 & F7).
  unfold held. rewrite F1, F2, F3, F4, F5, F6. split; [apply Permutation_refl|].
  repeat split; auto. apply (cc_end _ _ I i Hi).
Qed.

(* ---- a chunk is given back *)
Lemma chunk_free_ok s out a size id o' : CInv s out -> 0 <= id <= lg -> Permutation (out id) (a :: o') ->
  CInv (chunk_free s a size id) (upd out id o').
Proof.
  intros I Hid P. apply (CInv_perm s) with (out := out); try reflexivity; [|exact I].
  intros i Ri. unfold chunk_free, held, upd. cbn [set_cls s_cls]. unfold upd. destruct (Z.eqb_spec i id) as [->|N].
  - cbn [c_slots c_endp c_endn c_size c_per c_slabs]. split.
    + eapply Permutation_trans; [apply Permutation_app_tail; exact P|]. cbn [app]. apply Permutation_middle.
    + repeat split; auto. apply (cc_end _ _ I id Hid).
  - split; [apply Permutation_refl|]. repeat split; auto. apply (cc_end _ _ I i Ri).
Qed.

Lemma CInv_out s out out' : (forall i, 0 <= i <= lg -> Permutation (out i) (out' i)) -> CInv s out -> CInv s out'.
Proof.
  intros H I. apply (CInv_perm s) with (out := out); auto. intros i Ri. split.
  - unfold held. apply Permutation_app_tail. apply H. exact Ri.
  - repeat split; auto. apply (cc_end _ _ I i Ri).
Qed.

(* two chunks that are handed out do not overlap *)
Lemma out_dj s out i j a c : CInv s out -> 0 <= i <= lg -> 0 <= j <= lg -> In a (out i) -> In c (out j) ->
  i <> j -> djA (a, csz i) (c, csz j).
Proof.
  intros I Ri Rj Ha Hc N.
  destruct (in_split _ _ Ha) as (l1 & l2 & E).
  pose proof (cc_dj _ _ I) as D.
  assert (P : Permutation (areas (held s out)) (map (fun a => (a, csz i)) [a] ++
             areas (upd (held s out) i (l1 ++ l2 ++ c_slots (s_cls s i) ++ endl (c_endp (s_cls s i)) (csz i) (c_endn (s_cls s i)))))).
  { apply areas_add; [exact Ri| |].
    - unfold upd. rewrite Z.eqb_refl. unfold held. rewrite E, <- app_assoc. cbn [app]. apply Permutation_sym, Permutation_middle.
    - intros k _ Nk. unfold upd. destruct (Z.eqb_spec k i); [contradiction|]. apply Permutation_refl. }
  apply (FOPA_perm _ _ P) in D. apply (FOPA_cross _ _ D); [left; reflexivity|].
  apply areas_in. exists j, c. split; [exact Rj|]. split; [|reflexivity].
  unfold upd. destruct (Z.eqb_spec j i); [congruence|]. unfold held. apply in_or_app. left. exact Hc.
Qed.

Lemma out_dj_same s out i l1 a l2 c : CInv s out -> 0 <= i <= lg -> out i = l1 ++ a :: l2 -> In c (l1 ++ l2) ->
  djA (a, csz i) (c, csz i).
Proof.
  intros I Ri E Hc. pose proof (cc_dj _ _ I) as D.
  assert (P : Permutation (areas (held s out)) (map (fun a => (a, csz i)) [a] ++
             areas (upd (held s out) i (l1 ++ l2 ++ c_slots (s_cls s i) ++ endl (c_endp (s_cls s i)) (csz i) (c_endn (s_cls s i)))))).
  { apply areas_add; [exact Ri| |].
    - unfold upd. rewrite Z.eqb_refl. unfold held. rewrite E, <- app_assoc. cbn [app]. apply Permutation_sym, Permutation_middle.
    - intros k _ Nk. unfold upd. destruct (Z.eqb_spec k i); [contradiction|]. apply Permutation_refl. }
  apply (FOPA_perm _ _ P) in D. apply (FOPA_cross _ _ D); [left; reflexivity|].
  apply areas_in. exists i, c. split; [exact Ri|]. split; [|reflexivity].
  unfold upd. rewrite Z.eqb_refl. rewrite app_assoc. apply in_or_app. left. exact Hc.
Qed.

Lemma out_nd s out i : CInv s out -> 0 <= i <= lg -> NoDup (out i).
Proof.
  intros I Ri. pose proof (st_sz ST i Ri) as Zp.
  assert (H : forall l1 a l2, out i = l1 ++ a :: l2 -> ~ In a (l1 ++ l2)).
  { intros l1 a l2 E X. pose proof (out_dj_same s out i l1 a l2 a I Ri E X) as D.
    unfold djA in D. cbn [fst snd] in D. lia. }
  clear - H. revert H. generalize (out i). intro l. induction l as [|x l IH]; intro H; [constructor|].
  constructor.
  - exact (H [] x l eq_refl).
  - apply IH. intros l1 a l2 E X. apply (H (x :: l1) a l2); [rewrite E; reflexivity|]. right. exact X.
Qed.
Variable malloc : Z -> list (Z * Z) -> Z -> option Z.
(* malloc gives aligned memory that is not part of an area in use *)
Hypothesis malloc_ok : forall seed pages len a, malloc seed pages len = Some a -> 0 < len ->
  0 < a /\ a mod 8 = 0 /\ (forall x, In x pages -> djA (a, len) x).

Lemma page_fresh s out seed len s1 ptr : CInv s out -> 0 < len ->
  memory_allocate malloc s seed len = Some (s1, ptr) ->
  0 < ptr /\ ptr mod 8 = 0 /\ (forall q, In q (s_pages s) -> djA (ptr, len) q) /\
  s_mem s1 = s_mem s /\ s_u s1 = s_u s /\ s_f s1 = s_f s /\ s_p s1 = s_p s /\
  s_blks s1 = s_blks s /\ s_largest s1 = s_largest s /\ s_pages s1 = s_pages s /\
  s_malloced s1 = s_malloced s /\ s_cls s1 = s_cls s /\
  (match s_arena s1 with
   | None => True
   | Some (cur, _) => 0 < cur /\ cur mod 8 = 0 /\ ptr + len <= cur /\
        (forall q, In q (s_pages s) -> fst q + snd q <= cur)
   end).
Proof.
  intros I Hl H. unfold memory_allocate in H. pose proof (cc_ar _ _ I) as A.
  destruct (s_arena s) as [[cur avail]|] eqn:Ea.
  - destruct (avail <? len); [discriminate|]. destruct A as (A1 & A2 & A3). cbv zeta in H.
    remember (if len mod 8 =? 0 then len else len + (8 - len mod 8)) as len' eqn:El.
    assert (L : len <= len' /\ len' mod 8 = 0).
    { rewrite El. destruct (Z.eqb_spec (len mod 8) 0) as [E|E]; [lia|].
      pose proof (Z.mod_pos_bound len 8 ltac:(lia)). split; [lia|].
      replace (len + (8 - len mod 8)) with ((len / 8 + 1) * 8); [apply Z.mod_mul; lia|].
      pose proof (Z.div_mod len 8 ltac:(lia)). lia. }
    clear El. destruct L as [L1 L2]. inversion H; subst s1 ptr; clear H.
    cbn [s_mem s_u s_f s_p s_blks s_largest s_pages s_malloced s_cls s_arena].
    split; [exact A1|]. split; [exact A2|]. split.
    { intros q Hq. right. cbn [fst snd]. specialize (A3 q Hq). lia. }
    do 9 (split; [reflexivity|]). split; [lia|]. split.
    { rewrite Z.add_mod, A2, L2 by lia. reflexivity. }
    split; [lia|]. intros q Hq. specialize (A3 q Hq). lia.
  - destruct (malloc seed (s_pages s) len) as [a|] eqn:Em; [|discriminate]. injection H as <- <-.
    destruct (malloc_ok _ _ _ _ Em Hl) as (M1 & M2 & M3). rewrite Ea. repeat split; auto.
Qed.

Lemma zero_frame m a len x : x < a \/ a + len <= x -> m_w (zero_mem m a len) x = m_w m x.
Proof.
  intro H. cbn [zero_mem m_w]. destruct (Z.leb_spec a x), (Z.ltb_spec x (a + len)); cbn [andb]; try reflexivity. lia.
Qed.

Lemma newslab_ok s out id seed s' : CInv s out -> 0 <= id <= lg ->
  c_slots (s_cls s id) = [] -> c_endp (s_cls s id) = 0 -> newslab malloc s id seed = Some s' ->
  CInv s' out /\ c_slots (s_cls s' id) = [] /\ c_endp (s_cls s' id) <> 0 /\
  s_u s' = s_u s /\ s_f s' = s_f s /\ s_p s' = s_p s /\ s_blks s' = s_blks s /\
  m_prev (s_mem s') = m_prev (s_mem s) /\ m_next (s_mem s') = m_next (s_mem s) /\
  (forall i c x, 0 <= i <= lg -> In c (held s out i) -> c <= x < c + csz i ->
     m_w (s_mem s') x = m_w (s_mem s) x) /\
  (forall i, c_req (s_cls s' i) = c_req (s_cls s i)).
Proof.
  intros I Hid Hsl Hep H. unfold newslab in H.
  rewrite (cc_sz _ _ I id Hid), (cc_per _ _ I id Hid) in H.
  pose proof (st_sz ST id Hid) as Zp. pose proof (st_per ST id Hid) as Pp.
  set (len := csz id * cper id) in *. assert (Lp : 0 < len) by (unfold len; nia).
  destruct (negb (s_memlimit s =? 0) && (s_memlimit s <? s_malloced s + len) &&
            (c_rsvd (s_cls s id) <=? c_slabs (s_cls s id))); [discriminate|].
  destruct (memory_allocate malloc s seed len) as [[s1 ptr]|] eqn:Em; [|discriminate].
  destruct (page_fresh _ _ _ _ _ _ I Lp Em) as (Q1 & Q2 & Q3 & E1 & E2 & E3 & E4 & E5 & E6 & E7 & E8 & E9 & E10).
  cbn zeta in H.
  match type of H with Some (define_rsvd (if _ then _ else ?t)) = _ => set (s2 := t) in H end.
  assert (HS : same_but_limits s2 s').
  { injection H as <-. eapply sbl_trans; [|apply define_sbl].
    match goal with |- same_but_limits _ (if ?c then _ else _) => destruct c end; [|apply sbl_refl].
    split; [|repeat split; reflexivity]. intro i. repeat split; reflexivity. }
  clear H.
  assert (Hc : forall j, j <> id -> s_cls s2 j = s_cls s j).
  { intros j Hj. cbn [s2 s_cls]. unfold upd. destruct (Z.eqb_spec j id); [contradiction|]. rewrite E9. reflexivity. }
  assert (Hi : s_cls s2 id = mkC (csz id) (cper id) [] ptr (cper id) (c_slabs (s_cls s id) + 1) (c_rsvd (s_cls s id)) (c_req (s_cls s id))).
  { cbn [s2 s_cls]. unfold upd. rewrite Z.eqb_refl, Hsl. reflexivity. }
  assert (Hh : forall j, j <> id -> held s2 out j = held s out j) by (intros j Hj; unfold held; rewrite (Hc j Hj); reflexivity).
  assert (Ho : held s out id = out id).
  { unfold held. rewrite Hsl. destruct (cc_end _ _ I id Hid) as [[_ N]|[N _]]; [|contradiction].
    rewrite N. cbn. apply app_nil_r. }
  assert (Hn : held s2 out id = out id ++ endl ptr (csz id) (cper id)).
  { unfold held. rewrite Hi. reflexivity. }
  assert (Epg : s_pages s2 = (ptr, len) :: s_pages s) by (cbn [s2 s_pages]; rewrite E7; reflexivity).
  assert (Pid : Permutation (held s2 out id) (endl ptr (csz id) (cper id) ++ held s out id)).
  { rewrite Hn, Ho. apply Permutation_app_comm. }
  assert (Pa : Permutation (areas (held s2 out)) (map (fun a => (a, csz id)) (endl ptr (csz id) (cper id)) ++ areas (held s out))).
  { apply areas_add; [exact Hid|exact Pid|]. intros j _ Hj. rewrite (Hh j Hj). apply Permutation_refl. }
  assert (I2 : CInv s2 out).
  { split.
    - cbn [s2 s_largest]. rewrite E6. apply (cc_lg _ _ I).
    - intros i Ri. destruct (Z.eq_dec i id) as [->|N]; [rewrite Hi; reflexivity|rewrite (Hc i N); apply (cc_sz _ _ I); exact Ri].
    - intros i Ri. destruct (Z.eq_dec i id) as [->|N]; [rewrite Hi; reflexivity|rewrite (Hc i N); apply (cc_per _ _ I); exact Ri].
    - intros i Ri. destruct (Z.eq_dec i id) as [->|N]; [|rewrite (Hc i N); apply (cc_end _ _ I); exact Ri].
      rewrite Hi. cbn [c_endp c_endn]. right. lia.
    - apply (FOPA_perm _ _ (Permutation_sym Pa)). apply FOPA_app; [apply endl_dj; exact Zp|apply (cc_dj _ _ I)|].
      intros x y Hx Hy. apply in_map_iff in Hx as (a & <- & Ha). apply endl_in in Ha as (Ha1 & Ha2 & _); [|exact Zp].
      apply areas_in in Hy as (j & c & Rj & Hc' & ->).
      destruct (cc_in _ _ I j c Rj Hc') as (_ & _ & q & Hq & Hq1 & Hq2).
      pose proof (Q3 q Hq) as D. unfold djA in *. cbn [fst snd] in *. unfold len in D. lia.
    - intros i a Ri Ha.
      assert (Old : In a (held s out i) -> 0 < a /\ a mod 8 = 0 /\ exists q, In q (s_pages s2) /\ fst q <= a /\ a + csz i <= fst q + snd q).
      { intro X. destruct (cc_in _ _ I i a Ri X) as (X1 & X2 & q & Hq & X3). split; [exact X1|]. split; [exact X2|].
        exists q. split; [rewrite Epg; right; exact Hq|exact X3]. }
      destruct (Z.eq_dec i id) as [->|N]; [|rewrite (Hh i N) in Ha; apply Old; exact Ha].
      apply (Permutation_in _ Pid) in Ha. apply in_app_or in Ha as [Ha|Ha]; [|apply Old; exact Ha].
      pose proof Ha as Ha0. apply endl_in in Ha as (Ha1 & Ha2 & k & Hk); [|exact Zp]. split; [lia|]. split.
      + destruct (st_8 ST id Ri) as [S8|S1].
        * rewrite Hk. rewrite Z.add_mod, Z.mul_mod, Q2, S8 by lia. rewrite Z.mul_0_r. reflexivity.
        * rewrite S1 in Ha0. cbn in Ha0. destruct Ha0 as [<-|[]]. rewrite Z.add_0_r. exact Q2.
      + exists (ptr, len). split; [rewrite Epg; left; reflexivity|]. cbn [fst snd]. unfold len. lia.
    - rewrite Epg. destruct (cc_pg _ _ I) as [A1 A2]. split.
      + constructor; [apply Forall_forall; exact Q3|exact A1].
      + intros q [<-|Hq]; [cbn [fst snd]; lia|apply A2; exact Hq].
    - intros i Ri. destruct (Z.eq_dec i id) as [->|N]; [|rewrite (Hc i N), (Hh i N); apply (cc_cnt _ _ I); exact Ri].
      rewrite (Permutation_length Pid), app_length, endl_len, Hi. cbn [c_slabs].
      pose proof (cc_cnt _ _ I id Hid). lia.
    - cbn [s2 s_malloced]. rewrite Epg. cbn [map zsum snd]. rewrite E8, (cc_mal _ _ I). lia.
    - cbn [s2 s_arena]. rewrite Epg. destruct (s_arena s1) as [[cur avail]|]; [|exact Logic.I].
      destruct E10 as (F1 & F2 & F3 & F4). split; [exact F1|]. split; [exact F2|].
      intros q [<-|Hq]; [exact F3|apply F4; exact Hq]. }
  destruct HS as [HS0 HS1]. destruct HS1 as (G1 & G2 & G3 & G4 & G5 & G6 & G7 & G8 & G9).
  split; [apply (CInv_sbl s2); [split; [exact HS0|repeat split; assumption]|exact I2]|].
  split; [destruct (HS0 id) as (_ & _ & -> & _); rewrite Hi; reflexivity|].
  split; [destruct (HS0 id) as (_ & _ & _ & -> & _); rewrite Hi; cbn [c_endp]; lia|].
  split; [rewrite G2; exact E2|]. split; [rewrite G3; exact E3|]. split; [rewrite G4; exact E4|].
  split; [rewrite G5; exact E5|]. rewrite G1. cbn [s2 s_mem].
  split; [cbn [zero_mem m_prev]; rewrite E1; reflexivity|].
  split; [cbn [zero_mem m_next]; rewrite E1; reflexivity|]. split.
  { intros i c x Ri Hc' Hx. rewrite zero_frame, E1; [reflexivity|].
    destruct (cc_in _ _ I i c Ri Hc') as (_ & _ & q & Hq & Hq1 & Hq2).
    pose proof (Q3 q Hq) as D. unfold djA in D. cbn [fst snd] in D. lia. }
  intro i. destruct (HS0 i) as (_ & _ & _ & _ & _ & _ & ->).
  destruct (Z.eq_dec i id) as [->|N]; [rewrite Hi; reflexivity|rewrite (Hc i N); reflexivity].
Qed.

(* ---- a chunk is handed out *)
Lemma chunk_alloc_ok s out size id seed : CInv s out -> 0 <= id <= lg ->
  exists s' a, chunk_alloc malloc s size id seed = Some (s', a) /\
    s_u s' = s_u s /\ s_f s' = s_f s /\ s_p s' = s_p s /\ s_blks s' = s_blks s /\
    m_prev (s_mem s') = m_prev (s_mem s) /\ m_next (s_mem s') = m_next (s_mem s) /\
    (forall i c x, 0 <= i <= lg -> In c (held s out i) -> c <= x < c + csz i ->
       m_w (s_mem s') x = m_w (s_mem s) x) /\
    ((a = 0 /\ s' = s) \/
     (a <> 0 /\ CInv s' (upd out id (a :: out id)) /\
      (forall i, c_req (s_cls s' i) = c_req (s_cls s i) + (if i =? id then size else 0)))).
Proof.
  intros I Hid. unfold chunk_alloc.
  set (os := if negb (c_endp (s_cls s id) =? 0) || _ then Some s else newslab malloc s id seed).
  assert (Hos : os = None \/ exists s1, os = Some s1 /\ CInv s1 out /\
     (c_slots (s_cls s1 id) <> [] \/ c_endp (s_cls s1 id) <> 0) /\
     s_u s1 = s_u s /\ s_f s1 = s_f s /\ s_p s1 = s_p s /\ s_blks s1 = s_blks s /\
     m_prev (s_mem s1) = m_prev (s_mem s) /\ m_next (s_mem s1) = m_next (s_mem s) /\
     (forall i c x, 0 <= i <= lg -> In c (held s out i) -> c <= x < c + csz i ->
       m_w (s_mem s1) x = m_w (s_mem s) x) /\
     (forall i, c_req (s_cls s1 i) = c_req (s_cls s i))).
  { unfold os. destruct (Z.eqb_spec (c_endp (s_cls s id)) 0) as [E|E]; cbn [negb orb].
    - destruct (c_slots (s_cls s id)) as [|a r] eqn:Es; cbn [negb].
      + destruct (newslab malloc s id seed) as [s1|] eqn:En; [|left; reflexivity]. right. exists s1.
        destruct (newslab_ok s out id seed s1 I Hid Es E En) as (X1 & X2 & X3 & X4). split; [reflexivity|].
        split; [exact X1|]. split; [right; exact X3|exact X4].
      + right. exists s. split; [reflexivity|]. split; [exact I|]. split; [left; rewrite Es; discriminate|].
        repeat split; reflexivity.
    - right. exists s. split; [reflexivity|]. split; [exact I|]. split; [right; exact E|]. repeat split; reflexivity. }
  destruct Hos as [->|(s1 & -> & I1 & Hne & F1 & F2 & F3 & F4 & F5 & F6 & F7 & F8)].
  { exists s, 0. split; [reflexivity|]. do 6 (split; [reflexivity|]). split; [reflexivity|]. left. auto. }
  destruct (c_slots (s_cls s1 id)) as [|a r] eqn:Es.
  - assert (He : c_endp (s_cls s1 id) <> 0) by (destruct Hne; [congruence|assumption]).
    destruct (cc_end _ _ I1 id Hid) as [[E _]|[_ R]]; [congruence|].
    pose proof (st_per ST id Hid) as Pp.
    destruct (Z.eqb_spec (c_endp (s_cls s1 id)) 0); [contradiction|].
    rewrite (cc_sz _ _ I1 id Hid), (cc_per _ _ I1 id Hid). cbv zeta.
    rewrite (Z.mod_small (c_endn (s_cls s1 id) - 1)) by lia. set (e := c_endp (s_cls s1 id)) in *. set (k := c_endn (s_cls s1 id)) in *.
    eexists. exists e. split; [reflexivity|]. cbn [set_cls s_u s_f s_p s_blks s_mem].
    do 6 (split; [assumption|]). split; [exact F7|]. right. split; [exact He|]. split.
    + apply (CInv_perm s1) with (out := out); try reflexivity; [|exact I1].
      intros i Ri. unfold held. cbn [set_cls s_cls]. unfold upd. destruct (Z.eqb_spec i id) as [->|N].
      * cbn [c_slots c_endp c_endn c_size c_per c_slabs]. rewrite Es. cbn [app]. fold e k. split.
        -- rewrite (endl_cons e (csz id) k) by lia.
           replace (endl (if k - 1 =? 0 then 0 else e + csz id) (csz id) (k - 1)) with (endl (e + csz id) (csz id) (k - 1)).
           ++ apply Permutation_sym, Permutation_middle.
           ++ destruct (Z.eqb_spec (k - 1) 0) as [Ek|]; [rewrite Ek; reflexivity|reflexivity].
        -- rewrite (cc_sz _ _ I1 id Hid), (cc_per _ _ I1 id Hid). repeat split; auto.
           assert (0 < e).
           { apply (cc_in _ _ I1 id e Hid). unfold held. apply in_or_app. right. apply in_or_app. right.
             fold e k. rewrite endl_cons by lia. left. reflexivity. }
           pose proof (st_sz ST id Hid).
           destruct (Z.eqb_spec (k - 1) 0); [left; auto|right; lia].
      * split; [apply Permutation_refl|]. repeat split; auto. apply (cc_end _ _ I1 i Ri).
    + intro i. cbn [set_cls s_cls]. unfold upd. destruct (Z.eqb_spec i id) as [->|N]; [cbn [c_req]; rewrite F8; reflexivity|]. rewrite F8. lia.
  - rewrite (cc_sz _ _ I1 id Hid), (cc_per _ _ I1 id Hid).
    eexists. exists a. split; [reflexivity|]. cbn [set_cls s_u s_f s_p s_blks s_mem].
    do 6 (split; [assumption|]). split; [exact F7|]. right.
    assert (Ha : 0 < a).
    { apply (cc_in _ _ I1 id a Hid). unfold held. rewrite Es. apply in_or_app. right. left. reflexivity. }
    split; [lia|]. split.
    + apply (CInv_perm s1) with (out := out); try reflexivity; [|exact I1].
      intros i Ri. unfold held. cbn [set_cls s_cls]. unfold upd. destruct (Z.eqb_spec i id) as [->|N].
      * cbn [c_slots c_endp c_endn c_size c_per c_slabs]. rewrite Es. cbn [app]. split.
        -- apply Permutation_sym, Permutation_middle.
        -- rewrite (cc_sz _ _ I1 id Hid), (cc_per _ _ I1 id Hid). repeat split; auto. apply (cc_end _ _ I1 id Hid).
      * split; [apply Permutation_refl|]. repeat split; auto. apply (cc_end _ _ I1 i Ri).
    + intro i. cbn [set_cls s_cls]. unfold upd. destruct (Z.eqb_spec i id) as [->|N]; [cbn [c_req]; rewrite F8; reflexivity|]. rewrite F8. lia.
Qed.

End Chunks.
