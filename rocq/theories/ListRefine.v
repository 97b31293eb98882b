(* The pointer-level list model refines the sequence specification. *)
From Verif Require Import Base ListModel ListSpec ListProofs.
Open Scope Z_scope.
Section S.
Variable space : bytes -> N.
Notation WF := (WF space).

(* ---- refinement ---- *)
Definition base_ok (s : state) (ss : sstate) (c : nat -> bytes) : Prop :=
  server_max ss = maxsz s /\ 4000 <= maxsz s /\ fresh_ok (hp s) (nextid s) /\
  (forall i v, In (i, v) (held s) -> c i = v).

Definition hids (s : state) : list nat := map fst (held s).

Definition list_ok (s : state) (c : nat -> bytes) (m : meta) (l : slist) : Prop :=
  exists ids, WF true c (hp s) m ids (hids s) [] /\ elems l = map c ids /\
    limit l = (if mcnt m <? 0 then None else Some (mcnt m)) /\
    (mcnt m < 0 \/ 1 <= mcnt m <= maxsz s) /\ Z.of_nat (length ids) <= real_cap (maxsz s) m /\
    action l = ovfl m /\ shown l = readable m /\ flags l = iflags m.

Definition Rel (s : state) (ss : sstate) : Prop :=
  exists c, base_ok s ss c /\
  match slt s, sl ss with
  | SEmpty, NoItem | SOther, OtherItem => exists m, WF false c (hp s) m [] (hids s) []
  | SList m, AList l => list_ok s c m l
  | _, _ => False
  end.

Lemma real_limit maxsz mc : 4000 <= maxsz ->
  let r := real_maxcount maxsz mc in
  want_limit maxsz mc = (if r <? 0 then None else Some r) /\ (r < 0 \/ 1 <= r <= maxsz).
Proof.
  intros H r. unfold r, real_maxcount, want_limit.
  destruct (Z.ltb_spec mc 0); [split; [reflexivity|lia]|].
  destruct (Z.eqb_spec mc 0); [split; [reflexivity|lia]|].
  destruct (Z.ltb_spec maxsz mc).
  - rewrite Z.min_r by lia. destruct (Z.ltb_spec maxsz 0); [lia|]. split; [reflexivity|lia].
  - rewrite Z.min_l by lia. destruct (Z.ltb_spec mc 0); [lia|]. split; [reflexivity|lia].
Qed.

Lemma real_cap_cap maxsz m : (mcnt m < 0 \/ 1 <= mcnt m <= maxsz) -> 4000 <= maxsz ->
  real_cap maxsz m = match (if mcnt m <? 0 then None else Some (mcnt m)) with Some n => n | None => maxsz end
  /\ 1 <= real_cap maxsz m <= maxsz.
Proof.
  intros H H0. unfold real_cap. destruct (Z.ltb_spec 0 (mcnt m)), (Z.ltb_spec (mcnt m) 0); lia.
Qed.

Definition op_ok (o : op) : Prop :=
  match o with Insert i _ _ => - 2 ^ 31 < i | _ => True end.

Lemma step_release s ss k : Rel s ss -> exists s', step space s (Release k) = Some (s', ONone) /\ Rel s' ss.
Proof.
  intros (c & (B1 & B2 & B3 & B4) & R). cbn [step]. unfold list_elem_release.
  destruct (nth_error (held s) k) as [[i v]|] eqn:E; [|exists s; split; [reflexivity|exists c; repeat split; auto]].
  pose proof (nth_error_cut _ _ _ _ E) as EQ.
  assert (P : Permutation (hids s) (i :: map fst (firstn k (held s) ++ skipn (S k) (held s)))).
  { unfold hids. rewrite EQ at 1. rewrite !map_app. cbn [map fst]. symmetry. apply Permutation_middle. }
  assert (G : forall live m ids, WF live c (hp s) m ids (hids s) [] ->
     exists nd h2, hp s i = Some nd /\
      (match pred (nref nd), nnext nd with
       | O, Unl => efree (hset (hp s) i (Some {| nprev := nprev nd; nnext := nnext nd; nval := nval nd; nref := pred (nref nd) |})) i
       | _, _ => Some (hset (hp s) i (Some {| nprev := nprev nd; nnext := nnext nd; nval := nval nd; nref := pred (nref nd) |}))
       end) = Some h2 /\ WF live c h2 m ids (map fst (firstn k (held s) ++ skipn (S k) (held s))) [] /\ fresh_ok h2 (nextid s)).
  { intros live m ids W. pose proof (WF_known _ _ _ _ _ _ _ _ W B3) as KN. apply (WF_perm _ _ _ _ _ _ _ _ _ P) in W.
    destruct (release_spec _ _ _ _ _ _ _ _ W) as (nd & h2 & H1 & H2 & H3). exists nd, h2. split; [assumption|].
    split; [exact H2|]. split; [exact H3|]. eapply WF_fresh; [exact H3|]. intros j [J|J]; apply KN; [auto|right].
    eapply Permutation_in; [symmetry; exact P|right; assumption]. }
  assert (BH : forall j w, In (j, w) (firstn k (held s) ++ skipn (S k) (held s)) -> c j = w).
  { intros j w J. apply B4. rewrite EQ. apply in_app_iff in J. apply in_or_app. destruct J; [left|right; right]; assumption. }
  destruct (slt s) as [| |m] eqn:SL, (sl ss) as [| |l] eqn:SS; try contradiction.
  - destruct R as [m W]. destruct (G _ _ _ W) as (nd & h2 & H1 & H2 & H3 & H4). rewrite H1. cbn [bindo]. rewrite H2. cbn [bindo].
    eexists; split; [reflexivity|]. exists c. split; [split; [|split; [|split]]; assumption|]. cbn. rewrite SS. exists m. exact H3.
  - destruct R as [m W]. destruct (G _ _ _ W) as (nd & h2 & H1 & H2 & H3 & H4). rewrite H1. cbn [bindo]. rewrite H2. cbn [bindo].
    eexists; split; [reflexivity|]. exists c. split; [split; [|split; [|split]]; assumption|]. cbn. rewrite SS. exists m. exact H3.
  - destruct R as (ids & W & R). destruct (G _ _ _ W) as (nd & h2 & H1 & H2 & H3 & H4). rewrite H1. cbn [bindo]. rewrite H2. cbn [bindo].
    eexists; split; [reflexivity|]. exists c. split; [split; [|split; [|split]]; assumption|]. cbn. rewrite SS. exists ids.
    split; [exact H3|exact R].
Qed.

Lemma base_with_slot s ss c h x y : base_ok s ss c -> fresh_ok h (nextid s) ->
  base_ok (set_slot s h x) (put ss y) c.
Proof. intros (B1 & B2 & B3 & B4) F. split; [|split; [|split]]; assumption. Qed.

Lemma put_same ss : put ss (sl ss) = ss.
Proof. destruct ss; reflexivity. Qed.

Lemma list_ok_same c m m' s l h' ids : list_ok s c m l -> WF true c h' m' ids (hids s) [] -> same_attrs m m' ->
  Z.of_nat (length ids) <= real_cap (maxsz s) m ->
  list_ok (set_slot s h' (SList m')) c m' (with_elems l (map c ids)).
Proof.
  intros (ids0 & W0 & E0 & L0 & M0 & C0 & A0 & S0 & F0) W (Q1 & Q2 & Q3 & Q4) C.
  exists ids. cbn. unfold real_cap in *. rewrite Q1, Q2, Q3, Q4. repeat split; assumption || apply W.
Qed.

Lemma list_ok_cap s ss c m l : base_ok s ss c -> list_ok s c m l ->
  real_cap (maxsz s) m = cap ss l /\ 1 <= real_cap (maxsz s) m <= maxsz s.
Proof.
  intros (B1 & B2 & B3 & B4) (ids & W & E & L & M & C & A & S & F).
  destruct (real_cap_cap (maxsz s) m M B2) as [R1 R2]. split; [|assumption].
  rewrite R1. unfold cap. rewrite L, B1. reflexivity.
Qed.

Lemma fresh_list_ok s ss c h m a : base_ok s ss c -> WF false c h m [] (hids s) [] ->
  list_ok (set_slot s h (SList (new_meta (maxsz s) a))) c (new_meta (maxsz s) a) (fresh_list (maxsz s) a).
Proof.
  intros (B1 & B2 & B3 & B4) W. exists []. destruct (real_limit (maxsz s) (a_maxcount a) B2) as [L M].
  split; [eapply WF_new_meta; exact W|]. cbn. repeat split; try assumption.
  destruct (real_cap_cap (maxsz s) (new_meta (maxsz s) a) M B2). lia.
Qed.

Lemma step_create s ss a : Rel s ss ->
  exists s', step space s (Create a) = Some (s', snd (spec_step ss (Create a))) /\ Rel s' (fst (spec_step ss (Create a))).
Proof.
  intros (c & B & R). pose proof B as (B1 & B2 & B3 & B4). cbn [step spec_step]. unfold list_create.
  destruct (slt s) as [| |m] eqn:SL, (sl ss) as [| |l] eqn:SS; try contradiction.
  - destruct R as [m W]. eexists; split; [reflexivity|]. exists c. split; [apply base_with_slot; assumption|].
    cbn [slt set_slot sl put fst]. rewrite B1. eapply fresh_list_ok; eauto.
  - eexists; split; [reflexivity|]. exists c. split; [assumption|]. cbn [fst]. rewrite SL, SS. assumption.
  - eexists; split; [reflexivity|]. exists c. split; [assumption|]. cbn [fst]. rewrite SL, SS. assumption.
Qed.

Lemma step_remove s ss x y : Rel s ss -> (x = SEmpty /\ y = NoItem \/ x = SOther /\ y = OtherItem) ->
  exists s', remove_item space s x = Some (s', OCode (match y, sl ss with NoItem, NoItem => KeyENOENT | _, _ => Success end))
    /\ Rel s' (put ss y).
Proof.
  intros (c & B & R) XY. pose proof B as (B1 & B2 & B3 & B4). unfold remove_item.
  assert (G : forall h m, WF false c h m [] (hids s) [] -> fresh_ok h (nextid s) -> Rel (set_slot s h x) (put ss y)).
  { intros h m W F. exists c. split; [apply base_with_slot; assumption|].
    destruct XY as [[-> ->]|[-> ->]]; cbn; exists m; exact W. }
  destruct (slt s) as [| |m] eqn:SL, (sl ss) as [| |l] eqn:SS; try contradiction.
  - destruct R as [m W]. eexists; split; [|eapply G; eauto].
    destruct XY as [[-> ->]|[-> ->]]; reflexivity.
  - destruct R as [m W]. eexists; split; [|eapply G; eauto].
    destruct XY as [[-> ->]|[-> ->]]; reflexivity.
  - destruct R as (ids & W & R). destruct (drop_list_spec _ _ _ _ _ _ _ W) as (h' & m' & H1 & H2).
    rewrite H1. cbn [bindo]. eexists; split; [|eapply G; [exact H2|]].
    + destruct XY as [[-> ->]|[-> ->]]; reflexivity.
    + eapply WF_fresh; [exact H2|]. intros j [[]|J]. eapply (WF_known _ _ _ _ _ _ _ _ W B3). right; exact J.
Qed.

Lemma step_insert s ss i v a : - 2 ^ 31 < i -> Rel s ss ->
  exists s', step space s (Insert i v a) = Some (s', snd (spec_step ss (Insert i v a))) /\ Rel s' (fst (spec_step ss (Insert i v a))).
Proof.
  intros IB (c0 & B0 & R0). pose proof B0 as (B1 & B2 & B3 & B4). cbn [step spec_step]. unfold list_elem_insert.
  destruct (alloc s v) as [s1 x] eqn:AL. unfold alloc in AL. inversion AL; subst s1 x; clear AL.
  set (x := nextid s). set (h0 := hset (hp s) x _). cbn [slt hp maxsz].
  set (c := cset c0 x v).
  assert (HX : hp s x = None) by (apply B3; unfold x; lia).
  (* facts valid whatever the slot *)
  assert (BH : forall live m ids, WF live c0 (hp s) m ids (hids s) [] ->
     WF live c h0 m ids (hids s) [x] /\ ~ In x ids /\ ~ In x (hids s) /\ known ids (hids s) x /\ map c ids = map c0 ids).
  { intros live m ids W. destruct (alloc_WF _ _ _ _ _ _ _ _ v W HX) as (N1 & N2 & W').
    split; [exact W'|]. split; [exact N1|]. split; [exact N2|]. split; [eapply WF_known; eauto|apply (map_cset space); exact N1]. }
  assert (B4' : ~ In x (hids s) -> forall j w, In (j, w) (held s) -> c j = w).
  { intros N j w J. unfold c, cset. destruct (Nat.eqb_spec x j); [|apply B4; assumption].
    subst j. exfalso. apply N. apply (in_map fst) in J. exact J. }
  assert (KS : forall ids hl, known ids hl x -> known ids hl (S x)) by (intros ids hl K j J; specialize (K j J); lia).
  (* failing path *)
  assert (FAIL : forall live m ids h, WF live c h m ids (hids s) [x] -> ~ In x (hids s) -> known ids (hids s) x ->
     exists h', efree h x = Some h' /\ WF live c h' m ids (hids s) [] /\ fresh_ok h' (S x)).
  { intros live m ids h W N K. destruct (efree_spec _ _ _ _ _ _ _ _ W) as (h' & H1 & H2 & H3).
    exists h'. split; [assumption|]. split; [assumption|]. eapply WF_fresh; [exact H2|]. apply KS; exact K. }
  destruct (slt s) as [| |m] eqn:SL, (sl ss) as [| |l] eqn:SS; try contradiction.
  - destruct R0 as [m W]. destruct (BH _ _ _ W) as (W1 & N1 & N2 & K1 & E1).
    destruct a as [a|].
    + (* creation *)
      rewrite B1. set (l := fresh_list (maxsz s) a). set (nm := new_meta (maxsz s) a).
      assert (W2 : WF true c h0 nm [] (hids s) [x]) by (eapply WF_new_meta; exact W1).
      destruct (real_limit (maxsz s) (a_maxcount a) B2) as [L M].
      assert (RC : real_cap (maxsz s) nm = cap ss l /\ 1 <= real_cap (maxsz s) nm <= maxsz s).
      { destruct (real_cap_cap (maxsz s) nm M B2) as [Q1 Q2]. split; [|exact Q2]. rewrite Q1. unfold cap, l, fresh_list. cbn [limit].
        rewrite L, B1. reflexivity. }
      destruct RC as [RC1 RC2].
      pose proof (elem_insert_spec space c h0 nm [] (hids s) x (maxsz s) i W2 ltac:(lia) ltac:(cbn [length]; lia) IB) as EI.
      rewrite RC1 in EI. change (ovfl nm) with (action l) in EI. cbn [map] in EI.
      replace (c x) with v in EI by (unfold c, cset; rewrite Nat.eqb_refl; reflexivity).
      destruct (insert_result (cap ss l) (action l) i v []) as [cd e] eqn:IR.
      destruct EI as (h' & m' & H1 & H2). rewrite H1. cbn [bindo].
      assert (FAIL2 : cd <> Success -> h' = h0 -> m' = nm -> exists s',
         (let* h2 := drop_list space h' m' in let* h3 := efree h2 x in
            Some (set_slot {| hp := h0; nextid := S x; slt := SEmpty; held := held s; maxsz := maxsz s |} h3 SEmpty, OInsert cd false))
            = Some (s', OInsert cd false) /\ Rel s' ss).
      { intros Hcd -> ->. destruct (drop_list_spec _ _ _ _ _ _ _ W2) as (h2 & m2 & D1 & D2). rewrite D1. cbn [bindo].
        destruct (FAIL _ _ _ _ D2 N2 ltac:(intros j [[]|J]; apply K1; right; assumption)) as (h3 & F1 & F2 & F3).
        rewrite F1. cbn [bindo]. eexists; split; [reflexivity|]. exists c.
        split; [split; [assumption|split; [assumption|split; [assumption|exact (B4' N2)]]]|]. cbn. rewrite SS. exists m2. exact F2. }
      destruct cd; try (destruct H2 as (H2 & H3 & H4); apply FAIL2; [discriminate|assumption|assumption]).
      destruct H2 as (ids' & W' & SA & E & C & IN). eexists; split; [reflexivity|].
      exists c. split.
      { split; [assumption|]. split; [assumption|]. split; [|exact (B4' N2)].
        cbn. eapply WF_fresh; [exact W'|]. intros j [J|J]; [|apply KS in K1; apply K1; right; assumption].
        destruct (IN _ J) as [<-|[]]. lia. }
      cbn [fst put sl slt set_slot]. subst e.
      destruct SA as (Q1 & Q2 & Q3 & Q4). exists ids'. cbn. unfold real_cap in *. rewrite Q1, Q2, Q3, Q4.
      rewrite RC1. repeat split; try assumption; apply W'.
    + destruct (FAIL _ _ _ _ W1 N2 K1) as (h' & F1 & F2 & F3). rewrite F1. cbn [bindo].
      eexists; split; [reflexivity|]. exists c.
      split; [split; [assumption|split; [assumption|split; [assumption|exact (B4' N2)]]]|]. cbn. rewrite SS. exists m. exact F2.
  - destruct R0 as [m W]. destruct (BH _ _ _ W) as (W1 & N1 & N2 & K1 & E1).
    destruct (FAIL _ _ _ _ W1 N2 K1) as (h' & F1 & F2 & F3). rewrite F1. cbn [bindo].
    eexists; split; [reflexivity|]. exists c.
    split; [split; [assumption|split; [assumption|split; [assumption|exact (B4' N2)]]]|]. cbn. rewrite SS. exists m. exact F2.
  - pose proof (list_ok_cap _ _ _ _ _ B0 R0) as [RC1 RC2]. pose proof R0 as RR.
    destruct R0 as (ids & W & E & L & M & C & A & S & F). destruct (BH _ _ _ W) as (W1 & N1 & N2 & K1 & E1).
    pose proof (elem_insert_spec space c h0 m ids (hids s) x (maxsz s) i W1 ltac:(lia) C IB) as EI.
    rewrite RC1 in EI. rewrite <- A in EI. rewrite E1, <- E in EI.
    replace (c x) with v in EI by (unfold c, cset; rewrite Nat.eqb_refl; reflexivity).
    destruct (insert_result (cap ss l) (action l) i v (elems l)) as [cd e] eqn:IR.
    destruct EI as (h' & m' & H1 & H2). rewrite H1. cbn [bindo].
    assert (FAIL2 : cd <> Success -> h' = h0 -> m' = m -> e = elems l -> exists s',
         (let* h3 := efree h' x in
            Some (set_slot {| hp := h0; nextid := Datatypes.S x; slt := SList m; held := held s; maxsz := maxsz s |} h3 (SList m'), OInsert cd false))
            = Some (s', OInsert cd false) /\ Rel s' (put ss (AList (with_elems l e)))).
    { intros Hcd -> -> ->. destruct (FAIL _ _ _ _ W1 N2 K1) as (h3 & F1 & F2 & F3).
      rewrite F1. cbn [bindo]. eexists; split; [reflexivity|]. exists c.
      split; [split; [assumption|split; [assumption|split; [assumption|exact (B4' N2)]]]|]. cbn. exists ids. cbn.
      rewrite E1. repeat split; try assumption; apply F2. }
    destruct cd; try (destruct H2 as (H2 & H3 & H4); apply FAIL2; [discriminate|assumption|assumption|assumption]).
    destruct H2 as (ids' & W' & SA & E' & C' & IN). eexists; split; [reflexivity|].
    exists c. split.
    { split; [assumption|]. split; [assumption|]. split; [|exact (B4' N2)].
      cbn. eapply WF_fresh; [exact W'|]. intros j [J|J]; [|apply KS in K1; apply K1; right; assumption].
      destruct (IN _ J) as [<-|J']; [lia|]. apply KS in K1. apply K1. left; assumption. }
    cbn [fst put sl slt set_slot]. subst e.
    destruct SA as (Q1 & Q2 & Q3 & Q4). exists ids'. cbn. unfold real_cap in *. rewrite Q1, Q2, Q3, Q4.
    rewrite RC1. repeat split; try assumption; apply W'.
Qed.

Lemma firstn_map_skipn (c : nat -> bytes) ids p k : firstn k (skipn p (map c ids)) = map c (firstn k (skipn p ids)).
Proof. rewrite skipn_map, firstn_map. reflexivity. Qed.

Lemma step_delete s ss f t drop : Rel s ss ->
  exists s', step space s (Delete f t drop) = Some (s', snd (spec_step ss (Delete f t drop)))
    /\ Rel s' (fst (spec_step ss (Delete f t drop))).
Proof.
  intros (c & B & R). pose proof B as (B1 & B2 & B3 & B4). cbn [step spec_step]. unfold list_elem_delete.
  destruct (slt s) as [| |m] eqn:SL, (sl ss) as [| |l] eqn:SS; try contradiction.
  - eexists; split; [reflexivity|]. exists c. split; [assumption|]. cbn [fst]. rewrite SL, SS. assumption.
  - eexists; split; [reflexivity|]. exists c. split; [assumption|]. cbn [fst]. rewrite SL, SS. assumption.
  - pose proof R as (ids & W & E & L & M & C & A & S & F).
    set (n := size (elems l)).
    assert (Hn : n = ccnt m) by (unfold n, size; rewrite E, map_length; symmetry; apply W).
    assert (Hn2 : n = Z.of_nat (length ids)) by (unfold n, size; rewrite E, map_length; reflexivity).
    rewrite <- Hn. pose proof (adjust_range_spec n f t ltac:(lia)) as AR. cbv zeta in AR.
    destruct (adjust_range n f t) as [[f' t']|] eqn:EA.
    + destruct AR as (R1 & R2 & R3 & R4 & R5 & R6 & R7).
      set (lo := Z.min (from_head f n) (from_head t n)) in *. set (hi := Z.max (from_head f n) (from_head t n)) in *.
      set (lo' := Z.min f' t') in *. set (hi' := Z.max f' t') in *.
      destruct (between_some space (elems l) lo hi lo' hi' ltac:(assumption) ltac:(assumption) ltac:(lia)) as (Q1 & Q2 & Q3 & Q4).
      destruct (between 0 lo hi (elems l)) as [|b0 bs] eqn:EB; [congruence|]. rewrite <- EB in *. clear EB b0 bs.
      replace (if f' <=? t' then (f', t' - f' + 1) else (t', f' - t' + 1)) with (lo', hi' - lo' + 1)
        by (unfold lo', hi'; destruct (Z.leb_spec f' t'); f_equal; lia).
      destruct (elem_delete_spec _ _ _ _ _ _ _ _ lo' (hi' - lo' + 1) W ltac:(lia) ltac:(lia)) as (h' & m' & D1 & D2 & D3).
      cbv zeta in D2. rewrite D1. cbn [bindo].
      destruct (Z.eqb_spec (hi' - lo' + 1) 0); [lia|].
      set (k := Nat.min (length ids - Z.to_nat lo') (Z.to_nat (hi' - lo' + 1))) in *.
      assert (Hk : Z.of_nat k = hi' - lo' + 1) by lia. rewrite Hk.
      destruct (Z.ltb_spec 0 (hi' - lo' + 1)); [|lia].
      assert (Q2' : outside 0 lo hi (elems l) = map c (firstn (Z.to_nat lo') ids ++ skipn (k + Z.to_nat lo') ids)).
      { rewrite Q2, E, map_app, firstn_map, skipn_map. do 2 f_equal. f_equal. lia. }
      assert (CE : ccnt m' = size (outside 0 lo hi (elems l))).
      { rewrite (w_cnt _ _ _ _ _ _ _ _ D2). unfold size. rewrite Q2', map_length. reflexivity. }
      assert (FR : fresh_ok h' (nextid s)).
      { eapply WF_fresh; [exact D2|]. intros j J. eapply (WF_known _ _ _ _ _ _ _ _ W B3).
        destruct J as [J|J]; [left|right; assumption]. apply in_app_iff in J. destruct J as [J|J];
        [eapply In_firstn; exact J|eapply In_skipn; exact J]. }
      rewrite Q3.
      destruct (outside 0 lo hi (elems l)) as [|o1 os] eqn:EO; [destruct drop|].
      * (* dropped *) rewrite CE. cbn [size length Z.of_nat Z.eqb andb].
        change (0 =? 0) with true. cbn [andb].
        destruct (drop_list_spec _ _ _ _ _ _ _ D2) as (h2 & m2 & D4 & D5). rewrite D4. cbn [bindo].
        eexists; split; [reflexivity|]. exists c. split.
        { apply base_with_slot; [assumption|]. eapply WF_fresh; [exact D5|].
          intros j [[]|J]. eapply (WF_known _ _ _ _ _ _ _ _ W B3). right; assumption. }
        cbn. exists m2. exact D5.
      * rewrite andb_false_r. eexists; split; [reflexivity|]. exists c. split; [apply base_with_slot; assumption|].
        cbn [fst put sl slt set_slot]. rewrite Q2'. eapply list_ok_same; eauto.
        apply (f_equal (@length _)) in Q2'. rewrite map_length in Q2'. cbn [length] in Q2'.
        pose proof (list_ok_cap _ _ _ _ _ B R) as [_ RC]. lia.
      * rewrite CE. replace (size (o1 :: os) =? 0) with false by (unfold size; cbn [length]; lia). cbn [andb].
        eexists; split; [reflexivity|]. exists c. split; [apply base_with_slot; assumption|].
        cbn [fst put sl slt set_slot]. rewrite Q2'. eapply list_ok_same; eauto.
        rewrite app_length, firstn_length, skipn_length. lia.
    + rewrite (between_none space (elems l)) by (fold n; lia).
      eexists; split; [reflexivity|]. exists c. split; [assumption|]. cbn [fst]. rewrite SL, SS. assumption.
Qed.

Lemma skipn_skipn (A : Type) (l : list A) a b : skipn a (skipn b l) = skipn (a + b) l.
Proof.
  revert b. induction l as [|x l IH]; intro b; [rewrite !skipn_nil; reflexivity|].
  destruct b as [|b]; [rewrite Nat.add_0_r; reflexivity|]. rewrite Nat.add_succ_r. cbn [skipn]. apply IH.
Qed.

Lemma elem_get_spec live c h m ids hl f t delete : WF live c h m ids hl [] ->
  0 <= f < Z.of_nat (length ids) -> 0 <= t < Z.of_nat (length ids) ->
  let lo := Z.min f t in let hi := Z.max f t in
  let sel := firstn (Z.to_nat (hi - lo + 1)) (skipn (Z.to_nat lo) ids) in
  let got := if f <=? t then sel else rev sel in
  exists h' m', elem_get space h m f (if f <=? t then t - f + 1 else f - t + 1) (f <=? t) delete = Some (h', m', got) /\
    WF live c h' m' (if delete then firstn (Z.to_nat lo) ids ++ skipn (Z.to_nat (hi + 1)) ids else ids) (hl ++ got) [] /\
    same_attrs m m'.
Proof.
  intros W Hf Ht lo hi sel got. unfold elem_get.
  rewrite (find_spec _ _ _ _ _ _ _ _ _ W Hf). cbn [bindo].
  assert (FU : Z.to_nat (ccnt m) = length ids) by (rewrite (w_cnt _ _ _ _ _ _ _ _ W); lia).
  rewrite FU. destruct (Z.leb_spec f t) as [Hft|Hft].
  - assert (lo = f) by lia. assert (hi = t) by lia. clearbody lo hi. subst lo hi.
    rewrite <- (firstn_skipn (Z.to_nat f) ids) in W.
    destruct (get_loop_fwd space _ _ _ (t - f + 1) delete _ (S (length ids)) _ _ _ _ [] W) as (h' & m' & G1 & G2 & G3).
    { rewrite skipn_length. lia. } { cbn [length]. lia. }
    cbn [app length] in G1. rewrite Nat.sub_0_r in *.
    rewrite skipn_length in *. replace (Nat.min (length ids - Z.to_nat f) (Z.to_nat (t - f + 1))) with (Z.to_nat (t - f + 1)) in * by lia.
    exists h', m'. split; [exact G1|]. split; [|exact G3]. fold sel in G2. destruct delete.
    + rewrite skipn_skipn in G2. replace (Z.to_nat (t + 1)) with (Z.to_nat (t - f + 1) + Z.to_nat f)%nat by lia. exact G2.
    + rewrite firstn_skipn in G2. exact G2.
  - assert (lo = t) by lia. assert (hi = f) by lia. clearbody lo hi. subst lo hi.
    set (p := Z.to_nat (f + 1)).
    assert (HD : hdp (skipn (Z.to_nat f) ids) = hdp (rev (firstn p ids))).
    { destruct (skipn (Z.to_nat f) ids) as [|y r] eqn:E.
      - apply (f_equal (@length _)) in E. rewrite skipn_length in E. cbn [length] in E. lia.
      - assert (E2 : ids = firstn (Z.to_nat f) ids ++ y :: r) by (rewrite <- E; symmetry; apply firstn_skipn).
        replace (firstn p ids) with (firstn (Z.to_nat f) ids ++ [y]).
        + rewrite rev_app_distr. reflexivity.
        + rewrite E2 at 2. unfold p. rewrite firstn_app. rewrite firstn_length.
          replace (Z.to_nat (f + 1) - Nat.min (Z.to_nat f) (length ids))%nat with 1%nat by lia.
          cbn [firstn]. f_equal. rewrite firstn_firstn. f_equal. lia. }
    rewrite HD.
    assert (W2 : WF live c h m (rev (rev (firstn p ids)) ++ skipn p ids) hl []) by (rewrite rev_involutive, firstn_skipn; exact W).
    destruct (get_loop_bwd space _ _ _ (f - t + 1) delete _ (S (length ids)) _ _ _ _ [] W2) as (h' & m' & G1 & G2 & G3).
    { rewrite rev_length, firstn_length. lia. } { cbn [length]. lia. }
    cbn [app length] in G1. rewrite Nat.sub_0_r in *. rewrite rev_length, firstn_length in *.
    replace (Nat.min (Nat.min p (length ids)) (Z.to_nat (f - t + 1))) with (Z.to_nat (f - t + 1)) in * by lia.
    assert (GE : firstn (Z.to_nat (f - t + 1)) (rev (firstn p ids)) = got).
    { unfold got, sel. rewrite firstn_rev, firstn_length, skipn_firstn_comm. f_equal. f_equal; [|f_equal]; lia. }
    rewrite GE in *. exists h', m'. split; [exact G1|]. split; [|exact G3]. destruct delete.
    + rewrite skipn_rev, rev_involutive, firstn_firstn, firstn_length in G2.
      replace (Nat.min (Nat.min p (length ids) - Z.to_nat (f - t + 1)) p) with (Z.to_nat t) in G2 by lia. exact G2.
    + rewrite rev_involutive, firstn_skipn in G2. exact G2.
Qed.

Lemma step_get s ss f t del drop : Rel s ss ->
  exists s', step space s (Get f t del drop) = Some (s', snd (spec_step ss (Get f t del drop)))
    /\ Rel s' (fst (spec_step ss (Get f t del drop))).
Proof.
  intros (c & B & R). pose proof B as (B1 & B2 & B3 & B4). cbn [step spec_step]. unfold list_elem_get.
  destruct (slt s) as [| |m] eqn:SL, (sl ss) as [| |l] eqn:SS; try contradiction.
  - eexists; split; [reflexivity|]. exists c. split; [assumption|]. cbn [fst]. rewrite SL, SS. assumption.
  - eexists; split; [reflexivity|]. exists c. split; [assumption|]. cbn [fst]. rewrite SL, SS. assumption.
  - pose proof R as (ids & W & E & L & M & C & A & S & F). rewrite S.
    destruct (readable m) eqn:RD; cbn [negb];
      [|eexists; split; [reflexivity|]; exists c; split; [assumption|]; cbn [fst]; rewrite SL, SS; assumption].
    set (n := size (elems l)).
    assert (Hn : n = ccnt m) by (unfold n, size; rewrite E, map_length; symmetry; apply W).
    assert (Hn2 : n = Z.of_nat (length ids)) by (unfold n, size; rewrite E, map_length; reflexivity).
    rewrite <- Hn. pose proof (adjust_range_spec n f t ltac:(lia)) as AR. cbv zeta in AR.
    destruct (adjust_range n f t) as [[f' t']|] eqn:EA.
    + destruct AR as (R1 & R2 & R3 & R4 & R5 & R6 & R7).
      destruct (elem_get_spec _ _ _ _ _ _ f' t' del W ltac:(lia) ltac:(lia)) as (h' & m' & D1 & D2 & D3).
      set (lo := Z.min (from_head f n) (from_head t n)) in *. set (hi := Z.max (from_head f n) (from_head t n)) in *.
      set (lo' := Z.min f' t') in *. set (hi' := Z.max f' t') in *.
      destruct (between_some space (elems l) lo hi lo' hi' ltac:(assumption) ltac:(assumption) ltac:(lia)) as (Q1 & Q2 & Q3 & Q4).
      destruct (between 0 lo hi (elems l)) as [|b0 bs] eqn:EB; [congruence|]. rewrite <- EB in *. clear EB b0 bs.
      rewrite D1. cbn [bindo].
      set (sel := firstn (Z.to_nat (hi' - lo' + 1)) (skipn (Z.to_nat lo') ids)) in *.
      assert (SELc : between 0 lo hi (elems l) = map c sel) by (rewrite Q1, E; apply firstn_map_skipn).
      assert (SELl : Z.of_nat (length sel) = hi' - lo' + 1).
      { unfold size in Q3. rewrite SELc, map_length in Q3. exact Q3. }
      set (got := if f' <=? t' then sel else rev sel) in *.
      assert (GNE : got <> []).
      { intro K. assert (length got = length sel) by (unfold got; destruct (f' <=? t'); [|rewrite rev_length]; reflexivity).
        rewrite K in H. cbn [length] in H. lia. }
      assert (HV : forall i, In i got -> hval h' i = c i).
      { intros i I. pose proof (w_held _ _ _ _ _ _ _ _ D2 i (in_or_app _ _ _ (or_intror I))) as Hh. unfold hval.
        destruct (h' i) as [nd|] eqn:En; [|congruence]. eapply w_val; eauto. }
      assert (MV : map (hval h') got = map c got) by (apply map_ext_in; exact HV).
      assert (ANS : map (hval h') got = if from_head f n <=? from_head t n then between 0 lo hi (elems l) else rev (between 0 lo hi (elems l))).
      { rewrite MV, SELc. unfold got.
        destruct (Z.leb_spec (from_head f n) (from_head t n)), (Z.leb_spec f' t'); try lia; [reflexivity| |rewrite map_rev; reflexivity].
        assert (hi' - lo' + 1 = 1) by lia. destruct sel as [|y [|]]; [reflexivity|reflexivity|]. cbn [length] in SELl. lia. }
      rewrite ANS.
      assert (HH : map fst (held s ++ map (fun i => (i, hval h' i)) got) = hids s ++ got).
      { rewrite map_app, map_map. cbn [fst]. rewrite map_id. reflexivity. }
      assert (HB4 : forall i v, In (i, v) (held s ++ map (fun i => (i, hval h' i)) got) -> c i = v).
      { intros i v I. apply in_app_iff in I. destruct I as [I|I]; [apply B4; assumption|].
        apply in_map_iff in I as (j & J1 & J2). inversion J1; subst. symmetry. apply HV. assumption. }
      assert (CE : ccnt m' = Z.of_nat (length (if del then firstn (Z.to_nat lo') ids ++ skipn (Z.to_nat (hi' + 1)) ids else ids)))
        by apply D2.
      assert (OE : outside 0 lo hi (elems l) = map c (firstn (Z.to_nat lo') ids ++ skipn (Z.to_nat (hi' + 1)) ids)).
      { rewrite Q2, E, map_app, firstn_map, skipn_map. reflexivity. }
      assert (FG : iflags m' = flags l) by (destruct D3 as (_ & _ & _ & ->); symmetry; exact F). rewrite FG.
      assert (SI : incl sel ids).
      { intros j J. eapply In_skipn. eapply In_firstn. exact J. }
      assert (KG : forall j, In j (hids s ++ got) -> (j < nextid s)%nat).
      { intros j J. eapply (WF_known _ _ _ _ _ _ _ _ W B3). apply in_app_iff in J. destruct J as [J|J]; [right; assumption|].
        left. apply SI. unfold got in J. destruct (f' <=? t'); [assumption|]. apply in_rev. assumption. }
      assert (KI : forall j, In j (if del then firstn (Z.to_nat lo') ids ++ skipn (Z.to_nat (hi' + 1)) ids else ids) -> (j < nextid s)%nat).
      { intros j J. eapply (WF_known _ _ _ _ _ _ _ _ W B3). left. destruct del; [|assumption].
        apply in_app_iff in J. destruct J as [J|J]; [eapply In_firstn|eapply In_skipn]; exact J. }
      assert (FR : fresh_ok h' (nextid s)).
      { eapply WF_fresh; [exact D2|]. intros j [J|J]; [apply KI|apply KG]; assumption. }
      destruct got as [|g0 gs] eqn:EG; [congruence|]. rewrite <- EG in *. clear EG g0 gs.
      (* the list that stays *)
      assert (STAY : list_ok {| hp := h'; nextid := nextid s; slt := SList m'; held := held s ++ map (fun i => (i, hval h' i)) got; maxsz := maxsz s |}
               c m' (with_elems l (map c (if del then firstn (Z.to_nat lo') ids ++ skipn (Z.to_nat (hi' + 1)) ids else ids)))).
      { destruct D3 as (G1 & G2 & G3 & G4).
        exists (if del then firstn (Z.to_nat lo') ids ++ skipn (Z.to_nat (hi' + 1)) ids else ids).
        split; [unfold hids; cbn [hp held]; rewrite HH; exact D2|]. cbn. unfold real_cap in *. rewrite G1, G2, G3, G4.
        repeat split; try assumption; try congruence.
        destruct del; [|assumption]. rewrite app_length, firstn_length, skipn_length. lia. }
      assert (BASE : forall x y h, fresh_ok h (nextid s) ->
         base_ok {| hp := h; nextid := nextid s; slt := x; held := held s ++ map (fun i => (i, hval h' i)) got; maxsz := maxsz s |} (put ss y) c).
      { intros x y h FF. split; [assumption|]. split; [assumption|]. split; assumption. }
      destruct del.
      * destruct (outside 0 lo hi (elems l)) as [|o1 os] eqn:EO; [destruct drop|].
        -- assert (CZ : ccnt m' = 0) by (rewrite CE, <- (map_length c), <- OE; reflexivity).
           rewrite CZ. change (0 =? 0) with true. cbn [andb negb].
           destruct (drop_list_spec _ _ _ _ _ _ _ D2) as (h2 & m2 & D4 & D5). rewrite D4. cbn [bindo].
           eexists; split; [reflexivity|]. exists c. split.
           { apply BASE. eapply WF_fresh; [exact D5|]. intros j [[]|J]. apply KG; assumption. }
           cbn [fst put sl slt]. exists m2. unfold hids. cbn [hp held]. rewrite HH. exact D5.
        -- rewrite andb_false_r. eexists; split; [reflexivity|]. exists c. split; [apply BASE; assumption|].
           cbn [fst put sl slt]. rewrite OE. exact STAY.
        -- assert (CZ : ccnt m' <> 0) by (rewrite CE, <- (map_length c), <- OE; cbn [length]; lia).
           destruct (Z.eqb_spec (ccnt m') 0); [contradiction|]. cbn [andb].
           eexists; split; [reflexivity|]. exists c. split; [apply BASE; assumption|].
           cbn [fst put sl slt]. rewrite OE. exact STAY.
      * assert (CZ : ccnt m' <> 0) by (rewrite CE; lia).
        destruct (Z.eqb_spec (ccnt m') 0); [contradiction|]. cbn [andb].
        eexists; split; [reflexivity|]. cbn [fst]. rewrite <- (put_same ss). exists c. split; [apply BASE; assumption|].
        cbn [put sl slt]. rewrite SS. replace l with (with_elems l (map c ids)); [exact STAY|].
        rewrite <- E. destruct l; reflexivity.
    + rewrite (between_none space (elems l)) by (fold n; lia).
      eexists; split; [reflexivity|]. exists c. split; [assumption|]. cbn [fst]. rewrite SL, SS. assumption.
Qed.

Lemma step_setattr s ss mc ov rd : Rel s ss ->
  exists s', step space s (SetAttr mc ov rd) = Some (s', snd (spec_step ss (SetAttr mc ov rd)))
    /\ Rel s' (fst (spec_step ss (SetAttr mc ov rd))).
Proof.
  intros (c & B & R). pose proof B as (B1 & B2 & B3 & B4). cbn [step spec_step]. unfold list_setattr.
  destruct (slt s) as [| |m] eqn:SL, (sl ss) as [| |l] eqn:SS; try contradiction.
  - eexists; split; [reflexivity|]. exists c. split; [assumption|]. cbn [fst]. rewrite SL, SS. assumption.
  - eexists; split; [reflexivity|]. exists c. split; [assumption|]. cbn [fst]. rewrite SL, SS. assumption.
  - pose proof R as (ids & W & E & L & M & C & A & S & F).
    pose proof (list_ok_cap _ _ _ _ _ B R) as [RC1 RC2].
    assert (Hn : size (elems l) = ccnt m) by (unfold size; rewrite E, map_length; symmetry; apply W).
    assert (Hn2 : size (elems l) = Z.of_nat (length ids)) by (unfold size; rewrite E, map_length; reflexivity).
    rewrite <- Hn, B1.
    set (mc' := match mc with None => None | Some x => Some (real_maxcount (maxsz s) x) end).
    assert (LIM : (match mc with None => limit l | Some x => want_limit (maxsz s) x end)
        = (let q := match mc' with None => mcnt m | Some x => x end in if q <? 0 then None else Some q)
        /\ (let q := match mc' with None => mcnt m | Some x => x end in q < 0 \/ 1 <= q <= maxsz s)).
    { unfold mc'. destruct mc as [x|]; [apply (real_limit (maxsz s) x B2)|split; assumption]. }
    destruct LIM as [LIM1 LIM2].
    assert (BM : (match mc' with None => false | Some x => (0 <? x) && (x <? size (elems l)) end)
       = negb (match mc, (match mc with None => limit l | Some x => want_limit (maxsz s) x end) with
               | Some _, Some cc => size (elems l) <=? cc | _, _ => true end)).
    { rewrite LIM1. unfold mc' in *. destruct mc as [x|]; [|reflexivity]. cbv zeta in *.
      destruct (Z.ltb_spec (real_maxcount (maxsz s) x) 0); [lia|]. cbn [negb]. lia. }
    rewrite BM.
    assert (CAPOK : (match mc, (match mc with None => limit l | Some x => want_limit (maxsz s) x end) with
               | Some _, Some cc => size (elems l) <=? cc | _, _ => true end) = true ->
        Z.of_nat (length ids) <= (if 0 <? match mc' with None => mcnt m | Some x => x end then match mc' with None => mcnt m | Some x => x end else maxsz s)).
    { rewrite LIM1. unfold mc' in *. destruct mc as [x|]; [|intros _; exact C]. cbv zeta in *.
      destruct (Z.ltb_spec (real_maxcount (maxsz s) x) 0); intro; destruct (Z.ltb_spec 0 (real_maxcount (maxsz s) x)); lia. }
    destruct (match mc, (match mc with None => limit l | Some x => want_limit (maxsz s) x end) with
               | Some _, Some cc => size (elems l) <=? cc | _, _ => true end).
    2:{ cbn [negb orb andb]. eexists; split; [reflexivity|]. exists c. split; [assumption|]. cbn [fst]. rewrite SL, SS. assumption. }
    specialize (CAPOK eq_refl). cbn [negb orb andb].
    destruct ov as [ov|], rd as [[|]|]; try destruct ov; cbn [negb orb andb];
      (eexists; split; [reflexivity|]; exists c; split; [first [assumption|apply base_with_slot; assumption]|]; cbn [fst]);
      try (rewrite SL, SS; assumption);
      cbn [put sl slt set_slot]; exists ids;
      (split; [eapply WF_change_attrs; [exact W|first [reflexivity|exact Hn]..]|]);
      cbn [elems limit action shown flags mcnt ovfl readable iflags real_cap hp hids held maxsz];
      rewrite LIM1; unfold real_cap; cbn [mcnt];
      repeat split; try assumption; reflexivity.
Qed.

Lemma step_getattr s ss : Rel s ss -> snd (spec_step ss GetAttr) = list_getattr s.
Proof.
  intros (c & B & R). cbn [spec_step]. unfold list_getattr.
  destruct (slt s) as [| |m] eqn:SL, (sl ss) as [| |l] eqn:SS; try contradiction; try reflexivity.
  pose proof (list_ok_cap _ _ _ _ _ B R) as [RC1 RC2]. destruct R as (ids & W & E & L & M & C & A & S & F).
  cbn [snd]. rewrite <- RC1, A, S. f_equal. unfold size. rewrite E, map_length. symmetry; apply W.
Qed.

Lemma step_config s ss n : Rel s ss ->
  exists s', step space s (Config n) = Some (s', snd (spec_step ss (Config n)))
    /\ Rel s' (fst (spec_step ss (Config n))).
Proof.
  intros (c & (B1 & B2 & B3 & B4) & R). cbn [step spec_step]. unfold config_max. rewrite B1.
  set (n' := if (n <? 0) || (1000000 <? n) then 1000000 else n).
  destruct (Z.ltb_spec (maxsz s) n').
  - eexists; split; [reflexivity|]. exists c. cbn [fst]. split; [split; [reflexivity|split; [cbn; lia|split; assumption]]|].
    cbn [slt sl]. destruct (slt s) as [| |m] eqn:SL, (sl ss) as [| |l] eqn:SS; try contradiction; try exact R.
    destruct R as (ids & W & E & L & M & C & A & S & F). exists ids. cbn. repeat split; try assumption; try apply W; try lia.
    unfold real_cap in *. destruct (0 <? mcnt m); lia.
  - eexists; split; [reflexivity|]. exists c. split; [split; [|split; [|split]]; assumption|exact R].
Qed.

(* one step of the pointer-level model answers as the specification and stays related to it *)
Theorem step_refines s ss o : op_ok o -> Rel s ss ->
  exists s', step space s o = Some (s', snd (spec_step ss o)) /\ Rel s' (fst (spec_step ss o)).
Proof.
  intros OK R. destruct o.
  - apply step_create; assumption.
  - apply step_insert; assumption.
  - apply step_delete; assumption.
  - apply step_get; assumption.
  - apply step_setattr; assumption.
  - exists s. split.
    + cbn [step]. rewrite (step_getattr s ss) by assumption. reflexivity.
    + cbn [spec_step]. destruct (sl ss); assumption.
  - destruct (step_release _ _ k R) as (s' & H1 & H2). exists s'. split; [exact H1|exact H2].
  - destruct (step_remove _ _ SEmpty NoItem R ltac:(left; split; reflexivity)) as (s' & H1 & H2). exists s'. split; [exact H1|exact H2].
  - destruct (step_remove _ _ SOther OtherItem R ltac:(right; split; reflexivity)) as (s' & H1 & H2). exists s'. split; [exact H1|exact H2].
  - apply step_config; assumption.
Qed.

Lemma Rel_init mx : 4000 <= mx -> Rel (init mx) (spec_init mx).
Proof.
  intro H. exists (fun _ => []). split.
  - split; [reflexivity|]. split; [assumption|]. split; [intros i _; reflexivity|intros i v []].
  - cbn. exists {| head := Null; tail := Null; ccnt := 0; mcnt := 0; ovfl := OvError; readable := true; stotal := 0; iflags := 0%N |}.
    split.
    + constructor.
    + reflexivity.
    + reflexivity.
    + reflexivity.
    + intros a x b K. destruct a; discriminate.
    + reflexivity.
    + intros; discriminate.
    + intros; discriminate.
    + intros; discriminate.
    + intros i [].
    + intros i [].
Qed.

Lemma run_refines ops : forall s ss, Forall op_ok ops -> Rel s ss ->
  exists s', run space s ops = Some (s', snd (spec_run ss ops)) /\ Rel s' (fst (spec_run ss ops)).
Proof.
  induction ops as [|o ops IH]; intros s ss F R; cbn [run spec_run].
  - exists s. split; [reflexivity|exact R].
  - inversion F as [|? ? Ho Hr]; subst. destruct (step_refines s ss o Ho R) as (s1 & H1 & H2).
    rewrite H1. cbn [bindo]. destruct (spec_step ss o) as [ss1 x]. cbn [fst snd] in *.
    destruct (IH s1 ss1 Hr H2) as (s2 & H3 & H4). rewrite H3. cbn [bindo].
    destruct (spec_run ss1 ops) as [ss2 xs]. cbn [fst snd] in *. exists s2. split; [reflexivity|exact H4].
Qed.
End S.
