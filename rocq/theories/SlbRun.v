(* Executions from the start: the initial state meets the invariant; what a history of calls and
   results says about the areas in use and their contents; the layout of the blocks. *)
From Verif Require Import Base SlbModel SlbCls SlbSum SlbList SlbBlk SlbOps SlbChunk SlbInv SlbStep SlbSpec.
Open Scope Z_scope.

(* the settings: item_size_max at least one block, class sizes multiples of 8 (slabs.c 1097-1119) *)
Record settings (imax : Z) (sizes : list Z) : Prop := mkSettings
  { se_imax : 262144 <= imax < 4294967296;
    se_sizes : forall z, In z sizes -> 0 < z <= imax /\ z mod 8 = 0 }.
Definition base_ok (base : option Z) : Prop :=
  match base with None => True | Some b => 0 < b /\ b mod 8 = 0 end.

Definition icsz imax sizes i := c_size (init_cls imax sizes i).
Definition icper imax sizes i := c_per (init_cls imax sizes i).
Definition ilg (sizes : list Z) : Z := Z.of_nat (length sizes) + 1.

Lemma init_static imax sizes : settings imax sizes ->
  static (icsz imax sizes) (icper imax sizes) (ilg sizes).
Proof.
  intros [H1 H2]. unfold ilg, icsz, icper, init_cls.
  assert (P : forall z, 0 < z <= imax -> 1 <= imax / z < 4294967296).
  { intros z Hz. split; [apply Z.div_le_lower_bound; lia|].
    apply Z.le_lt_trans with imax; [apply Z.div_le_upper_bound; nia|lia]. }
  split; [lia| | | |reflexivity]; intros i Hi;
    (destruct (Z.eqb_spec i 0) as [->|];
     [|destruct (nth_error sizes (Z.to_nat (i - 1))) as [z|] eqn:E;
       [apply nth_error_In, H2 in E; destruct (i <=? Z.of_nat (length sizes))|]]);
    cbn [c_size c_per]; change BLK with 262144; try lia; try (apply P; lia).
Qed.

Lemma init_plain imax sizes i : c_slots (init_cls imax sizes i) = [] /\ c_endp (init_cls imax sizes i) = 0 /\
  c_endn (init_cls imax sizes i) = 0 /\ c_slabs (init_cls imax sizes i) = 0 /\ c_req (init_cls imax sizes i) = 0.
Proof.
  unfold init_cls. destruct (i =? 0); [repeat split; reflexivity|].
  destruct (nth_error sizes (Z.to_nat (i - 1))); [|repeat split; reflexivity].
  destruct (i <=? Z.of_nat (length sizes)); repeat split; reflexivity.
Qed.

Lemma bnd_none n : n = NCLS -> bnd (fun _ => false) 0 n (-1).
Proof.
  intros ->. split; [discriminate|left; auto|discriminate|]. reflexivity.
Qed.

Lemma init_inv w0 limit imax sizes base : settings imax sizes -> base_ok base ->
  Inv (icsz imax sizes) (icper imax sizes) (ilg sizes) (init w0 limit imax sizes base) [] [].
Proof.
  intros Se Ba. pose proof (init_static imax sizes Se) as ST.
  assert (NH : forall i, held (icsz imax sizes) (init w0 limit imax sizes base) (out (icsz imax sizes) (ilg sizes) [] []) i = []).
  { intro i. unfold held, init. cbn [s_cls]. destruct (init_plain imax sizes i) as (-> & -> & -> & _).
    unfold out. destruct (i =? 0); reflexivity. }
  split.
  - cbn [init s_mem s_u s_f s_p]. split.
    + exists (fun _ => []). split; try (intros ? []).
      * split; try (intro c; reflexivity).
        -- intro c. intros l1 a l2 E. destruct l1; discriminate E.
        -- intro c. constructor.
        -- intros c a. split; [intros []|intros (g & [] & _)].
        -- apply bnd_none. reflexivity.
      * constructor.
      * split; reflexivity.
    + split; try (intro c; reflexivity); [reflexivity|]. apply bnd_none. reflexivity.
    + constructor.
    + reflexivity.
    + reflexivity.
    + intro H. contradiction.
  - reflexivity.
  - apply Permutation_refl.
  - split.
    + reflexivity.
    + intros i _. reflexivity.
    + intros i _. reflexivity.
    + intros i _. left. cbn [init s_cls]. destruct (init_plain imax sizes i) as (_ & -> & -> & _). auto.
    + unfold areas. match goal with |- ForallOrdPairs djA ?l => replace l with (@nil (Z * Z)) end; [constructor|].
      induction rng as [|i r IH]; [reflexivity|]. cbn. rewrite NH. exact IH.
    + intros i a _ H. rewrite NH in H. destruct H.
    + split; [constructor|intros q []].
    + intros i _. rewrite NH. cbn [init s_cls]. destruct (init_plain imax sizes i) as (_ & _ & _ & -> & _). reflexivity.
    + reflexivity.
    + cbn [init s_arena s_pages]. destruct base; [|exact Logic.I]. destruct Ba. split; [assumption|]. split; [assumption|]. intros q [].
  - intros x [].
  - intros i _. cbn [init s_cls]. destruct (init_plain imax sizes i) as (_ & _ & _ & _ & ->). destruct (i =? 0); reflexivity.
Qed.

(* ---- the history of an execution *)
Section Hist.
Variable malloc : Z -> list (Z * Z) -> Z -> option Z.

(* what the user of the allocator sees of one operation *)
Definition observe (s : st) (live : list (Z * Z)) (o : op) : event :=
  match o with
  | OAlloc size seed =>
      if size <=? 0 then Nothing
      else match slabs_alloc malloc s size seed with
           | Some (_, a) => if a =? 0 then Refused size else Got a size
           | None => Nothing
           end
  | OFree a size _ => if existsb (eq_area (a, size)) live then Gave a size else Nothing
  | OWrite a size off w _ =>
      if existsb (eq_area (a, size)) live && (0 <=? off) && (off <? size) && (off mod 4 =? 0) &&
         negb ((off =? 0) && free_slot w)
      then Wrote a size off w else Nothing
  | OLimit _ => Nothing
  end.

Fixpoint history (s : st) (live : list (Z * Z)) (ops : list op) : list event :=
  match ops with
  | [] => []
  | o :: r => match step malloc s live o with
              | Some (s', live') => observe s live o :: history s' live' r
              | None => []
              end
  end.

Lemma drop_one_eq x l : drop_one x l = remove_area x l.
Proof. induction l as [|y l IH]; [reflexivity|]. cbn [drop_one remove_area]. unfold same, eq_area. rewrite IH. reflexivity. Qed.

(* the areas in use according to the history are the ones of the model *)
Lemma history_use ops : forall s live s' live', run malloc s live ops = Some (s', live') ->
  in_use (history s live ops) live = live'.
Proof.
  induction ops as [|o ops IH]; intros s live s' live' R; cbn [run history] in *.
  - injection R as _ ->. reflexivity.
  - destruct (step malloc s live o) as [[s1 l1]|] eqn:E; [|discriminate R].
    rewrite <- (IH _ _ _ _ R). clear IH R. destruct o as [size seed|a size w|a size off w junk|n]; cbn [step observe] in *.
    + destruct (size <=? 0); [injection E as <- <-; reflexivity|].
      destruct (slabs_alloc malloc s size seed) as [[s2 a]|]; [|discriminate E].
      destruct (a =? 0); injection E as <- <-; reflexivity.
    + destruct (existsb (eq_area (a, size)) live); [|injection E as <- <-; reflexivity].
      destruct (slabs_free (set_mem s (write_mem (s_mem s) a w 0)) a size); [|discriminate E].
      injection E as <- <-. reflexivity.
    + match goal with |- context [if ?c then Wrote _ _ _ _ else _] => destruct c end; injection E as <- <-; reflexivity.
    + injection E as <- <-. reflexivity.
Qed.
End Hist.

Lemma eq_area_iff x y : eq_area x y = true <-> x = y.
Proof.
  unfold eq_area. rewrite andb_true_iff, !Z.eqb_eq. destruct x, y. cbn. split; [intros [-> ->]; reflexivity|intro E; injection E; auto].
Qed.

Section Content.
Variables csz cper : Z -> Z.
Variable lg : Z.
Hypothesis ST : static csz cper lg.
Variable malloc : Z -> list (Z * Z) -> Z -> option Z.
Hypothesis malloc_ok : forall seed pages len a, malloc seed pages len = Some a -> 0 < len ->
  0 < a /\ a mod 8 = 0 /\ (forall x, In x pages -> djA (a, len) x).
Notation Inv := (Inv csz cper lg).

Lemma live_other s B live x y : Inv s B live -> In x live -> In y live -> x = y \/ djA x y.
Proof.
  intros I Hx Hy. pose proof (live_dj _ _ _ ST _ _ _ I) as D.
  destruct (ForallOrdPairs_In D x y Hx Hy) as [E|[H|H]]; auto.
  right. unfold djA in *. lia.
Qed.

Lemma live_notwice s B live x : Inv s B live -> existsb (eq_area x) live = true -> ~ In x (remove_area x live).
Proof.
  intros I Hx H. pose proof (remove_area_perm _ _ Hx) as P. pose proof (live_dj _ _ _ ST _ _ _ I) as D.
  apply (FOPA_perm _ _ P) in D. inversion D as [|? ? D1 _]; subst. rewrite Forall_forall in D1. specialize (D1 x H).
  pose proof (v_lv _ _ _ _ _ _ I x (Permutation_in _ (Permutation_sym P) (or_introl eq_refl))).
  unfold djA in D1. lia.
Qed.

(* c: the word expected at an offset of an area *)
Definition agrees (s : st) (live : list (Z * Z)) (c : Z * Z -> Z -> option cell) : Prop :=
  forall x off w, In x live -> 0 <= off < snd x -> c x off = Some w -> m_w (s_mem s) (fst x + off) = w.

Lemma history_content ops : forall s B live c s' live', Inv s B live -> agrees s live c ->
  run malloc s live ops = Some (s', live') ->
  agrees s' live' (fun x off => last_written (history malloc s live ops) x off (c x off)).
Proof.
  induction ops as [|o ops IH]; intros s B live c s' live' I A R; cbn [run history] in *.
  - injection R as <- <-. exact A.
  - destruct (step_ok _ _ _ ST malloc malloc_ok s B live o I) as (s1 & l1 & B1 & E & I1 & F). rewrite E in R. rewrite E.
    set (c1 := fun x off => match observe malloc s live o with
                            | Got a n => if same (a, n) x then None else c x off
                            | Wrote a n o w => if same (a, n) x && (o =? off) then Some w else c x off
                            | _ => c x off end).
    assert (Q : agrees s' live' (fun x off => last_written (history malloc s1 l1 ops) x off (c1 x off))).
    { apply (IH s1 B1 l1 c1 s' live' I1); [|exact R]. clear IH R s' live'.
      intros x off w Hx Ho Hc. unfold c1 in Hc. clear c1.
      assert (Hy : in_area x (fst x + off)) by (unfold in_area; lia).
      destruct o as [size seed|a size w0|a size o w0 junk|n]; cbn [step observe] in *.
      - destruct (size <=? 0).
        { injection E as <- <-. try rewrite (F x (fst x + off) Hx Hx Hy). apply A; auto. }
        destruct (slabs_alloc malloc s size seed) as [[s2 a]|]; [|discriminate E].
        destruct (a =? 0); injection E as <- <-.
        + rewrite (F x (fst x + off) Hx Hx Hy). apply A; auto.
        + destruct (same (a, size) x) eqn:Sm; [discriminate Hc|].
          destruct Hx as [<-|Hx]; [rewrite (proj2 (eq_area_iff _ _) eq_refl : same _ _ = true) in Sm; discriminate|].
          rewrite (F x (fst x + off) Hx (or_intror Hx) Hy). apply A; auto.
      - destruct (existsb (eq_area (a, size)) live) eqn:Ex.
        2: { injection E as <- <-. apply A; auto. }
        destruct (slabs_free (set_mem s (write_mem (s_mem s) a w0 0)) a size) as [s2|]; [|discriminate E].
        injection E as <- <-.
        assert (Hx' : In x live) by (apply (Permutation_in _ (Permutation_sym (remove_area_perm _ _ Ex))); right; exact Hx).
        rewrite (F x (fst x + off) Hx' Hx Hy). destruct (eq_area (a, size) x) eqn:Eq.
        + apply eq_area_iff in Eq. subst x. exfalso. apply (live_notwice s B live (a, size) I Ex Hx).
        + apply A; auto.
      - assert (E1 : l1 = live).
        { revert E. match goal with |- (if ?b then _ else _) = _ -> _ => destruct b end; intro E; injection E; auto. }
        subst l1. rewrite (F x (fst x + off) Hx Hx Hy).
        destruct (existsb (eq_area (a, size)) live && (0 <=? o) && (o <? size) && (o mod 4 =? 0) &&
                  negb ((o =? 0) && free_slot w0)) eqn:Ec; cbn [andb]; [|apply A; auto].
        destruct (Z.eqb_spec (fst x + off) (a + o)) as [Ea|Na].
        + apply andb_true_iff in Ec as [Ec _]. apply andb_true_iff in Ec as [Ec _]. apply andb_true_iff in Ec as [Ec E3].
          apply andb_true_iff in Ec as [E1 E2]. apply Z.leb_le in E2. apply Z.ltb_lt in E3.
          apply existsb_area in E1. destruct (live_other s B live x (a, size) I Hx E1) as [->|D].
          * cbn [fst] in Ea. rewrite (proj2 (eq_area_iff _ _) eq_refl : same _ _ = true) in Hc. cbn [andb] in Hc.
            destruct (Z.eqb_spec o off); [|lia]. injection Hc. auto.
          * unfold djA in D. cbn [fst snd] in D. lia.
        + destruct (same (a, size) x && (o =? off)) eqn:Sm; [|apply A; auto].
          apply andb_true_iff in Sm as [S1 S2]. apply eq_area_iff in S1. apply Z.eqb_eq in S2. subst x off. cbn [fst] in Na. lia.
      - injection E as <- <-. rewrite (F x (fst x + off) Hx Hx Hy). apply A; auto. }
    intros x off w Hx Ho Hc. apply (Q x off w Hx Ho). revert Hc. cbn [last_written]. unfold c1.
    destruct (observe malloc s live o); auto.
Qed.
End Content.
