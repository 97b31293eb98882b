(* Free slot lists: the doubly linked lists in memory, their counters, boundary tags. *)
From Verif Require Import Base SlbModel SlbCls SlbSum.
Open Scope Z_scope.

(* ---- doubly linked list *)
Definition chain (m : memo) (l : list Z) : Prop :=
  forall l1 a l2, l = l1 ++ a :: l2 -> m_prev m a = last l1 0 /\ m_next m a = hd 0 l2.

Lemma chain_frame m m' l :
  (forall a, In a l -> m_prev m' a = m_prev m a /\ m_next m' a = m_next m a) ->
  chain m l -> chain m' l.
Proof.
  intros H C l1 a l2 E. destruct (H a) as [-> ->]; [rewrite E; apply in_or_app; right; left; reflexivity|].
  apply C. exact E.
Qed.

Lemma last_app_cons (l1 : list Z) a l2 d : last (l1 ++ a :: l2) d = last (a :: l2) d.
Proof.
  induction l1 as [|x l1 IH]; [reflexivity|]. cbn [app]. rewrite <- IH.
  destruct (l1 ++ a :: l2) eqn:E; [destruct l1; discriminate|reflexivity].
Qed.

Lemma last_in (l : list Z) d : l <> [] -> In (last l d) l.
Proof.
  intro H. destruct (exists_last H) as (k & x & ->). rewrite last_app_cons. cbn. 
  apply in_or_app. right. left. reflexivity.
Qed.

Lemma app_split (A : Type) (l1 : list A) a l2 k1 b k2 : l1 ++ a :: l2 = k1 ++ b :: k2 ->
  (exists r, l1 = k1 ++ b :: r /\ k2 = r ++ a :: l2) \/ (l1 = k1 /\ a = b /\ l2 = k2) \/
  (exists r, k1 = l1 ++ a :: r /\ l2 = r ++ b :: k2).
Proof.
  revert k1. induction l1 as [|x l1 IH]; intros k1 H; destruct k1 as [|y k1]; cbn [app] in H.
  - injection H as -> ->. right. left. auto.
  - injection H as -> ->. right. right. exists k1. auto.
  - injection H as -> <-. left. exists l1. auto.
  - injection H as -> H. apply IH in H as [(r & -> & ->)|[(-> & -> & ->)|(r & -> & ->)]].
    + left. exists r. auto.
    + right. left. auto.
    + right. right. exists r. auto.
Qed.

Lemma chain_snoc m m' l a : l <> [] -> ~ In a l -> chain m l ->
  m_prev m' = upd (m_prev m) a (last l 0) ->
  m_next m' = upd (upd (m_next m) a 0) (last l 0) a -> NoDup l -> chain m' (l ++ [a]).
Proof.
  intros Hn Hi C Ep En ND l1 b l2 E. rewrite Ep, En. unfold upd.
  pose proof (last_in l 0 Hn) as Li.
  apply app_split in E as [(r & -> & ->)|[(-> & -> & <-)|(r & -> & E)]].
  - destruct (C l1 b r eq_refl) as [C1 C2].
    assert (b <> a) by (intros ->; apply Hi; apply in_or_app; right; left; reflexivity).
    destruct (Z.eqb_spec b a); [contradiction|].
    split; [exact C1|]. rewrite last_app_cons. destruct r as [|x r].
    + cbn [last app hd]. rewrite Z.eqb_refl. reflexivity.
    + rewrite C2. cbn [hd app].
      destruct (Z.eqb_spec b (last (b :: x :: r) 0)) as [Eb|]; [|reflexivity].
      exfalso. change (last (b :: x :: r) 0) with (last (x :: r) 0) in Eb.
      assert (In b (x :: r)) by (rewrite Eb; apply last_in; discriminate).
      apply NoDup_remove_2 in ND. apply ND. apply in_or_app. right. assumption.
  - rewrite Z.eqb_refl. destruct (Z.eqb_spec b (last l1 0)) as [Eb|]; [|auto].
    exfalso. apply Hi. rewrite Eb. exact Li.
  - destruct r; discriminate.
Qed.

Lemma chain_del m m' l1 a l2 : chain m (l1 ++ a :: l2) -> NoDup (l1 ++ a :: l2) ->
  (forall x, In x (l1 ++ a :: l2) -> x <> 0) ->
  m_next m' = (if m_prev m a =? 0 then m_next m else upd (m_next m) (m_prev m a) (m_next m a)) ->
  m_prev m' = (if m_next m a =? 0 then m_prev m else upd (m_prev m) (m_next m a) (m_prev m a)) ->
  chain m' (l1 ++ l2).
Proof.
  intros C ND NZ En Ep k1 b k2 E. rewrite En, Ep. clear En Ep.
  destruct (C l1 a l2 eq_refl) as [-> ->].
  assert (N2 : ~ In a (l1 ++ l2)) by (apply NoDup_remove_2; exact ND).
  assert (ND' : NoDup (l1 ++ l2)) by (apply NoDup_remove_1 in ND; exact ND).
  assert (Cases : (exists r, l1 = k1 ++ b :: r /\ k2 = r ++ l2) \/ (exists r, l2 = r ++ b :: k2 /\ k1 = l1 ++ r)).
  { clear -E. revert k1 E. induction l1 as [|x l1 IH]; intros k1 E.
    - right. exists k1. auto.
    - destruct k1 as [|y k1]; cbn [app] in E.
      + injection E as -> <-. left. exists l1. auto.
      + injection E as -> E. apply IH in E as [(r & -> & ->)|(r & -> & ->)].
        * left. exists r. auto.
        * right. exists r. auto. }
  destruct Cases as [(r & -> & ->)|(r & -> & ->)].
  - destruct (C k1 b (r ++ a :: l2)) as [C1 C2]; [rewrite <- app_assoc; reflexivity|].
    split.
    + destruct (Z.eqb_spec (hd 0 l2) 0) as [|Nz]; [exact C1|]. unfold upd.
      destruct (Z.eqb_spec b (hd 0 l2)) as [Eb|]; [|exact C1]. exfalso.
      destruct l2 as [|y l2]; [cbn in Nz; lia|]. cbn [hd] in Eb. subst y.
      apply NoDup_remove_2 in ND'. apply ND'. apply in_or_app. left. apply in_or_app. right. left. reflexivity.
    + rewrite last_app_cons. destruct r as [|y r].
      * cbn [last app]. assert (b <> 0).
        { apply NZ. apply in_or_app. left. apply in_or_app. right. left. reflexivity. }
        destruct (Z.eqb_spec b 0); [contradiction|]. unfold upd. rewrite Z.eqb_refl. reflexivity.
      * cbn [app hd]. cbn [app hd] in C2.
        change (last (b :: y :: r) 0) with (last (y :: r) 0).
        pose proof (last_in (y :: r) 0 ltac:(discriminate)) as Li.
        destruct (Z.eqb_spec (last (y :: r) 0) 0) as [|Nz]; [exact C2|]. unfold upd.
        destruct (Z.eqb_spec b (last (y :: r) 0)) as [Eb|]; [|exact C2]. exfalso.
        rewrite <- Eb in Li. rewrite <- app_assoc in ND'. apply NoDup_remove_2 in ND'. apply ND'.
        apply in_or_app. right. change (In b ((y :: r) ++ l2)). apply in_or_app. left. exact Li.
  - destruct (C (l1 ++ a :: r) b k2) as [C1 C2]; [rewrite <- app_assoc; reflexivity|].
    split.
    + destruct r as [|y r].
      * cbn [hd app]. assert (b <> 0).
        { apply NZ. apply in_or_app. right. right. left. reflexivity. }
        destruct (Z.eqb_spec b 0); [contradiction|]. unfold upd. rewrite Z.eqb_refl, app_nil_r. reflexivity.
      * cbn [hd app]. rewrite !last_app_cons in C1 |- *.
        change (last (a :: y :: r) 0) with (last (y :: r) 0) in C1.
        destruct (Z.eqb_spec y 0) as [|Nz]; [exact C1|]. unfold upd.
        destruct (Z.eqb_spec b y) as [Eb|]; [|exact C1]. exfalso. subst y.
        cbn [app] in ND'. apply NoDup_remove_2 in ND'. apply ND'. apply in_or_app. right.
        apply in_or_app. right. left. reflexivity.
    + destruct (Z.eqb_spec (last l1 0) 0) as [|Nz]; [exact C2|]. unfold upd.
      destruct (Z.eqb_spec b (last l1 0)) as [Eb|]; [|exact C2]. exfalso.
      assert (Hn : l1 <> []) by (intros ->; cbn in Nz; lia).
      pose proof (last_in l1 0 Hn) as Li. rewrite <- Eb in Li.
      rewrite app_assoc in ND'. apply NoDup_remove_2 in ND'. apply ND'.
      apply in_or_app. left. apply in_or_app. left. exact Li.
Qed.

(* ---- slots in memory *)
Definition goff (g : gs) : Z := g_a g - g_b g.

Definition tag (w : Z -> cell) (g : gs) : Prop :=
  if g_u g
  then w (g_a g + g_l g - 4) = (goff g / 8, g_l g / 8) /\ free_slot (w (g_a g)) = false
  else fst (w (g_a g + g_l g - 4)) = goff g / 8 /\ 0 <= snd (w (g_a g + g_l g - 4)) <= 1 /\
       w (g_a g) = (0, 0) /\ w (g_a g + 4) = (goff g / 8, g_l g / 8).

Record geo1 (g : gs) : Prop := mkGeo
  { ge_b : 0 < g_b g; ge_off : 32 <= goff g; ge_8 : goff g mod 8 = 0; ge_l8 : g_l g mod 8 = 0;
    ge_l : 0 < g_l g; ge_end : goff g + g_l g <= 262144;
    ge_u : g_u g = true -> 32 <= g_l g <= 49152 }.

Definition dj (x y : gs) : Prop := g_a x + g_l x <= g_a y \/ g_a y + g_l y <= g_a x.
Fixpoint djs (g : gs) (l : list gs) : Prop :=
  match l with
  | [] => True
  | x :: r => dj g x /\ djs g r
  end.

Lemma djs_in g l : djs g l <-> (forall x, In x l -> dj g x).
Proof.
  induction l as [|y l IH]; cbn [djs]; split.
  - intros _ x [].
  - auto.
  - intros [A B] x [->|H]; [exact A|]. apply IH; assumption.
  - intro H. split; [apply H; left; reflexivity|]. apply IH. intros; apply H; right; assumption.
Qed.

Record FInv (m : memo) (f : finfo) (FL : Z -> list Z) (l : list gs) : Prop := mkFI
  { fi_chain : forall c, chain m (FL c);
    fi_head : forall c, fl_head (f_sl f c) = hd 0 (FL c);
    fi_tail : forall c, fl_tail (f_sl f c) = last (FL c) 0;
    fi_nd : forall c, NoDup (FL c);
    fi_in : forall c a, In a (FL c) <-> exists g, In g l /\ lnk g = true /\ fcls g = c /\ g_a g = a;
    fi_space : FS f l;
    fi_count : forall c, fl_count (f_sl f c) = fcnt c l;
    fi_len : forall c, Z.of_nat (length (FL c)) = fcnt c l;
    fi_bnd : bnd (fun c => (0 <? fcnt c l) && (c <? 708)) (f_num f) (f_min f) (f_max f) }.

Lemma FInv_perm m f FL l l' : Permutation l l' -> FInv m f FL l -> FInv m f FL l'.
Proof.
  intros P [A1 A2 A3 A4 A5 A6 A7 A8 A9].
  assert (E : forall c, fcnt c l' = fcnt c l) by (intro; symmetry; apply wsum_perm; exact P).
  split; auto.
  - intros c a. rewrite A5. split; intros (g & H & R); exists g; (split; [|exact R]);
      [apply (Permutation_in _ P)|apply (Permutation_in _ (Permutation_sym P))]; exact H.
  - intro c. rewrite A6. apply wsum_perm. exact P.
  - intro c. rewrite E. apply A7.
  - intro c. rewrite E. apply A8.
  - eapply bnd_ext; [|exact A9]. intro c. cbn beta. rewrite E. reflexivity.
Qed.

Lemma FInv_frame m m' f FL l :
  (forall c a, In a (FL c) -> m_prev m' a = m_prev m a /\ m_next m' a = m_next m a) ->
  FInv m f FL l -> FInv m' f FL l.
Proof.
  intros H [A1 A2 A3 A4 A5 A6 A7 A8 A9]. split; auto.
  intro c. apply (chain_frame m); [apply H|apply A1].
Qed.

(* slots that are not in a list do not matter *)
Lemma FInv_other m f FL l g : lnk g = false -> FInv m f FL l <-> FInv m f FL (g :: l).
Proof.
  intro Hk.
  assert (E : forall c, fcnt c (g :: l) = fcnt c l) by (intro; cbn; rewrite Hk; reflexivity).
  assert (E2 : forall c, fsp c (g :: l) = fsp c l) by (intro; cbn; rewrite Hk; reflexivity).
  assert (E3 : forall c a, (exists x, In x (g :: l) /\ lnk x = true /\ fcls x = c /\ g_a x = a) <->
                           (exists x, In x l /\ lnk x = true /\ fcls x = c /\ g_a x = a)).
  { intros c a. split; intros (x & H & R).
    - destruct H as [->|H]; [destruct R; congruence|]. exists x. auto.
    - exists x. split; [right; exact H|exact R]. }
  split; intros [A1 A2 A3 A4 A5 A6 A7 A8 A9]; split; auto.
  - intros c a. rewrite E3. apply A5.
  - intro c. rewrite E2. apply A6.
  - intro c. rewrite E. apply A7.
  - intro c. rewrite E. apply A8.
  - eapply bnd_ext; [|exact A9]. intro c. cbn beta. rewrite E. reflexivity.
  - intros c a. rewrite <- E3. apply A5.
  - intro c. rewrite <- E2. apply A6.
  - intro c. rewrite <- E. apply A7.
  - intro c. rewrite <- E. apply A8.
  - eapply bnd_ext; [|exact A9]. intro c. cbn beta. rewrite E. reflexivity.
Qed.

Lemma u16_small x : 0 <= x < 65536 -> u16 x = x.
Proof. intro. apply Z.mod_small. assumption. Qed.

(* the words written when a slot becomes free, and the words it leaves alone *)
Lemma free_init_tag m g : geo1 g -> g_u g = false ->
  tag (m_w (free_slot_init m (g_a g) (goff g) (g_l g))) g.
Proof.
  intros [G1 G2 G3 G4 G5 G6 G7] Hu. unfold tag. rewrite Hu. unfold free_slot_init. cbn [m_w].
  rewrite !u16_small by lia. set (a := g_a g). set (n := g_l g) in *. set (o := goff g / 8).
  assert (n = 8 \/ 16 <= n) as [E|E] by lia.
  - rewrite E. unfold set_lo, set_hi, upd. cbn [fst snd].
    replace (a + 8 - 4) with (a + 4) by lia.
    repeat match goal with
           | |- context [?x =? ?y] => destruct (Z.eqb_spec x y); try lia
           end; cbn [fst snd]; repeat split; try lia.
  - unfold set_lo, set_hi, upd. cbn [fst snd].
    repeat match goal with
           | |- context [?x =? ?y] => destruct (Z.eqb_spec x y); try lia
           end; cbn [fst snd]; repeat split; try lia; reflexivity.
Qed.

Lemma free_init_frame m a off n x : 8 <= n -> n mod 8 = 0 -> (x < a \/ a + n <= x) ->
  m_w (free_slot_init m a off n) x = m_w m x.
Proof.
  intros H8 Hm H. unfold free_slot_init. cbn [m_w]. unfold set_lo, set_hi, upd.
  repeat match goal with
         | |- context [x =? ?y] => destruct (Z.eqb_spec x y); try lia
         end; reflexivity.
Qed.

Lemma used_init_tag m g : geo1 g -> g_u g = true ->
  tag (m_w (used_slot_init m (g_a g) (goff g) (g_l g))) g.
Proof.
  intros [G1 G2 G3 G4 G5 G6 G7] Hu. unfold tag. rewrite Hu. unfold used_slot_init. cbn [m_w].
  specialize (G7 Hu). rewrite !u16_small by lia.
  unfold set_lo, set_hi, upd. split.
  - destruct (Z.eqb_spec (g_a g + g_l g - 4) (g_a g)); [lia|].
    rewrite !Z.eqb_refl. reflexivity.
  - rewrite Z.eqb_refl. reflexivity.
Qed.

Lemma used_init_frame m a off n x : 8 <= n -> (x < a \/ a + n <= x) ->
  m_w (used_slot_init m a off n) x = m_w m x.
Proof.
  intros H8 H. unfold used_slot_init. cbn [m_w]. unfold set_lo, set_hi, upd.
  repeat match goal with
         | |- context [x =? ?y] => destruct (Z.eqb_spec x y); try lia
         end; reflexivity.
Qed.

(* a tag depends on the words of its slot only *)
Lemma tag_frame w w' g : geo1 g ->
  (forall x, g_a g <= x < g_a g + g_l g -> w' x = w x) -> tag w g -> tag w' g.
Proof.
  intros [G1 G2 G3 G4 G5 G6 G7] H. unfold tag. 
  rewrite !(H (g_a g)), !(H (g_a g + g_l g - 4)) by lia.
  destruct (g_u g); [auto|]. rewrite (H (g_a g + 4)) by lia. auto.
Qed.

Lemma geo_nz g : geo1 g -> g_a g <> 0.
Proof. intros [G1 G2 G3 G4 G5 G6 G7]. unfold goff in *. lia. Qed.

Lemma lnk_true g : lnk g = true <-> g_u g = false /\ 32 <= g_l g.
Proof.
  unfold lnk. destruct (g_u g); cbn [negb andb]; [split; [discriminate|intros [X _]; discriminate]|].
  rewrite Z.leb_le. intuition.
Qed.

(* ---- linking a slot *)
Lemma FL_empty m f FL l c : FInv m f FL l -> (forall x, In x l -> geo1 x) ->
  (FL c = [] -> fl_head (f_sl f c) = 0 /\ fl_tail (f_sl f c) = 0 /\ fl_count (f_sl f c) = 0 /\
                fl_space (f_sl f c) = 0) /\
  (FL c <> [] -> fl_head (f_sl f c) <> 0 /\ fl_tail (f_sl f c) <> 0 /\ 0 < fl_count (f_sl f c) /\
                 0 < fl_space (f_sl f c)).
Proof.
  intros I G. rewrite (fi_head _ _ _ _ I), (fi_tail _ _ _ _ I), (fi_count _ _ _ _ I), (fi_space _ _ _ _ I).
  rewrite <- (fi_len _ _ _ _ I). split; intro H.
  - rewrite H. split; [reflexivity|]. split; [reflexivity|]. split; [reflexivity|].
    apply wsum_zero. intros g Hg. destruct (lnk g) eqn:E; [|reflexivity].
    destruct (Z.eqb_spec (fcls g) c) as [Ec|]; [|reflexivity]. exfalso.
    assert (X : In (g_a g) (FL c)) by (apply (fi_in _ _ _ _ I); exists g; auto).
    rewrite H in X. destruct X.
  - assert (NZ : forall a, In a (FL c) -> a <> 0).
    { intros a Ha. apply (fi_in _ _ _ _ I) in Ha as (g & Hg & _ & _ & <-). apply geo_nz. auto. }
    split; [|split; [|split]].
    + destruct (FL c) as [|a r] eqn:E; [congruence|]. apply NZ. left. reflexivity.
    + apply NZ. apply last_in. exact H.
    + destruct (FL c); [congruence|]. cbn [length]. lia.
    + destruct (FL c) as [|a r] eqn:E; [congruence|].
      assert (Ha : In a (FL c)) by (rewrite E; left; reflexivity).
      apply (fi_in _ _ _ _ I) in Ha as (g & Hg & K & Ec & _).
      apply Z.lt_le_trans with (iff (lnk g && (fcls g =? c)) (g_l g)).
      * rewrite K, Ec, Z.eqb_refl. cbn. apply lnk_true in K. lia.
      * refine (wsum_in (fun g => iff (lnk g && (fcls g =? c)) (g_l g)) l g _ Hg).
        intros g' Hg'. pose proof (ge_l _ (G g' Hg')). unfold iff.
        match goal with |- context [if ?b then _ else _] => destruct b end; lia.
Qed.

(* what is known after linking or unlinking: lists, tags, totals *)
Record LInv (m : memo) (f : finfo) (p : pinfo) (FL : Z -> list Z) (l : list gs) : Prop := mkLI
  { li_f : FInv m f FL l;
    li_tag : forall g, In g l -> tag (m_w m) g;
    li_geo : forall g, In g l -> geo1 g;
    li_dj : ForallOrdPairs dj l;
    li_p : PF p l }.

Lemma link_ok m f p FL l g : LInv m f p FL l -> geo1 g -> g_u g = false ->
  (forall x, In x l -> dj g x) -> (p_cls p <> -1 \/ 49152 <= g_l g) ->
  exists m' f' p' FL', free_slot_link m f p (g_a g) (goff g) (g_l g) = Some (m', f', p') /\
    LInv m' f' p' FL' (g :: l) /\ p_cls p' = p_cls p /\ p_space p' = p_space p /\
    (forall x, x < g_a g \/ g_a g + g_l g <= x -> m_w m' x = m_w m x).
Proof.
  intros [IF IT IG ID [IP1 IP2]] Gg Hu Hd Hp. pose proof Gg as [G1 G2 G3 G4 G5 G6 G7].
  unfold free_slot_link. change MINS with 32.
  set (m1 := free_slot_init m (g_a g) (goff g) (g_l g)).
  assert (T1 : tag (m_w m1) g) by (apply free_init_tag; assumption).
  assert (Fr : forall x, x < g_a g \/ g_a g + g_l g <= x -> m_w m1 x = m_w m x).
  { intros x Hx. apply free_init_frame; [lia|lia|exact Hx]. }
  assert (TA : forall x, In x (g :: l) -> tag (m_w m1) x).
  { intros x [<-|Hx]; [exact T1|]. apply (tag_frame (m_w m)); auto.
    intros y Hy. apply Fr. destruct (Hd x Hx); lia. }
  assert (GA : forall x, In x (g :: l) -> geo1 x) by (intros x [<-|Hx]; auto).
  assert (DA : ForallOrdPairs dj (g :: l)) by (constructor; [apply Forall_forall; exact Hd|exact ID]).
  assert (Epn : m_prev m1 = m_prev m /\ m_next m1 = m_next m) by (split; reflexivity).
  destruct Epn as [Epv Enx].
  assert (Esm : fsm (p_cls p) (g :: l) = iff ((g_l g <? 32) || (fcls g <? p_cls p)) (g_l g) + fsm (p_cls p) l).
  { unfold fsm. cbn [wsum]. rewrite Hu. reflexivity. }
  assert (Eav : fav (p_cls p) (g :: l) = iff ((32 <=? g_l g) && (p_cls p <=? fcls g)) (g_l g) + fav (p_cls p) l).
  { unfold fav. cbn [wsum]. unfold lnk at 1. rewrite Hu. reflexivity. }
  destruct (Z.ltb_spec (g_l g) 32) as [Hs|Hs].
  - exists m1, f, (mkP (p_cls p) (p_space p) (p_small p + g_l g) (p_avail p)), FL.
    split; [reflexivity|]. cbn [p_cls p_space]. split; [|auto].
    assert (K : lnk g = false) by (unfold lnk; rewrite Hu; cbn; apply Z.leb_gt; exact Hs).
    split; auto.
    + apply (FInv_other m1 f FL l g K). apply (FInv_frame m); [|exact IF]. rewrite Epv, Enx. auto.
    + unfold PF. cbn [p_cls p_small p_avail]. rewrite Esm, Eav.
      destruct (Z.leb_spec 32 (g_l g)); [lia|]. cbn [orb andb iff]. split; lia.
  - assert (K : lnk g = true) by (apply lnk_true; auto).
    change (memid (g_l g) false) with (fcls g). set (c := fcls g) in *.
    pose proof (FL_empty m f FL l c IF IG) as [FE FN].
    assert (Hna : ~ In (g_a g) (FL c)).
    { intro X. apply (fi_in _ _ _ _ IF) in X as (x & Hx & _ & _ & Ex).
      pose proof (ge_l _ (IG x Hx)). destruct (Hd x Hx); lia. }
    assert (Rc : 0 <= c <= 708) by (apply memid_range; lia).
    (* totals *)
    set (p' := if negb (p_cls p =? -1) then if c <? p_cls p
                 then mkP (p_cls p) (p_space p) (p_small p + g_l g) (p_avail p)
                 else mkP (p_cls p) (p_space p) (p_small p) (p_avail p + g_l g)
               else if c =? NCLS - 1
                    then mkP (p_cls p) (p_space p) (p_small p) (p_avail p + g_l g) else p).
    assert (HP' : PF p' (g :: l) /\ p_cls p' = p_cls p /\ p_space p' = p_space p).
    { unfold p'. rewrite NCLS_eq. destruct (Z.eqb_spec (p_cls p) (-1)) as [E1|N1]; cbn [negb].
      - assert (E7 : c = 708) by (unfold c, fcls; apply memid_big; lia).
        change (709 - 1) with 708. rewrite E7, Z.eqb_refl. cbn [p_cls p_space].
        split; [|auto]. unfold PF. cbn [p_cls p_small p_avail]. rewrite Esm, Eav, E7, E1 in *.
        destruct (Z.ltb_spec (g_l g) 32); [lia|]. destruct (Z.leb_spec 32 (g_l g)); [|lia].
        cbn. split; lia.
      - unfold PF. destruct (Z.ltb_spec c (p_cls p)) as [L|L]; cbn [p_cls p_space p_small p_avail];
          rewrite Esm, Eav; fold c; destruct (Z.ltb_spec (g_l g) 32); try lia;
          destruct (Z.leb_spec 32 (g_l g)); try lia; destruct (Z.ltb_spec c (p_cls p)); try lia;
          destruct (Z.leb_spec (p_cls p) c); try lia; cbn [orb andb iff]; repeat split; lia. }
    clearbody p'. destruct HP' as (HP1 & HP2 & HP3).
    (* counters *)
    assert (Ecnt : forall x, fcnt x (g :: l) = iff (c =? x) 1 + fcnt x l).
    { intro x. unfold fcnt. cbn [wsum]. rewrite K. reflexivity. }
    assert (Espc : forall x, fsp x (g :: l) = iff (c =? x) (g_l g) + fsp x l).
    { intro x. unfold fsp. cbn [wsum]. rewrite K. reflexivity. }
    pose proof (fcnt_nonneg c l) as Ncnt.
    set (FL' := upd FL c (FL c ++ [g_a g])).
    assert (Hin : forall x a, In a (FL' x) <-> exists y, In y (g :: l) /\ lnk y = true /\ fcls y = x /\ g_a y = a).
    { intros x a. unfold FL', upd. destruct (Z.eqb_spec x c) as [->|N].
      - rewrite in_app_iff, (fi_in _ _ _ _ IF). split.
        + intros [(y & H1 & H2)|[<-|[]]]; [exists y; split; [right; exact H1|exact H2]|].
          exists g. split; [left; reflexivity|auto].
        + intros (y & [<-|H1] & H2 & H3 & H4); [right; left; exact H4|left; exists y; auto].
      - rewrite (fi_in _ _ _ _ IF). split.
        + intros (y & H1 & H2). exists y. split; [right; exact H1|exact H2].
        + intros (y & [<-|H1] & H2 & H3 & H4); [unfold c in N; congruence|exists y; auto]. }
    assert (Hnd : forall x, NoDup (FL' x)).
    { intro x. unfold FL', upd. destruct (Z.eqb_spec x c); [|apply (fi_nd _ _ _ _ IF)].
      rewrite <- (rev_involutive (FL c ++ [g_a g])). apply NoDup_rev. rewrite rev_app_distr. cbn [rev app].
      constructor; [rewrite <- in_rev; exact Hna|]. apply NoDup_rev. apply (fi_nd _ _ _ _ IF). }
    assert (Hlen : forall x, Z.of_nat (length (FL' x)) = fcnt x (g :: l)).
    { intro x. rewrite Ecnt. unfold FL', upd. destruct (Z.eqb_spec x c) as [->|N].
      - rewrite app_length, Z.eqb_refl, <- (fi_len _ _ _ _ IF). cbn [length iff]. lia.
      - rewrite (fi_len _ _ _ _ IF). destruct (Z.eqb_spec c x); [congruence|]. cbn [iff]. lia. }
    rewrite (fi_tail _ _ _ _ IF c), (fi_head _ _ _ _ IF c), (fi_count _ _ _ _ IF c), (fi_space _ _ _ _ IF c).
    rewrite (fi_tail _ _ _ _ IF c), (fi_head _ _ _ _ IF c), (fi_count _ _ _ _ IF c), (fi_space _ _ _ _ IF c) in FE, FN.
    set (empty := last (FL c) 0 =? 0).
    assert (Eemp : empty = match FL c with [] => true | _ => false end).
    { unfold empty. destruct (FL c) as [|a0 r0]; [reflexivity|].
      apply Z.eqb_neq. apply FN. discriminate. }
    match goal with |- context [if negb ?b then None else _] => assert (Ok : b = true) end.
    { rewrite Eemp. destruct (FL c) as [|a0 r0] eqn:E0.
      - destruct FE as (-> & _ & -> & ->); [reflexivity|]. reflexivity.
      - destruct FN as (A1 & _ & A2 & A3); [discriminate|].
        apply andb_true_iff. split; [apply andb_true_iff; split|].
        + apply negb_true_iff. apply Z.eqb_neq. exact A1.
        + apply Z.gtb_lt. lia.
        + apply Z.gtb_lt. lia. }
    rewrite Ok. cbn [negb]. cbn [fl_count].
    set (m2 := if empty then mkM (m_w m1) (upd (m_prev m1) (g_a g) 0) (upd (m_next m1) (g_a g) 0)
               else mkM (m_w m1) (upd (m_prev m1) (g_a g) (last (FL c) 0))
                        (upd (upd (m_next m1) (g_a g) 0) (last (FL c) 0) (g_a g))).
    set (fl' := mkFL (if empty then g_a g else hd 0 (FL c)) (g_a g) (fsp c l + g_l g) (fcnt c l + 1)).
    set (f1 := mkF (f_num f) (f_min f) (f_max f) (upd (f_sl f) c fl')).
    set (f2 := if fcnt c l + 1 =? 1 then free_list_add f1 c else f1).
    assert (Ew : m_w m2 = m_w m1) by (unfold m2; destruct empty; reflexivity).
    assert (Hsl : f_sl f2 = upd (f_sl f) c fl').
    { unfold f2, free_list_add. destruct (_ =? 1); [|reflexivity]. destruct (c >=? NCLS - 1); reflexivity. }
    exists m2, f2, p', FL'. split; [reflexivity|]. split; [|split; [exact HP2|split; [exact HP3|rewrite Ew; exact Fr]]].
    split; auto.
    2:{ rewrite Ew. exact TA. }
    split; auto.
    + (* chains *)
      intro x. unfold FL', upd. destruct (Z.eqb_spec x c) as [->|N].
      * unfold m2. rewrite Eemp. destruct (FL c) as [|a0 r0] eqn:E0.
        -- intros l1 a l2 E. cbn [app] in E. destruct l1 as [|? l1]; [|destruct l1; discriminate].
           injection E as <- <-. cbn [m_prev m_next last hd]. unfold upd. rewrite Z.eqb_refl. auto.
        -- rewrite <- E0. eapply chain_snoc with (m := m); try reflexivity.
           ++ rewrite E0. discriminate.
           ++ rewrite E0. exact Hna.
           ++ apply (fi_chain _ _ _ _ IF).
           ++ apply (fi_nd _ _ _ _ IF).
      * apply (chain_frame m); [|apply (fi_chain _ _ _ _ IF)].
        intros a Ha. apply (fi_in _ _ _ _ IF) in Ha as (y & Hy & Ky & Ey & <-).
        assert (Na : g_a y <> g_a g).
        { pose proof (ge_l _ (IG y Hy)). destruct (Hd y Hy); lia. }
        unfold m2. destruct empty eqn:E0; cbn [m_prev m_next]; unfold upd;
          destruct (Z.eqb_spec (g_a y) (g_a g)); try contradiction; [auto|].
        split; [auto|]. destruct (Z.eqb_spec (g_a y) (last (FL c) 0)) as [El|]; [|auto].
        exfalso. assert (X : In (g_a y) (FL c)).
        { rewrite El. apply last_in. intros E. rewrite E in Eemp. congruence. }
        apply (fi_in _ _ _ _ IF) in X as (z & Hz & Kz & Ez & Eaz).
        assert (z = y).
        { destruct (ForallOrdPairs_In ID z y Hz Hy) as [->|[X|X]]; [reflexivity| |];
            pose proof (ge_l _ (IG y Hy)); pose proof (ge_l _ (IG z Hz)); destruct X; lia. }
        subst z. congruence.
    + intro x. rewrite Hsl. unfold FL', upd. destruct (Z.eqb_spec x c) as [->|N]; [|apply (fi_head _ _ _ _ IF)].
      unfold fl'. cbn [fl_head]. rewrite Eemp. destruct (FL c); reflexivity.
    + intro x. rewrite Hsl. unfold FL', upd. destruct (Z.eqb_spec x c) as [->|N]; [|apply (fi_tail _ _ _ _ IF)].
      unfold fl'. cbn [fl_tail]. rewrite last_app_cons. reflexivity.
    + intro x. rewrite Hsl, Espc. unfold upd. destruct (Z.eqb_spec x c) as [->|N].
      * unfold fl'. cbn [fl_space]. rewrite Z.eqb_refl. cbn [iff]. lia.
      * rewrite (fi_space _ _ _ _ IF). destruct (Z.eqb_spec c x); [congruence|]. cbn [iff]. lia.
    + intro x. rewrite Hsl, Ecnt. unfold upd. destruct (Z.eqb_spec x c) as [->|N].
      * unfold fl'. cbn [fl_count]. rewrite Z.eqb_refl. cbn [iff]. lia.
      * rewrite (fi_count _ _ _ _ IF). destruct (Z.eqb_spec c x); [congruence|]. cbn [iff]. lia.
    + pose proof (fi_bnd _ _ _ _ IF) as B.
      assert (Same : forall x, x <> c -> (0 <? fcnt x (g :: l)) && (x <? 708) = (0 <? fcnt x l) && (x <? 708)).
      { intros x N. rewrite Ecnt. destruct (Z.eqb_spec c x); [congruence|]. reflexivity. }
      unfold f2. destruct (Z.eqb_spec (fcnt c l + 1) 1) as [E1|N1].
      * unfold free_list_add. rewrite NCLS_eq. change (709 - 1) with 708.
        destruct (Z.geb_spec c 708) as [L|L].
        -- cbn [f1 f_num f_min f_max]. eapply bnd_ext; [|exact B]. intro x. cbn beta.
           destruct (Z.eq_dec x c) as [->|N]; [|symmetry; apply Same; exact N].
           destruct (Z.ltb_spec c 708); [lia|]. rewrite !andb_false_r. reflexivity.
        -- cbn [f1 f_num f_min f_max].
           eapply bnd_add with (t := fun x => (0 <? fcnt x l) && (x <? 708)); [exact B|exact Rc| | |exact Same].
           ++ cbn beta. destruct (Z.ltb_spec 0 (fcnt c l)); [lia|reflexivity].
           ++ cbn beta. rewrite Ecnt, Z.eqb_refl. cbn [iff].
              destruct (Z.ltb_spec 0 (1 + fcnt c l)); [|lia]. destruct (Z.ltb_spec c 708); [reflexivity|lia].
      * cbn [f1 f_num f_min f_max]. eapply bnd_ext; [|exact B]. intro x. cbn beta.
        destruct (Z.eq_dec x c) as [->|N]; [|symmetry; apply Same; exact N].
        rewrite Ecnt, Z.eqb_refl. cbn [iff].
        destruct (Z.ltb_spec 0 (fcnt c l)), (Z.ltb_spec 0 (1 + fcnt c l)); try lia; reflexivity.
Qed.

(* ---- unlinking a slot *)
Lemma dj_sym x y : dj x y -> dj y x.
Proof. intros [H|H]; [right|left]; exact H. Qed.

Lemma FOP_perm l l' : Permutation l l' -> ForallOrdPairs dj l -> ForallOrdPairs dj l'.
Proof.
  induction 1 as [|x l l' P IH|x y l|l l' l'' P1 IH1 P2 IH2]; intro H; auto.
  - inversion H as [|? ? A B]; subst. constructor; auto.
    apply Forall_forall. intros z Hz. rewrite Forall_forall in A. apply A.
    apply (Permutation_in _ (Permutation_sym P)). exact Hz.
  - inversion H as [|? ? A B]; subst. inversion B as [|? ? A2 B2]; subst.
    inversion A as [|? ? A0 A1]; subst.
    constructor; [constructor; [apply dj_sym; exact A0|exact A2]|]. constructor; assumption.
Qed.

Lemma LInv_perm m f p FL l l' : Permutation l l' -> LInv m f p FL l -> LInv m f p FL l'.
Proof.
  intros P [A B C D [E1 E2]]. split.
  - apply (FInv_perm _ _ _ l); assumption.
  - intros g Hg. apply B. apply (Permutation_in _ (Permutation_sym P)). exact Hg.
  - intros g Hg. apply C. apply (Permutation_in _ (Permutation_sym P)). exact Hg.
  - apply (FOP_perm l); assumption.
  - split; [rewrite E1; apply wsum_perm; exact P|rewrite E2; apply wsum_perm; exact P].
Qed.

Lemma unlink_ok m f p FL l g : LInv m f p FL (g :: l) -> g_u g = false -> p_cls p <> -1 ->
  exists m' f' p' FL', free_slot_unlink m f p (g_a g) = Some (m', f', p') /\
    LInv m' f' p' FL' l /\ p_cls p' = p_cls p /\ p_space p' = p_space p /\ m_w m' = m_w m.
Proof.
  intros [IF IT IG ID [IP1 IP2]] Hu Hp.
  pose proof (IG g (or_introl eq_refl)) as Gg. pose proof Gg as [G1 G2 G3 G4 G5 G6 G7].
  inversion ID as [|? ? Hd0 ID']; subst. pose proof (proj1 (Forall_forall _ _) Hd0) as Hd. clear Hd0.
  pose proof (IT g (or_introl eq_refl)) as Tg. unfold tag in Tg. rewrite Hu in Tg.
  destruct Tg as (_ & _ & _ & Th).
  assert (IT' : forall x, In x l -> tag (m_w m) x) by (intros; apply IT; right; assumption).
  assert (IG' : forall x, In x l -> geo1 x) by (intros; apply IG; right; assumption).
  unfold free_slot_unlink. rewrite Th. cbn [snd]. change MINS with 32.
  replace (g_l g / 8 * 8) with (g_l g) by lia.
  assert (Esm : fsm (p_cls p) (g :: l) = iff ((g_l g <? 32) || (fcls g <? p_cls p)) (g_l g) + fsm (p_cls p) l).
  { unfold fsm. cbn [wsum]. rewrite Hu. reflexivity. }
  assert (Eav : fav (p_cls p) (g :: l) = iff ((32 <=? g_l g) && (p_cls p <=? fcls g)) (g_l g) + fav (p_cls p) l).
  { unfold fav. cbn [wsum]. unfold lnk at 1. rewrite Hu. reflexivity. }
  destruct (Z.ltb_spec (g_l g) 32) as [Hs|Hs].
  - exists m, f, (mkP (p_cls p) (p_space p) (p_small p - g_l g) (p_avail p)), FL.
    split; [reflexivity|]. cbn [p_cls p_space]. split; [|auto].
    assert (K : lnk g = false) by (unfold lnk; rewrite Hu; cbn; apply Z.leb_gt; exact Hs).
    split; auto.
    + apply (FInv_other m f FL l g K). exact IF.
    + unfold PF. cbn [p_cls p_small p_avail]. rewrite IP1, IP2, Esm, Eav.
      destruct (Z.leb_spec 32 (g_l g)); [lia|]. cbn [orb andb iff]. split; lia.
  - assert (K : lnk g = true) by (apply lnk_true; auto).
    destruct (Z.eqb_spec (p_cls p) (-1)); [contradiction|].
    change (memid (g_l g) false) with (fcls g). set (c := fcls g) in *.
    set (p' := if c <? p_cls p
                 then mkP (p_cls p) (p_space p) (p_small p - g_l g) (p_avail p)
                 else mkP (p_cls p) (p_space p) (p_small p) (p_avail p - g_l g)).
    assert (HP' : PF p' l /\ p_cls p' = p_cls p /\ p_space p' = p_space p).
    { unfold p', PF. destruct (Z.ltb_spec c (p_cls p)) as [L|L]; cbn [p_cls p_space p_small p_avail];
          rewrite ?IP1, ?IP2, ?Esm, ?Eav; fold c;
          destruct (Z.leb_spec 32 (g_l g)); try lia; destruct (Z.ltb_spec c (p_cls p)); try lia;
          destruct (Z.leb_spec (p_cls p) c); try lia; cbn [orb andb iff]; repeat split; lia. }
    clearbody p'. destruct HP' as (HP1 & HP2 & HP3).
    assert (Ecnt : forall x, fcnt x (g :: l) = iff (c =? x) 1 + fcnt x l).
    { intro x. unfold fcnt. cbn [wsum]. rewrite K. reflexivity. }
    assert (Espc : forall x, fsp x (g :: l) = iff (c =? x) (g_l g) + fsp x l).
    { intro x. unfold fsp. cbn [wsum]. rewrite K. reflexivity. }
    assert (Ec1 : fcnt c (g :: l) = 1 + fcnt c l) by (rewrite Ecnt, Z.eqb_refl; reflexivity).
    assert (Es1 : fsp c (g :: l) = g_l g + fsp c l) by (rewrite Espc, Z.eqb_refl; reflexivity).
    pose proof (fcnt_nonneg c l) as Ncnt.
    assert (Ha : In (g_a g) (FL c)).
    { apply (fi_in _ _ _ _ IF). exists g. split; [left; reflexivity|auto]. }
    destruct (in_split _ _ Ha) as (l1 & l2 & EL).
    pose proof (fi_nd _ _ _ _ IF c) as ND. rewrite EL in ND.
    pose proof (NoDup_remove_2 _ _ _ ND) as Nin. pose proof (NoDup_remove_1 _ _ _ ND) as ND'.
    set (FL' := upd FL c (l1 ++ l2)).
    assert (Hin : forall x a, In a (FL' x) <-> exists y, In y l /\ lnk y = true /\ fcls y = x /\ g_a y = a).
    { intros x a. unfold FL', upd. destruct (Z.eqb_spec x c) as [->|N].
      - split.
        + intro X. assert (X2 : In a (FL c)).
          { rewrite EL. apply in_or_app. apply in_app_or in X as [X|X]; [left|right; right]; exact X. }
          apply (fi_in _ _ _ _ IF) in X2 as (y & [<-|Hy] & R); [|exists y; auto].
          destruct R as (_ & _ & <-). contradiction.
        + intros (y & H1 & H2 & H3 & H4).
          assert (X2 : In a (FL c)) by (apply (fi_in _ _ _ _ IF); exists y; split; [right; exact H1|auto]).
          rewrite EL in X2. apply in_app_or in X2 as [X2|[X2|X2]].
          * apply in_or_app. left. exact X2.
          * exfalso. pose proof (ge_l _ (IG' y H1)). destruct (Hd y H1); lia.
          * apply in_or_app. right. exact X2.
      - rewrite (fi_in _ _ _ _ IF). split.
        + intros (y & [<-|H1] & H2 & H3 & H4); [unfold c in N; congruence|exists y; auto].
        + intros (y & H1 & H2). exists y. split; [right; exact H1|exact H2]. }
    assert (Hlen : forall x, Z.of_nat (length (FL' x)) = fcnt x l).
    { intro x. pose proof (fi_len _ _ _ _ IF x) as Lx. rewrite Ecnt in Lx.
      unfold FL', upd. destruct (Z.eqb_spec x c) as [->|N].
      - rewrite EL, Z.eqb_refl in Lx. rewrite app_length in *. cbn [length iff] in *. lia.
      - destruct (Z.eqb_spec c x); [congruence|]. cbn [iff] in Lx. lia. }
    assert (Hnd : forall x, NoDup (FL' x)).
    { intro x. unfold FL', upd. destruct (Z.eqb_spec x c); [exact ND'|apply (fi_nd _ _ _ _ IF)]. }
    assert (NZ : forall x, In x (l1 ++ g_a g :: l2) -> x <> 0).
    { intros x Hx. rewrite <- EL in Hx. apply (fi_in _ _ _ _ IF) in Hx as (y & Hy & _ & _ & <-).
      apply geo_nz. auto. }
    pose proof (fi_chain _ _ _ _ IF c) as CH. rewrite EL in CH.
    destruct (CH l1 (g_a g) l2 eq_refl) as [Pv Nx].
    assert (Same : forall x, x <> c -> (0 <? fcnt x l) && (x <? 708) = (0 <? fcnt x (g :: l)) && (x <? 708)).
    { intros x N. rewrite (Ecnt x). destruct (Z.eqb_spec c x); [congruence|]. reflexivity. }
    rewrite (fi_tail _ _ _ _ IF c), (fi_head _ _ _ _ IF c), (fi_count _ _ _ _ IF c), (fi_space _ _ _ _ IF c), Ec1, Es1.
    assert (Fother : forall x y, x <> c -> In y (FL x) -> ~ In y (FL c)).
    { intros x y N H1 H2. apply (fi_in _ _ _ _ IF) in H1 as (u & Hu1 & _ & Eu & Au).
      apply (fi_in _ _ _ _ IF) in H2 as (v & Hv1 & _ & Ev & Av).
      assert (u = v); [|congruence].
      destruct (ForallOrdPairs_In ID u v Hu1 Hv1) as [->|[X|X]]; [reflexivity| |];
            pose proof (ge_l _ (IG u Hu1)); pose proof (ge_l _ (IG v Hv1)); destruct X; lia. }
    destruct (Z.eqb_spec (1 + fcnt c l) 1) as [E1|N1].
    + (* the only slot of the list *)
      assert (L0 : l1 = [] /\ l2 = []).
      { pose proof (Hlen c) as X. unfold FL', upd in X. rewrite Z.eqb_refl in X.
        destruct l1; [|cbn in X; lia]. destruct l2; [auto|cbn in X; lia]. }
      destruct L0 as [-> ->]. cbn [app] in *.
      assert (Z0 : fsp c l = 0).
      { apply wsum_zero. intros x Hx. destruct (lnk x) eqn:Kx; [|reflexivity].
        destruct (Z.eqb_spec (fcls x) c) as [Ex|]; [|reflexivity]. exfalso.
        assert (X : In (g_a x) (FL' c)) by (apply Hin; exists x; auto).
        unfold FL', upd in X. rewrite Z.eqb_refl in X. destruct X. }
      rewrite EL. cbn [hd last]. rewrite Z0, Z.add_0_r, !Z.eqb_refl. cbn [andb].
      set (f1 := mkF (f_num f) (f_min f) (f_max f) (upd (f_sl f) c (mkFL 0 0 0 0))).
      assert (Hdel : exists f2, free_list_del f1 c = Some f2 /\ f_sl f2 = f_sl f1 /\
                bnd (fun x => (0 <? fcnt x l) && (x <? 708)) (f_num f2) (f_min f2) (f_max f2)).
      { unfold free_list_del. rewrite NCLS_eq. change (709 - 1) with 708.
        pose proof (fi_bnd _ _ _ _ IF) as B.
        destruct (Z.geb_spec c 708) as [Lc|Lc].
        - exists f1. split; [reflexivity|]. split; [reflexivity|]. cbn [f1 f_num f_min f_max].
          eapply bnd_ext; [|exact B]. intro x. cbn beta.
          destruct (Z.eq_dec x c) as [->|N]; [|symmetry; apply Same; exact N].
          destruct (Z.ltb_spec c 708); [lia|]. rewrite !andb_false_r. reflexivity.
        - destruct (bnd_del _ (fun x => (0 <? fcnt x l) && (x <? 708)) _ _ _ c
              (fun i => negb (fl_head (f_sl f1 i) =? 0)) B) as (lo & hi & Ed & Hb).
          + cbn beta. rewrite Ec1. destruct (Z.ltb_spec 0 (1 + fcnt c l)); [|lia].
            destruct (Z.ltb_spec c 708); [reflexivity|lia].
          + cbn beta. destruct (Z.ltb_spec 0 (fcnt c l)); [lia|reflexivity].
          + exact Same.
          + intros x Rx. cbn beta. cbn [f1 f_sl]. unfold upd. destruct (Z.eqb_spec x c) as [->|N].
            * cbn [fl_head]. destruct (Z.ltb_spec 0 (fcnt c l)); [lia|reflexivity].
            * destruct (FL_empty m f FL _ x IF IG) as [X1 X2].
              pose proof (fi_len _ _ _ _ IF x) as Lx.
              assert (E2 : fcnt x (g :: l) = fcnt x l).
              { rewrite Ecnt. destruct (Z.eqb_spec c x); [congruence|]. reflexivity. }
              rewrite E2 in Lx.
              assert (x < 708).
              { pose proof (b_at _ _ _ _ B) as BA. pose proof (b_in _ _ _ _ B) as BI. cbn beta in BA, BI.
                destruct BA as [[B1 B2]|[B1 B2]].
                - rewrite NCLS_eq in B1. lia.
                - apply andb_true_iff in B2 as [_ B2]. apply Z.ltb_lt in B2. lia. }
              destruct (Z.ltb_spec x 708); [|lia]. rewrite andb_true_r.
              destruct (FL x) as [|y r] eqn:EF.
              -- destruct X1 as [-> _]; [reflexivity|]. cbn [length] in Lx. rewrite Z.eqb_refl. cbn [negb].
                 destruct (Z.ltb_spec 0 (fcnt x l)); [lia|reflexivity].
              -- destruct X2 as [X2 _]; [discriminate|].
                 destruct (Z.eqb_spec (fl_head (f_sl f x)) 0); [contradiction|]. cbn [negb].
                 cbn [length] in Lx. destruct (Z.ltb_spec 0 (fcnt x l)); [reflexivity|lia].
          + cbn [f1 f_min f_max f_num f_sl] in Ed |- *. rewrite Ed. eexists. split; [reflexivity|].
            cbn [f_sl f_num f_min f_max]. auto. }
      destruct Hdel as (f2 & Ef2 & Hsl & Hb). rewrite Ef2.
      exists m, f2, p', FL'. split; [reflexivity|]. split; [|auto].
      split; auto. split; auto.
      * intro x. unfold FL', upd. destruct (Z.eqb_spec x c) as [->|N]; [|apply (fi_chain _ _ _ _ IF)].
        intros k1 a k2 E. destruct k1; discriminate.
      * intro x. rewrite Hsl. unfold FL', upd. cbn [f1 f_sl]. unfold upd.
        destruct (Z.eqb_spec x c) as [->|N]; [reflexivity|apply (fi_head _ _ _ _ IF)].
      * intro x. rewrite Hsl. unfold FL', upd. cbn [f1 f_sl]. unfold upd.
        destruct (Z.eqb_spec x c) as [->|N]; [reflexivity|apply (fi_tail _ _ _ _ IF)].
      * intro x. rewrite Hsl. cbn [f1 f_sl]. unfold upd.
        destruct (Z.eqb_spec x c) as [->|N]; [cbn [fl_space]; lia|]. rewrite (fi_space _ _ _ _ IF), Espc.
        destruct (Z.eqb_spec c x); [congruence|]. cbn [iff]. lia.
      * intro x. rewrite Hsl. cbn [f1 f_sl]. unfold upd.
        destruct (Z.eqb_spec x c) as [->|N]; [cbn [fl_count]; lia|]. rewrite (fi_count _ _ _ _ IF), Ecnt.
        destruct (Z.eqb_spec c x); [congruence|]. cbn [iff]. lia.
    + (* more slots in the list *)
      assert (Lne : l1 ++ l2 <> []).
      { pose proof (Hlen c) as X. unfold FL', upd in X. rewrite Z.eqb_refl in X.
        intros E. rewrite E in X. cbn in X. lia. }
      assert (Psp : 0 < fsp c l).
      { assert (X : In (last (l1 ++ l2) 0) (FL' c)).
        { unfold FL', upd. rewrite Z.eqb_refl. apply last_in. exact Lne. }
        apply Hin in X as (x & Hx & Kx & Ex & _).
        apply Z.lt_le_trans with (iff (lnk x && (fcls x =? c)) (g_l x)).
        - rewrite Kx, Ex, Z.eqb_refl. cbn. apply lnk_true in Kx. lia.
        - refine (wsum_in (fun g => iff (lnk g && (fcls g =? c)) (g_l g)) l x _ Hx).
          intros g' Hg'. pose proof (ge_l _ (IG' g' Hg')). unfold iff.
          match goal with |- context [if ?b then _ else _] => destruct b end; lia. }
      destruct (Z.gtb_spec (1 + fcnt c l) 1); [|lia].
      destruct (Z.gtb_spec (g_l g + fsp c l) (g_l g)); [|lia].
      assert (Hh0 : hd 0 (FL c) <> 0).
      { rewrite EL. apply NZ. destruct l1; [left|left]; reflexivity. }
      assert (Ht0 : last (FL c) 0 <> 0).
      { rewrite EL. apply NZ. apply last_in. destruct l1; discriminate. }
      destruct (Z.eqb_spec (hd 0 (FL c)) 0); [contradiction|].
      destruct (Z.eqb_spec (last (FL c) 0) 0); [contradiction|]. cbn [andb negb].
      match goal with |- exists m' f' p' FL', Some (?a, ?b, _) = _ /\ _ => set (m2 := a); set (f2 := b) end.
      exists m2, f2, p', FL'. split; [reflexivity|]. split; [|auto].
      split; auto. split; auto.
      * intro x. unfold FL', upd. destruct (Z.eqb_spec x c) as [->|N].
        -- eapply chain_del with (m := m) (a := g_a g); [exact CH|exact ND|exact NZ|reflexivity|reflexivity].
        -- apply (chain_frame m); [|apply (fi_chain _ _ _ _ IF)].
           intros a Hax. pose proof (Fother x a N Hax) as Na. rewrite EL in Na. unfold m2. cbn [m_prev m_next].
           rewrite Pv, Nx. split.
           ++ destruct (Z.eqb_spec (hd 0 l2) 0) as [|Nz]; [reflexivity|]. unfold upd.
              destruct (Z.eqb_spec a (hd 0 l2)) as [Eb|]; [|reflexivity]. exfalso. apply Na. rewrite Eb.
              apply in_or_app. right. right. destruct l2; [cbn in Nz; lia|left; reflexivity].
           ++ destruct (Z.eqb_spec (last l1 0) 0) as [|Nz]; [reflexivity|]. unfold upd.
              destruct (Z.eqb_spec a (last l1 0)) as [Eb|]; [|reflexivity]. exfalso. apply Na. rewrite Eb.
              apply in_or_app. left. apply last_in. intros ->. cbn in Nz. lia.
      * intro x. unfold f2, FL', upd. cbn [f_sl]. unfold upd.
        destruct (Z.eqb_spec x c) as [->|N]; [|apply (fi_head _ _ _ _ IF)].
        cbn [fl_head]. rewrite EL, Nx. destruct l1 as [|y l1].
        -- cbn [app hd]. rewrite Z.eqb_refl. reflexivity.
        -- cbn [app hd]. destruct (Z.eqb_spec y (g_a g)) as [->|]; [|reflexivity].
           exfalso. apply Nin. left. reflexivity.
      * intro x. unfold f2, FL', upd. cbn [f_sl]. unfold upd.
        destruct (Z.eqb_spec x c) as [->|N]; [|apply (fi_tail _ _ _ _ IF)].
        cbn [fl_tail]. rewrite EL, Pv, last_app_cons. destruct l2 as [|y l2].
        -- cbn [last]. rewrite Z.eqb_refl, app_nil_r. reflexivity.
        -- rewrite last_app_cons. change (last (g_a g :: y :: l2) 0) with (last (y :: l2) 0).
           destruct (Z.eqb_spec (last (y :: l2) 0) (g_a g)) as [E|]; [|reflexivity].
           exfalso. apply Nin. apply in_or_app. right. rewrite <- E. apply last_in. discriminate.
      * intro x. unfold f2. cbn [f_sl]. unfold upd.
        destruct (Z.eqb_spec x c) as [->|N]; [cbn [fl_space]; lia|]. rewrite (fi_space _ _ _ _ IF), Espc.
        destruct (Z.eqb_spec c x); [congruence|]. cbn [iff]. lia.
      * intro x. unfold f2. cbn [f_sl]. unfold upd.
        destruct (Z.eqb_spec x c) as [->|N]; [cbn [fl_count]; lia|]. rewrite (fi_count _ _ _ _ IF), Ecnt.
        destruct (Z.eqb_spec c x); [congruence|]. cbn [iff]. lia.
      * unfold f2. cbn [f_num f_min f_max]. eapply bnd_ext; [|exact (fi_bnd _ _ _ _ IF)]. intro x. cbn beta.
        destruct (Z.eq_dec x c) as [->|N]; [|symmetry; apply Same; exact N].
        rewrite Ec1. destruct (Z.ltb_spec 0 (fcnt c l)), (Z.ltb_spec 0 (1 + fcnt c l)); try lia; reflexivity.
Qed.
