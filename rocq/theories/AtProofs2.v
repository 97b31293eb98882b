From Coq Require Import String Ascii.
From Verif Require Import Base UtilModel UtilSpec UtilProofs ArgTypes ArgModel ArgSpec ArgProofs AtModel AtSpec AtProofs.
From Verif Require BtModel BtSpec BtOrder BtKeys.
From Coq Require Import List ZArith NArith Lia Bool.
Local Open Scope nat_scope.
Local Open Scope list_scope.

(* ---------- times ---------- *)
Lemma realtime_due c e : clock_ok c -> realtime c e = due c e.
Proof.
  intros [C S]. unfold realtime, due, STICKY.
  destruct (Z.eqb_spec e 0); [reflexivity|].
  destruct (Z.eqb_spec e (-1)) as [->|]; [reflexivity|].
  destruct (Z.ltb_spec e 0); [reflexivity|].
  destruct (Z.ltb_spec 2592000 e); destruct (Z.leb_spec e 2592000); try (exfalso; lia).
  - destruct (Z.leb_spec e (started c)).
    + replace (Z.max 1 (Z.min (e - started c) 2147483647)) with 1%Z by lia. reflexivity.
    + cbv zeta. destruct (Z.ltb_spec 2147483647 (e - started c)).
      * replace (Z.max 1 (Z.min (e - started c) 2147483647)) with 2147483647%Z by lia. reflexivity.
      * f_equal. lia.
  - rewrite Z.mod_small by lia. f_equal. lia.
Qed.
Lemma due_sticky c e : clock_ok c -> (due c e = 4294967295%N <-> e = (-1)%Z).
Proof.
  intros [C S]. unfold due. split; [|intros ->; reflexivity].
  destruct (Z.eqb_spec e 0); [discriminate|].
  destruct (Z.eqb_spec e (-1)) as [->|]; [reflexivity|].
  destruct (Z.ltb_spec e 0); [discriminate|].
  destruct (Z.leb_spec e 2592000); intro HH; exfalso; lia.
Qed.
Lemma due_range c e : clock_ok c -> (due c e < 2 ^ 31 \/ due c e = 4294967295)%N.
Proof.
  intros [C S]. unfold due.
  destruct (Z.eqb_spec e 0); [lia|].
  destruct (Z.eqb_spec e (-1)) as [->|]; [lia|].
  destruct (Z.ltb_spec e 0); [lia|].
  destruct (Z.leb_spec e 2592000); left; lia.
Qed.
Lemma lefttime_left c e : clock_ok c -> (e < 2 ^ 31 \/ e = 4294967295)%N -> left c e (lefttime c e).
Proof.
  intros [C S] B. unfold left, lefttime, STICKY.
  destruct (N.eqb_spec e 0); [auto|]. destruct (N.eqb_spec e 4294967295); [auto|].
  right; right. split; [auto|]. split; [auto|].
  destruct (Z.leb_spec (Z.of_N e) (cur c)); [auto|]. cbv zeta.
  destruct (Z.ltb_spec (Z.of_N e - cur c) 2147483648); [auto|lia].
Qed.
Lemma left_det c e v w : left c e v -> left c e w -> v = w.
Proof. unfold left. intros A B. lia. Qed.

(* ---------- numbers of elements ---------- *)
Lemma real_wanted z t n : real_maxcount z t n = wanted z t n.
Proof.
  unfold real_maxcount, wanted. destruct (Z.ltb n 0); [reflexivity|]. destruct (Z.eqb n 0); [reflexivity|].
  destruct (Z.ltb_spec (z t) n); lia.
Qed.
Lemma ovfl_allowed_ok t o : t <> KV -> (ovfl_allowed t (ovfl_code o) = true <-> ovfl_of t o).
Proof.
  intro K. destruct t, o; cbn; try congruence; split; intro H; try reflexivity; try discriminate; auto 8;
    repeat (destruct H as [H|H]); discriminate.
Qed.

(* ---------- bkeys ---------- *)
Lemma final_in {A} (f : change -> option A) cs x : final f cs = Some x -> exists ch, In ch cs /\ f ch = Some x.
Proof.
  induction cs as [|ch cs IH]; cbn; intro H; [discriminate|].
  destruct (final f cs) as [y|] eqn:E.
  - destruct (IH H) as (c' & I & F). exists c'. auto.
  - exists ch. auto.
Qed.
Lemma range_key_ok s r : range_arg s (Some r) -> key_ok r.
Proof.
  intro H. inversion H as [? n B N0 E1 E2| |? b B E1 E2]; subst; cbn.
  - inversion B as [|? ? U]; subst. unfold num_u64 in U. 
    destruct U as [(neg & m & rest & _ & _ & M & -> & _)|[_ ->]]; [|lia].
    destruct neg; [|exact M]. apply N.mod_lt. discriminate.
  - inversion B as [? ? U|]; subst. destruct U as (t & -> & N0 & X & L). split.
    + destruct b; cbn in *; [|lia]. inversion X; subst; congruence.
    + clear -X. induction X as [|c1 c2 h l s b D1 D2 X IH]; constructor; auto.
      assert (h < 16 /\ l < 16)%N as [? ?] by (destruct D1, D2; lia). lia.
Qed.
Lemma asked_key_ok args cs r : Forall2 asks args cs -> new_range cs = Some (Some r) -> key_ok r.
Proof.
  intros F H. apply final_in in H. destruct H as (ch & I & E). destruct ch; try discriminate. injection E as ->.
  induction F as [|s ch args cs A F IH]; [destruct I|]. destruct I as [->|I]; [|auto].
  inversion A; subst. eauto using range_key_ok.
Qed.
Lemma key_ok_kok k : key_ok k -> BtKeys.kok k.
Proof. destruct k; cbn; [auto|]. intros [_ H]. exact H. Qed.
Lemma like_sym r a b : same_kind r a -> same_kind a b -> BtKeys.like r a /\ BtKeys.like r b /\ BtKeys.like r r.
Proof. destruct r, a, b; cbn; tauto. Qed.

Lemma wide_ok r mn mx : key_ok r -> key_ok mn -> key_ok mx -> same_kind r mn -> same_kind mn mx -> BtSpec.klt mx mn = false ->
  (too_wide r mn mx = false <-> spans r mn mx).
Proof.
  intros Kr Kn Kx S1 S2 L. destruct (like_sym _ _ _ S1 S2) as (L1 & L2 & L3).
  apply key_ok_kok in Kr, Kn, Kx. unfold too_wide, spans.
  assert (M : (BtSpec.measure r mn <= BtSpec.measure r mx)%N).
  { apply BtKeys.measure_mono'; auto. unfold BtSpec.kle. now rewrite L. }
  rewrite (BtKeys.b_diff_spec r mx mn) by auto.
  rewrite BtKeys.b_isgt_key_of.
  - rewrite N.ltb_ge. lia.
  - exact Kr.
  - apply BtKeys.room_le with (w := BtSpec.measure r mx); [lia|]. apply BtKeys.room_measure; auto.
Qed.
Lemma range_ok z it r : good z it -> i_type it = BTREE -> key_ok r ->
  (range_allowed (i_meta it) (Some r) = true <->
   ((0 < m_ccnt (i_meta it))%Z -> same_kind r (m_min (i_meta it)) /\ spans r (m_min (i_meta it)) (m_top (i_meta it)))).
Proof.
  intros G T Kr. unfold range_allowed.
  destruct (Z.ltb_spec 0 (m_ccnt (i_meta it))) as [P|P]; [|split; [intros _ ?; lia|reflexivity]].
  destruct (g_keys _ _ G T P) as (Kn & Kx & SK & BT & One & Ord).
  assert (KB : (match r with BtModel.U64 _ => N.eqb (m_bktype (i_meta it)) 2 | BtModel.Bin _ => N.eqb (m_bktype (i_meta it)) 1 end) = false <->
    same_kind r (m_min (i_meta it))).
  { rewrite BT. destruct r, (m_min (i_meta it)); cbn; split; auto; try discriminate; contradiction. }
  destruct (match r with BtModel.U64 _ => _ | BtModel.Bin _ => _ end) eqn:E.
  { split; [discriminate|]. intro H. destruct (H P) as [H1 _]. apply KB in H1. discriminate. }
  pose proof (proj1 KB eq_refl) as S1.
  pose proof (wide_ok r _ _ Kr Kn Kx S1 SK Ord) as W.
  destruct (Z.leb 2 (m_ccnt (i_meta it)) && _)%bool eqn:C.
  - rewrite negb_true_iff, W. split; auto. intro H. now apply H.
  - split; [|reflexivity]. intros _ _. split; [exact S1|].
    apply andb_false_iff in C. destruct C as [C|C].
    + apply Z.leb_gt in C. rewrite One by lia. unfold spans. lia.
    + destruct (m_range (i_meta it)) as [q|] eqn:R; [|discriminate].
      rewrite BtOrder.b_isne_spec in C. apply negb_false_iff in C. apply BtOrder.keq_eq in C. subst q.
      destruct (g_range _ _ G r T R) as [_ H]. now apply H.
Qed.

(* ---------- the engine ---------- *)
Lemma meta_eta m : m = mkM (m_mcnt m) (m_ccnt m) (m_ovfl m) (m_read m) (m_trim m) (m_bktype m) (m_range m) (m_min m) (m_top m).
Proof. now destruct m. Qed.
Lemma passes_ok z c it args cs junk : good z it -> i_type it <> KV -> Forall2 asks args cs ->
  (passes z (i_type it) (i_meta it) (map idc cs) (fold_left (upd c) cs junk) = true <->
   (forall n, new_max cs = Some n -> (n < 0 \/ m_ccnt (i_meta it) <= wanted z (i_type it) n)%Z) /\
   (forall o, new_ovfl cs = Some o -> ovfl_of (i_type it) o) /\
   (i_type it = BTREE -> forall r, new_range cs = Some (Some r) -> (0 < m_ccnt (i_meta it))%Z ->
     same_kind r (m_min (i_meta it)) /\ spans r (m_min (i_meta it)) (m_top (i_meta it)))).
Proof.
  intros G NK F. unfold passes. rewrite named_max, named_ovfl, named_read, named_range, fold_max, fold_ovfl, fold_read, fold_range.
  rewrite !andb_true_iff, !orb_true_iff, !negb_true_iff, !andb_false_iff, !Z.ltb_ge.
  assert (R1 : made_readable cs = false \/ ((if made_readable cs then 1%N else d_read junk) =? 1)%N = true).
  { destruct (made_readable cs); auto. }
  assert (Z4 := g_size _ _ G).
  assert (M : isS (new_max cs) = false \/
      (real_maxcount z (i_type it) match new_max cs with Some n => n | None => d_max junk end <= 0)%Z \/
      (m_ccnt (i_meta it) <= real_maxcount z (i_type it) match new_max cs with Some n => n | None => d_max junk end)%Z <->
      (forall n, new_max cs = Some n -> (n < 0 \/ m_ccnt (i_meta it) <= wanted z (i_type it) n)%Z)).
  { destruct (new_max cs) as [n|]; cbn [isS]; [|split; [discriminate|auto]].
    rewrite real_wanted. split.
    - intros H k E. injection E as <-. destruct H as [H|[H|H]]; [discriminate| |auto]. left.
      unfold wanted in H. destruct (Z.ltb_spec n 0); [auto|]. destruct (Z.eqb_spec n 0); lia.
    - intros H. right. destruct (H n eq_refl) as [H'|H']; [left|right; exact H'].
      unfold wanted. destruct (Z.ltb_spec n 0); lia. }
  assert (O : isS (new_ovfl cs) = false \/ ovfl_allowed (i_type it) match new_ovfl cs with Some o => ovfl_code o | None => d_ovfl junk end = true <->
      (forall o, new_ovfl cs = Some o -> ovfl_of (i_type it) o)).
  { destruct (new_ovfl cs) as [o|]; cbn [isS]; [|split; [discriminate|auto]]. split.
    - intros H k E. injection E as <-. destruct H as [H|H]; [discriminate|]. now apply ovfl_allowed_ok in H.
    - intro H. right. apply ovfl_allowed_ok; auto. }
  assert (R : (isS (new_range cs) = false \/ is_btree (i_type it) = false) \/
      range_allowed (i_meta it) match new_range cs with Some r => r | None => d_range junk end = true <->
      (i_type it = BTREE -> forall r, new_range cs = Some (Some r) -> (0 < m_ccnt (i_meta it))%Z ->
        same_kind r (m_min (i_meta it)) /\ spans r (m_min (i_meta it)) (m_top (i_meta it)))).
  { destruct (is_btree (i_type it)) eqn:B.
    2:{ split; [|auto]. intros _ T. rewrite T in B. discriminate. }
    assert (T : i_type it = BTREE) by (destruct (i_type it); try discriminate B; reflexivity).
    destruct (new_range cs) as [[r|]|] eqn:N; cbn [isS].
    - pose proof (range_ok z it r G T (asked_key_ok _ _ _ F N)) as K. split.
      + intros [[H|H]|H]; try discriminate. intros _ r' E. injection E as <-. now apply K.
      + intro H. right. apply K. now apply H.
    - split; [intros _ _ r; discriminate|]. intros _. now right.
    - split; [intros _ _ r; discriminate|]. intros _. auto. }
  rewrite R. rewrite <- M, <- O. tauto.
Qed.

Lemma setattr_engine z c it args cs junk : clock_ok c -> good z it -> Forall2 asks args cs ->
  forall x, do_item_setattr z it (map idc cs) (fold_left (upd c) cs junk) = Some x <-> fine z it cs /\ x = after z c it cs.
Proof.
  intros C G F x. unfold do_item_setattr. fold (named AExpire (map idc cs)). rewrite named_exp, fold_exp.
  assert (E : (isS (new_exp cs) && negb (Bool.eqb (N.eqb (i_exp it) STICKY)
       (N.eqb (match new_exp cs with Some e => realtime c e | None => d_exp junk end) STICKY)))%bool = false <->
     (forall e, new_exp cs = Some e -> (i_exp it = 4294967295%N <-> e = (-1)%Z))).
  { destruct (new_exp cs) as [e|]; cbn [isS andb]; [|split; [discriminate|auto]].
    rewrite negb_false_iff, eqb_true_iff, realtime_due by exact C. pose proof (due_sticky c e C) as D. unfold STICKY. split.
    - intros H k K. injection K as <-. rewrite <- D.
      destruct (N.eqb_spec (i_exp it) 4294967295), (N.eqb_spec (due c e) 4294967295); try discriminate; tauto.
    - intros H. specialize (H e eq_refl). rewrite <- D in H.
      destruct (N.eqb_spec (i_exp it) 4294967295), (N.eqb_spec (due c e) 4294967295); try reflexivity; tauto. }
  assert (E2 : (if isS (new_exp cs) then match new_exp cs with Some e => realtime c e | None => d_exp junk end else i_exp it) =
    match new_exp cs with Some e => due c e | None => i_exp it end).
  { destruct (new_exp cs); cbn [isS]; [now apply realtime_due|reflexivity]. }
  destruct (isS (new_exp cs) && _)%bool eqn:B.
  { split; [discriminate|]. intros [(H & _) _]. apply E in H. discriminate. }
  pose proof (proj1 E eq_refl) as Fe. clear E. rewrite E2. clear E2 B.
  destruct (i_type it) eqn:T.
  { split.
    - intro H. injection H as <-. split.
      + split; [exact Fe|]. rewrite T. repeat split; congruence.
      + unfold after. rewrite T. reflexivity.
    - intros [_ ->]. unfold after. rewrite T. reflexivity. }
  all: assert (NK : i_type it <> KV) by congruence.
  all: pose proof (passes_ok z c it args cs junk G NK F) as P.
  all: assert (Z4 : (4000 <= z (i_type it))%Z) by apply (g_size _ _ G).
  all: pose proof (coll_check_ok z (i_type it) (i_meta it) (map idc cs) Z4 (fold_left (upd c) cs junk)) as [K1 K2].
  all: unfold coll_setattr; rewrite <- T.
  all: destruct (coll_check z (i_type it) (i_meta it) (map idc cs) (fold_left (upd c) cs junk)) as [d ok]; cbn [fst snd] in K1, K2.
  all: rewrite <- K1 in P; clear K1; destruct ok;
    [specialize (K2 eq_refl); pose proof (proj1 P eq_refl) as FF; clear P|split; [discriminate|]; intros [(_ & H1 & H2 & H3) _]; exfalso;
     assert (false = true) as X by (apply P; auto); discriminate].
  all: rewrite fold_set.
  all: assert (Q : set_all (i_type it) d (map idc cs) (i_meta it) = i_meta (after z c it cs)).
  1,3,5,7: unfold set_all, after; cbn [i_meta]; rewrite T; cbn [is_btree]; rewrite named_max, named_ovfl, named_read, named_range;
    rewrite named_max in K2; unfold btree; rewrite T;
    assert (D1 : d_ovfl d = match new_ovfl cs with Some o => ovfl_code o | None => d_ovfl junk end)
      by (subst d; destruct (isS (new_max cs)); cbn [w_max d_ovfl]; now rewrite fold_ovfl);
    assert (D2 : d_range d = match new_range cs with Some r => r | None => d_range junk end)
      by (subst d; destruct (isS (new_max cs)); cbn [w_max d_range]; now rewrite fold_range);
    assert (D3 : (if isS (new_max cs) then d_max d else m_mcnt (i_meta it)) = match new_max cs with Some n => wanted z (i_type it) n | None => m_mcnt (i_meta it) end)
      by (subst d; destruct (new_max cs) as [n|] eqn:NM; cbn [isS]; [cbn [w_max d_max]; rewrite fold_max, NM, real_wanted; reflexivity|reflexivity]);
    rewrite D1, D2, D3, T; clear K2 D1 D2 D3;
    cbn [andb]; rewrite ?andb_false_r;
    destruct (new_ovfl cs) as [o|], (new_range cs) as [[r|]|]; cbn [isS andb negb];
    rewrite ?andb_true_r; try reflexivity.
  all: try (destruct (Z.eqb (m_ccnt (i_meta it)) 0); reflexivity).
  all: try (destruct (Z.eqb (m_ccnt (i_meta it)) 0); rewrite (N.eqb_sym (ovfl_code o)); destruct (N.eqb (m_ovfl (i_meta it)) (ovfl_code o)); cbn [negb]; rewrite ?andb_true_r, ?andb_false_r; reflexivity).
  all: rewrite Q; split;
   [intro H; injection H as <-; split; [split; [exact Fe|]; destruct FF as (F1 & F2 & F3); rewrite T in *; auto|];
    unfold after; cbn [i_meta]; rewrite T; reflexivity
   |intros [_ ->]; unfold after; cbn [i_meta]; rewrite T; reflexivity].
Qed.
