(* The read buffer and the list of pending output. *)
From Coq Require Import String Ascii.
From Verif Require Import Base UtilModel CnModel CnSpec.
From Coq Require Import List.
Local Open Scope string_scope.
Local Open Scope nat_scope.
Local Open Scope list_scope.

Lemma slice_len f o n : length (slice f o n) = n.
Proof. unfold slice. now rewrite map_length, seq_length. Qed.
Lemma slice_app f o a b : slice f o (a + b) = slice f o a ++ slice f (o + a) b.
Proof. unfold slice. now rewrite seq_app, map_app. Qed.
Lemma slice_ext f g o n : (forall i, o <= i < o + n -> f i = g i) -> slice f o n = slice g o n.
Proof. intros H. apply map_ext_in. intros i Hi. apply in_seq in Hi. now apply H. Qed.
Lemma slice_nth f o n i : i < n -> nth i (slice f o n) 0%N = f (o + i).
Proof.
  intros H. unfold slice. rewrite nth_indep with (d' := f 0) by (now rewrite map_length, seq_length).
  now rewrite map_nth, seq_nth.
Qed.
Lemma nth_ext0 (l m : bytes) : length l = length m -> (forall i, i < length l -> nth i l 0%N = nth i m 0%N) -> l = m.
Proof. intros L H. now apply nth_ext with (d := 0%N) (d' := 0%N). Qed.
Lemma slice_blit f o l : slice (blit f o l) o (length l) = l.
Proof.
  apply nth_ext0; rewrite slice_len; auto. intros i Hi. rewrite slice_nth by auto. unfold blit.
  replace (Nat.leb o (o + i)) with true by (symmetry; apply Nat.leb_le; lia).
  replace (Nat.ltb (o + i) (o + length l)) with true by (symmetry; apply Nat.ltb_lt; lia). cbn [andb]. f_equal. lia.
Qed.
Lemma slice_blit_out f o l a n : a + n <= o \/ o + length l <= a -> slice (blit f o l) a n = slice f a n.
Proof.
  intros H. apply slice_ext. intros i Hi. unfold blit.
  destruct (Nat.leb o i) eqn:A; auto. destruct (Nat.ltb i (o + length l)) eqn:B; auto.
  apply Nat.leb_le in A. apply Nat.ltb_lt in B. lia.
Qed.
Lemma slice_skip f o n k : k <= n -> slice f (o + k) (n - k) = skipn k (slice f o n).
Proof.
  intros H. replace n with (k + (n - k)) at 2 by lia. rewrite slice_app, skipn_app, slice_len.
  rewrite skipn_all2 by (rewrite slice_len; lia). now replace (k - k) with 0 by lia.
Qed.
Lemma slice_first f o n k : k <= n -> slice f o k = firstn k (slice f o n).
Proof.
  intros H. replace n with (k + (n - k)) by lia. rewrite slice_app, firstn_app, slice_len.
  rewrite firstn_all2 by (rewrite slice_len; lia). replace (k - k) with 0 by lia. cbn. now rewrite app_nil_r.
Qed.
Lemma slice_put_out f i v o n : i < o \/ o + n <= i -> slice (put f i v) o n = slice f o n.
Proof.
  intros H. apply slice_ext. intros j Hj. unfold put. destruct (Nat.eqb j i) eqn:A; auto. apply Nat.eqb_eq in A. lia.
Qed.

(* ---------- lines ---------- *)

Lemma find_nl_some l i : find_nl l = Some i -> i < length l /\ forall r, cut (l ++ r) = Some (firstn i l, skipn (i + 1) l ++ r).
Proof.
  revert i. induction l as [|b l IH]; intros i H; [discriminate|]. cbn in H. destruct (b =? 10)%N eqn:B.
  - injection H as <-. split; [cbn; lia|]. intros r. cbn. now rewrite B.
  - destruct (find_nl l) as [j|] eqn:F; [|discriminate]. injection H as <-. destruct (IH j eq_refl) as [L C].
    split; [cbn; lia|]. intros r. cbn. now rewrite B, C.
Qed.
Lemma find_nl_none l : find_nl l = None -> cut l = None /\
  forall r a b, cut (l ++ r) = Some (a, b) -> exists t, a = l ++ t.
Proof.
  induction l as [|x l IH]; cbn; intros H.
  - split; auto. intros r a b _. now exists a.
  - destruct (x =? 10)%N eqn:B; [discriminate|]. destruct (find_nl l) eqn:F; [discriminate|]. destruct (IH eq_refl) as [C D].
    rewrite C. split; auto. intros r a b G. destruct (cut (l ++ r)) as [[u v]|] eqn:Q; [|discriminate].
    injection G as <- <-. destruct (D r u v Q) as [t ->]. now exists t.
Qed.
Lemma cut_len l a b : cut l = Some (a, b) -> length a + length b < length l.
Proof.
  revert a b. induction l as [|x l IH]; cbn; intros a b H; [discriminate|]. destruct (x =? 10)%N.
  - injection H as <- <-. cbn. lia.
  - destruct (cut l) as [[u v]|]; [|discriminate]. injection H as <- <-. specialize (IH u v eq_refl). cbn. lia.
Qed.
Lemma chop_spec l : chop l = if Nat.ltb 1 (length l) && (nth (length l - 1) l 0%N =? 13)%N then firstn (length l - 1) l else l.
Proof.
  unfold chop. assert (E := rev_involutive l). revert E. generalize (rev l). intros k <-.
  destruct k as [|a [|b r]]; cbn [rev app length].
  - reflexivity.
  - cbn. reflexivity.
  - rewrite !app_length, rev_length. cbn [length]. replace (Nat.ltb 1 (length r + 1 + 1)) with true by (symmetry; apply Nat.ltb_lt; lia).
    replace (length r + 1 + 1 - 1) with (length (rev r ++ [b])) by (rewrite app_length, rev_length; cbn; lia).
    rewrite app_nth2 by lia. rewrite Nat.sub_diag. cbn [nth andb].
    rewrite firstn_app, firstn_all2, Nat.sub_diag by lia. cbn. rewrite app_nil_r. reflexivity.
Qed.
Lemma starts_app p a b : length p <= length a -> starts p (a ++ b) = starts p a.
Proof.
  revert a. induction p as [|x p IH]; intros a H; cbn; auto. destruct a as [|y a]; cbn in *; [lia|]. rewrite IH by lia. reflexivity.
Qed.
Lemma blanks_app a b : blanks a <= blanks (a ++ b).
Proof. induction a as [|x a IH]; cbn; [lia|]. destruct (x =? 32)%N; lia. Qed.
Lemma blanks_app_eq a b : blanks a < length a -> blanks (a ++ b) = blanks a.
Proof. induction a as [|x a IH]; cbn; [lia|]. destruct (x =? 32)%N; [|auto]. intros H. rewrite IH; lia. Qed.
Lemma blanks_le a : blanks a <= length a.
Proof. induction a as [|x a IH]; cbn; [lia|]. destruct (x =? 32)%N; lia. Qed.

(* an acceptable line is not refused while it is incomplete *)
Lemma line_ok_wait l t : line_ok (l ++ t) ->
  Nat.ltb 1024 (length l) && Nat.ltb 100 (blanks l) = false /\
  Nat.ltb (24 * 1024) (length l) && negb (starts (text "get ") (skipn (blanks l) l)) && negb (starts (text "gets ") (skipn (blanks l) l)) = false.
Proof.
  intros [H|[H K]]; rewrite app_length in *.
  - split.
    + replace (Nat.ltb 1024 (length l)) with false by (symmetry; apply Nat.ltb_ge; lia). reflexivity.
    + replace (Nat.ltb (24 * 1024) (length l)) with false by (symmetry; apply Nat.ltb_ge; lia). reflexivity.
  - assert (B := blanks_app l t). split.
    + replace (Nat.ltb 100 (blanks l)) with false by (symmetry; apply Nat.ltb_ge; lia). now rewrite andb_false_r.
    + destruct (Nat.ltb (24 * 1024) (length l)) eqn:L; [|reflexivity]. apply Nat.ltb_lt in L.
      assert (Q : blanks (l ++ t) = blanks l) by (apply blanks_app_eq; lia). rewrite Q in *.
      assert (W : skipn (blanks l) (l ++ t) = skipn (blanks l) l ++ t).
      { rewrite skipn_app. replace (blanks l - length l) with 0 by lia. reflexivity. }
      rewrite W in K. destruct K as [K|[K|K]]; [lia| |].
      * rewrite starts_app in K by (rewrite skipn_length; cbn; lia). now rewrite K.
      * rewrite starts_app in K by (rewrite skipn_length; cbn; lia). rewrite K. now rewrite andb_false_r.
Qed.

(* ---------- output ---------- *)

Lemma rev_last {A} (l : list A) : l <> [] -> exists l' a, l = l' ++ [a] /\ rev l = a :: rev l'.
Proof.
  intros H. destruct (exists_last H) as (l' & a & ->). exists l', a. split; auto. now rewrite rev_app_distr.
Qed.
Lemma set_last_app {A} (l : list A) a v : set_last (l ++ [a]) v = l ++ [v].
Proof. induction l as [|x l IH]; auto. destruct l; auto. cbn [app set_last] in *. now rewrite IH. Qed.

Fixpoint chain (a : nat) (g : nat) (l : list msg) (e : nat) : Prop :=
  match l with [] => a = e | m :: r => m_gen m = g /\ m_at m = a /\ chain (a + m_len m) g r e end.
Lemma chain_app a g l r e : chain a g (l ++ r) e <-> exists b, chain a g l b /\ chain b g r e.
Proof.
  revert a. induction l as [|m l IH]; intros a; cbn.
  - split; [eauto|]. intros (b & -> & H); auto.
  - rewrite IH. split.
    + intros (A & B & b & C & D). exists b. auto.
    + intros (b & (A & B & C) & D). split; auto. split; auto. exists b. auto.
Qed.
Lemma chain_le g l : forall a e, chain a g l e -> a <= e.
Proof. induction l as [|m l IH]; cbn; intros a e H; [lia|]. destruct H as (_ & _ & H). apply IH in H. lia. Qed.
Lemma chain_repoint g g' l : forall a b e, chain a g l (a + e) -> chain b g' (repoint g' b l) (b + e).
Proof.
  induction l as [|m l IH]; intros a b e H; cbn in *; [lia|]. destruct H as (_ & _ & H).
  split; auto. split; auto. assert (L := chain_le _ _ _ _ H).
  specialize (IH (a + m_len m) (b + m_len m) (e - m_len m)).
  replace (a + m_len m + (e - m_len m)) with (a + e) in IH by lia.
  replace (b + m_len m + (e - m_len m)) with (b + e) in IH by lia. auto.
Qed.
Lemma repoint_nil g b l : repoint g b l = [] -> l = [].
Proof. destruct l; cbn; congruence. Qed.

(* the list under construction holds the parts l *)
Definition BW (o : outq) (l : list bytes) : Prop :=
  o_cur o = 0 /\ o_msgs o <> [] /\ chain 0 (o_gen o) (o_msgs o) (o_used o) /\ length l = o_used o /\
  map (o_iov o) (seq 0 (o_used o)) = l /\ o_used o <= o_size o /\ 0 < o_size o /\
  Forall (fun m => 0 < m_len m) (tl (o_msgs o)).

Lemma BW_reset o : 0 < o_size o -> BW (o_reset o) [].
Proof. intros H. unfold BW, o_reset, add_msghdr. cbn. repeat split; auto; try lia. discriminate. Qed.

Lemma BW_add o l b : BW o l -> exists o', add_iov o b = Some o' /\ BW o' (l ++ [b]).
Proof.
  intros (C & N & CH & L & M & U & Z & T). unfold add_iov.
  set (full := match rev (o_msgs o) with [] => false | m :: _ => Nat.eqb (m_len m) IOV_MAX end).
  set (o1 := if full then add_msghdr o else o).
  set (B0 := fun o => o_cur o = 0 /\ o_msgs o <> [] /\ chain 0 (o_gen o) (o_msgs o) (o_used o) /\ length l = o_used o /\
    map (o_iov o) (seq 0 (o_used o)) = l /\ o_used o <= o_size o /\ 0 < o_size o /\
    exists ms m, o_msgs o = ms ++ [m] /\ Forall (fun m => 0 < m_len m) (tl ms)).
  assert (B1 : B0 o1).
  { unfold o1. destruct full.
    - unfold add_msghdr. unfold B0; cbn. split; auto. split. { destruct (o_msgs o); discriminate. }
      split. { apply chain_app. exists (o_used o). split; auto. cbn. auto. }
      do 4 (split; auto). eexists _, _. split; [reflexivity|]. auto.
    - do 7 (split; auto). destruct (rev_last _ N) as (ms & m & E & _). exists ms, m. split; auto. rewrite E in T.
      destruct ms; cbn in *; auto. now apply Forall_app in T. }
  assert (B2 : B0 (ensure_iov o1) /\ o_used (ensure_iov o1) < o_size (ensure_iov o1)).
  { destruct B1 as (C1 & N1 & CH1 & L1 & M1 & U1 & Z1 & ms & m & T1 & T2). unfold ensure_iov.
    destruct (Nat.leb (o_size o1) (o_used o1)) eqn:F.
    - apply Nat.leb_le in F. cbn [o_used o_size]. split; [|lia]. unfold B0; cbn. split; auto. split.
      { intros X. now apply repoint_nil in X. }
      split. { change (o_used o1) with (0 + o_used o1). eapply chain_repoint with (a := 0). exact CH1. }
      do 2 (split; auto). do 2 (split; [lia|]). rewrite T1. clear -T2.
      assert (G : forall b, exists ms' m', repoint (o_gen o1 + 1) b (ms ++ [m]) = ms' ++ [m'] /\ map m_len ms' = map m_len ms).
      { induction ms as [|x ms IH]; intros b; cbn.
        - exists [], (mkM (o_gen o1 + 1) b (m_len m)). auto.
        - destruct IH with (b := b + m_len x) as (ms' & m' & -> & E). { destruct ms; cbn in *; auto. now inversion T2. }
          eexists (_ :: ms'), m'. split; [reflexivity|]. cbn. now rewrite E. }
      destruct (G 0) as (ms' & m' & -> & E). exists ms', m'. split; auto.
      destruct ms as [|x ms], ms' as [|x' ms']; cbn in *; auto; try discriminate. injection E as _ E.
      rewrite Forall_forall in *. intros y Hy. apply (in_map m_len) in Hy. rewrite E in Hy. apply in_map_iff in Hy.
      destruct Hy as (z & <- & Hz). auto.
    - apply Nat.leb_gt in F. split; [|lia]. do 7 (split; auto). exists ms, m. auto. }
  destruct B2 as [B2 F]. revert B2 F. generalize (ensure_iov o1). clear. intros o B F.
  destruct B as (C & N & CH & L & M & U & Z & ms & m & E & T).
  rewrite E, rev_app_distr. cbn [rev app]. rewrite E in CH.
  apply chain_app in CH. destruct CH as (k & CH & G & A & X). cbn in X.
  rewrite G, Nat.eqb_refl, A. replace (Nat.ltb (k + m_len m) (o_size o)) with true by (symmetry; apply Nat.ltb_lt; lia).
  cbn [andb]. eexists. split; [reflexivity|]. rewrite set_last_app. unfold BW. cbn [o_cur o_msgs o_gen o_used o_size o_iov].
  split; auto. split; [destruct ms; discriminate|]. split.
  { apply chain_app. exists k. split; auto. cbn. repeat split; auto. lia. }
  split. { rewrite app_length. cbn. lia. }
  split; [|split; [lia|split; [lia|]]].
  - rewrite seq_app, map_app. cbn. unfold put at 2. rewrite X, Nat.eqb_refl. f_equal. rewrite <- M.
    apply map_ext_in. intros i Hi. apply in_seq in Hi. unfold put. destruct (Nat.eqb i (o_used o)) eqn:Q; auto.
    apply Nat.eqb_eq in Q. lia.
  - destruct ms; cbn in *; auto. apply Forall_app. split; auto. constructor; cbn; [lia|auto].
Qed.
Lemma BW_adds l' : forall o l, BW o l -> exists o', add_iovs o l' = Some o' /\ BW o' (l ++ l').
Proof.
  induction l' as [|b l' IH]; intros o l H; cbn.
  - exists o. now rewrite app_nil_r.
  - destruct (BW_add o l b H) as (o1 & -> & H1). destruct (IH o1 _ H1) as (o2 & A & B). exists o2. split; auto.
    now rewrite <- app_assoc in B.
Qed.

(* the list being sent *)
Fixpoint ord (a : nat) (l : list msg) : Prop :=
  match l with [] => True | m :: r => a <= m_at m /\ ord (m_at m + m_len m) r end.
Definition msum (f : nat -> bytes) (l : list msg) : bytes := concat (map (fun m => total f (m_at m) (m_len m)) l).
Definition pending (o : outq) : bytes := msum (o_iov o) (skipn (o_cur o) (o_msgs o)).
Definition inmsg (l : list msg) (i : nat) : Prop := exists m, In m l /\ m_at m <= i < m_at m + m_len m.
Definition OW (o : outq) : Prop :=
  let l := skipn (o_cur o) (o_msgs o) in
  Forall (fun m => m_gen m = o_gen o) l /\ ord 0 l /\ (forall i, inmsg l i -> o_iov o i <> []) /\ o_cur o <= length (o_msgs o) /\
  Forall (fun m => 0 < m_len m) (tl l) /\ 0 < o_size o.

Lemma chain_ord g l : forall a b e, chain a g l e -> b <= a -> ord b l.
Proof.
  induction l as [|m l IH]; cbn; intros a b e H K; auto. destruct H as (_ & <- & H). split; auto. eapply IH; [exact H|lia].
Qed.
Lemma chain_gen g l : forall a e, chain a g l e -> Forall (fun m => m_gen m = g) l.
Proof. induction l as [|m l IH]; cbn; intros a e H; auto. destruct H as (G & _ & H). constructor; eauto. Qed.
Lemma chain_sum f g l : forall a e, chain a g l e -> msum f l = total f a (e - a).
Proof.
  induction l as [|m l IH]; cbn; intros a e H.
  - subst. now rewrite Nat.sub_diag.
  - destruct H as (_ & <- & H). assert (L := chain_le _ _ _ _ H). unfold msum in *. cbn. rewrite (IH _ _ H).
    unfold total. rewrite <- concat_app, <- map_app. f_equal. f_equal.
    replace (e - m_at m) with (m_len m + (e - (m_at m + m_len m))) by lia. now rewrite seq_app.
Qed.
Lemma chain_in g l i : forall a e, chain a g l e -> inmsg l i -> a <= i < e.
Proof.
  induction l as [|m l IH]; cbn; intros a e H (m' & I & J); [easy|]. destruct H as (_ & A & H).
  assert (L := chain_le _ _ _ _ H). destruct I as [->|I].
  - lia.
  - assert (K : inmsg l i) by (exists m'; auto). apply (IH _ _ H) in K. lia.
Qed.

Lemma nth_map_nth {A} (l : list A) (f : nat -> A) n i : map f (seq 0 n) = l -> i < n -> In (f i) l.
Proof. intros <- H. apply in_map. apply in_seq. lia. Qed.
Lemma BW_OW o l : BW o l -> Forall (fun p => p <> []) l -> OW o /\ pending o = concat l.
Proof.
  intros (C & N & CH & L & M & U & Z & T) F. unfold OW, pending. rewrite C. cbn [skipn]. repeat split; auto; try lia.
  - eapply chain_gen; eauto.
  - eapply chain_ord; eauto.
  - intros i I. apply (chain_in _ _ _ _ _ CH) in I. rewrite Forall_forall in F. apply F. eapply nth_map_nth; eauto. lia.
  - rewrite (chain_sum _ _ _ _ _ CH), Nat.sub_0_r. unfold total. now rewrite M.
Qed.

Lemma total_S f a n : total f a (S n) = f a ++ total f (a + 1) n.
Proof. unfold total. cbn. now rewrite Nat.add_1_r. Qed.
Lemma consume_spec len : forall f a n, (forall i, a <= i < a + len -> f i <> []) -> n <= length (total f a len) ->
  exists f' a' len', consume f a len n = (f', a', len') /\ a <= a' /\ a' + len' = a + len /\
    total f' a' len' = skipn n (total f a len) /\ (forall i, a' <= i < a + len -> f' i <> []) /\
    (forall i, i < a \/ a + len <= i -> f' i = f i).
Proof.
  induction len as [|k IH]; intros f a n H L.
  - exists f, a, 0. cbn in *. replace n with 0 by lia. repeat split; auto; try lia.
  - cbn [consume]. rewrite total_S in L. rewrite app_length in L. destruct (Nat.leb (length (f a)) n) eqn:B.
    + apply Nat.leb_le in B. destruct (IH f (a + 1) (n - length (f a))) as (f' & a' & l' & E & A1 & A2 & A3 & A4 & A5).
      { intros i Hi. apply H. lia. } { lia. }
      exists f', a', l'. rewrite E. split; auto. split; [lia|]. split; [lia|]. split.
      { rewrite A3, total_S, skipn_app. rewrite (skipn_all2 (f a)) by lia. reflexivity. }
      split. { intros i Hi. apply A4. lia. } { intros i Hi. apply A5. lia. }
    + apply Nat.leb_gt in B. eexists _, a, (S k). split; [reflexivity|]. split; [lia|]. split; [lia|].
      assert (P : forall g, (forall i, i <> a -> g i = f i) -> g a = skipn n (f a) -> total g a (S k) = skipn n (total f a (S k))).
      { intros g G1 G2. rewrite !total_S, skipn_app, G2. replace (n - length (f a)) with 0 by lia. cbn [skipn]. f_equal.
        unfold total. f_equal. apply map_ext_in. intros i Hi. apply in_seq in Hi. apply G1. lia. }
      destruct (Nat.eqb n 0) eqn:Z.
      * apply Nat.eqb_eq in Z. subst n. split. { apply P; auto. } split; auto. 
      * split. { apply P. { intros i Hi. unfold put. destruct (Nat.eqb i a) eqn:Q; auto. apply Nat.eqb_eq in Q. easy. }
          unfold put. now rewrite Nat.eqb_refl. }
        split. { intros i Hi. unfold put. destruct (Nat.eqb i a) eqn:Q; auto. intros X.
          apply (f_equal (@List.length _)) in X. rewrite skipn_length in X. cbn in X. lia. }
        intros i Hi. unfold put. destruct (Nat.eqb i a) eqn:Q; auto. apply Nat.eqb_eq in Q. lia.
Qed.

Lemma skipn_cons_nth {A} (l : list A) i m r : skipn i l = m :: r -> nth_error l i = Some m /\ skipn (S i) l = r /\ i < length l.
Proof.
  revert l. induction i as [|i IH]; intros [|x l] H; cbn in *; try discriminate.
  - injection H as -> ->. repeat split; auto. lia.
  - destruct (IH l H) as (P & Q & R). repeat split; auto. lia.
Qed.
Lemma nth_error_skip {A} (l : list A) i m : nth_error l i = Some m -> skipn i l = m :: skipn (S i) l.
Proof. revert l. induction i as [|i IH]; intros [|x l] H; cbn in *; try discriminate. - now injection H as ->. - now apply IH. Qed.
Lemma set_nth_skip l i m : i < length l -> skipn i (set_nth_msg l i m) = m :: skipn (S i) l.
Proof.
  intros H. unfold set_nth_msg. rewrite skipn_app, skipn_all2 by (rewrite firstn_length; lia).
  rewrite firstn_length. replace (i - Nat.min i (length l)) with 0 by lia. reflexivity.
Qed.
Lemma set_nth_len l i m : i < length l -> length (set_nth_msg l i m) = length l.
Proof. intros H. unfold set_nth_msg. rewrite app_length, firstn_length. cbn [length]. rewrite skipn_length. lia. Qed.

Lemma ord_in a l m : ord a l -> In m l -> a <= m_at m.
Proof.
  revert a. induction l as [|x l IH]; cbn; intros a H I; [easy|]. destruct H as [H K]. destruct I as [->|I]; auto.
  specialize (IH _ K I). lia.
Qed.
Lemma msum_ext f g l a : ord a l -> (forall i, a <= i -> f i = g i) -> msum f l = msum g l.
Proof.
  revert a. unfold msum. induction l as [|x l IH]; cbn; intros a HK G; auto. destruct HK as [H K]. f_equal.
  - unfold total. f_equal. apply map_ext_in. intros i Hi. apply in_seq in Hi. apply G. lia.
  - apply IH with (a := m_at x + m_len x); auto. intros i Hi. apply G. lia.
Qed.

Definition advance (o : outq) : nat :=
  match nth_error (o_msgs o) (o_cur o) with Some m => if Nat.eqb (m_len m) 0 then o_cur o + 1 else o_cur o | None => o_cur o end.
Definition o_at (o : outq) (c : nat) : outq := mkO (o_iov o) (o_used o) (o_size o) (o_gen o) (o_msgs o) c.
Lemma OW_adv o : OW o ->
  OW (o_at o (advance o)) /\ pending (o_at o (advance o)) = pending o /\
  (nth_error (o_msgs o) (advance o) = None -> pending o = []) /\
  (forall m, nth_error (o_msgs o) (advance o) = Some m -> 0 < m_len m).
Proof.
  intros W. unfold advance. destruct (nth_error (o_msgs o) (o_cur o)) as [m|] eqn:N.
  - assert (S1 := nth_error_skip _ _ _ N). destruct W as (A & B & C & D & F & Z). rewrite S1 in *. cbn [tl] in F.
    destruct (Nat.eqb (m_len m) 0) eqn:Q.
    + apply Nat.eqb_eq in Q. rewrite Nat.add_1_r. assert (LL : o_cur o < length (o_msgs o)) by (apply nth_error_Some; congruence).
      assert (W' : OW (o_at o (S (o_cur o)))).
      { unfold OW, o_at. cbn [o_cur o_msgs o_gen o_iov o_size]. inversion A as [|? ? A1 A2]. destruct B as [B1 B2].
        repeat split; auto.
        - clear -B2. destruct (skipn (S (o_cur o)) (o_msgs o)); cbn in *; auto. split; [lia|tauto].
        - intros i (m' & I & J). apply C. exists m'. cbn. auto.
        - destruct (skipn (S (o_cur o)) (o_msgs o)); cbn; auto. now inversion F. }
      split; auto. assert (P : pending (o_at o (S (o_cur o))) = pending o).
      { unfold pending, o_at. cbn [o_cur o_msgs o_iov]. rewrite S1. unfold msum. cbn [map concat]. rewrite Q. reflexivity. }
      split; auto. split.
      * intros N2. rewrite <- P. unfold pending, o_at. cbn [o_cur o_msgs o_iov]. rewrite skipn_all2; auto.
        apply nth_error_None in N2. exact N2.
      * intros m' N2. apply nth_error_skip in N2. rewrite N2 in F. now inversion F.
    + apply Nat.eqb_neq in Q. assert (X : o_at o (o_cur o) = o) by (destruct o; reflexivity). rewrite X.
      split. { unfold OW. rewrite S1. repeat split; auto; apply B. } split; auto. rewrite N. split; [discriminate|]. intros m' [= <-]. lia.
  - assert (X : o_at o (o_cur o) = o) by (destruct o; reflexivity). rewrite X, N. split; auto. split; auto. split; [|discriminate].
    intros _. unfold pending. rewrite skipn_all2; auto. now apply nth_error_None.
Qed.

Lemma OW_send o m : OW o -> nth_error (o_msgs o) (o_cur o) = Some m -> 0 < m_len m ->
  m_gen m = o_gen o /\ total (o_iov o) (m_at m) (m_len m) <> [] /\
  exists rest, pending o = total (o_iov o) (m_at m) (m_len m) ++ rest /\
  forall n, n <= length (total (o_iov o) (m_at m) (m_len m)) ->
    exists f a len, consume (o_iov o) (m_at m) (m_len m) n = (f, a, len) /\
      let o' := mkO f (o_used o) (o_size o) (o_gen o) (set_nth_msg (o_msgs o) (o_cur o) (mkM (m_gen m) a len)) (o_cur o) in
      OW o' /\ pending o' = skipn n (pending o).
Proof.
  intros W N P. assert (S1 := nth_error_skip _ _ _ N). destruct W as (A & B & C & D & F & Z). rewrite S1 in *.
  assert (LL : o_cur o < length (o_msgs o)) by (apply nth_error_Some; congruence).
  inversion A as [|? ? A1 A2]; subst. split; auto. destruct B as [B1 B2].
  assert (NE : forall i, m_at m <= i < m_at m + m_len m -> o_iov o i <> []).
  { intros i Hi. apply C. exists m. cbn. auto. }
  split.
  { destruct (m_len m) as [|k] eqn:K; [lia|]. rewrite total_S. intros X. apply app_eq_nil in X. destruct X as [X _].
    apply (NE (m_at m)); auto. lia. }
  set (r := skipn (S (o_cur o)) (o_msgs o)) in *.
  exists (msum (o_iov o) r). split. { unfold pending. rewrite S1. reflexivity. }
  intros n Hn. destruct (consume_spec (m_len m) (o_iov o) (m_at m) n NE Hn) as (f & a & len & E & C1 & C2 & C3 & C4 & C5).
  exists f, a, len. split; auto. cbn zeta. unfold OW, pending. cbn [o_cur o_msgs o_iov o_gen o_size].
  rewrite set_nth_skip, set_nth_len by auto. fold r. rewrite S1. split.
  - repeat split; cbn; auto; try lia.
    + rewrite C2. exact B2.
    + intros i (m' & [<-|I] & J); cbn in *.
      * apply C4. lia.
      * rewrite C5. { apply C. exists m'. cbn. auto. } right. assert (Q := ord_in _ _ _ B2 I). lia.
  - unfold msum. cbn [map concat m_at m_len]. rewrite skipn_app, C3.
    replace (n - length (total (o_iov o) (m_at m) (m_len m))) with 0 by lia. cbn [skipn]. f_equal.
    apply (msum_ext _ _ _ _ B2). intros i Hi. apply C5. lia.
Qed.
