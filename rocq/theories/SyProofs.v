(* Proofs about fsync and group commit. *)
From Verif Require Import Base LbModel LbSpec LbProofs LbInv LbLive SyModel SySpec.
Open Scope N_scope.

Lemma prefix_refl a : prefix a a.
Proof. exists []. apply app_nil_r. Qed.
Lemma prefix_trans a b c : prefix a b -> prefix b c -> prefix a c.
Proof. intros [x <-] [y <-]. exists (x ++ y). apply app_assoc. Qed.
Lemma prefix_firstn k (a : bytes) : prefix (firstn k a) a.
Proof. exists (skipn k a). apply firstn_skipn. Qed.
Lemma prefix_len a b : prefix a b -> (length a <= length b)%nat.
Proof. intros [x <-]. rewrite app_length. lia. Qed.
Lemma firstn_prefix k a b : prefix a b -> (k <= length a)%nat -> firstn k b = firstn k a.
Proof. intros [x <-] H. rewrite firstn_app. replace (k - length a)%nat with 0%nat by lia. cbn. apply app_nil_r. Qed.
Lemma firstn_mono k k' (a b : bytes) : prefix a b -> (k <= k')%nat -> (k <= length a)%nat -> prefix (firstn k a) (firstn k' b).
Proof.
  intros P H L. rewrite <- (firstn_prefix k a b P L). rewrite <- (Nat.min_l k k' H). rewrite <- firstn_firstn. apply prefix_firstn.
Qed.

Section Sizes.
  Variable SZ FQ : N.
  Hypothesis FQ2 : 2 <= FQ.
  Hypothesis SZ1 : 0 < SZ.

  (* ---------- files only grow ---------- *)
  Definition grows (f f' : files) : Prop := f_new f <= f_new f' /\ forall id, id < f_new f -> prefix (f_data f id) (f_data f' id).
  Lemma grows_refl f : grows f f.
  Proof. split; [lia|]. intros. apply prefix_refl. Qed.
  Lemma grows_fwrite f b d : grows f (fwrite f b d).
  Proof.
    unfold grows, fwrite. destruct (f_next f) as [n|]; [destruct d|]; cbn [f_new f_data]; (split; [lia|]); intros id _; unfold upd.
    - destruct (N.eqb_spec id n) as [->|]; [|destruct (N.eqb_spec id (f_fd f)) as [->|]; [exists b; reflexivity|apply prefix_refl]].
      destruct (N.eqb_spec n (f_fd f)) as [->|]; [exists (b ++ b); rewrite app_assoc; reflexivity|exists b; reflexivity].
    - destruct (N.eqb_spec id (f_fd f)) as [->|]; [exists b; reflexivity|apply prefix_refl].
    - destruct (N.eqb_spec id (f_fd f)) as [->|]; [exists b; reflexivity|apply prefix_refl].
  Qed.
  Lemma grows_switch a f : grows f (switch a f).
  Proof. unfold switch. destruct (f_next f); [|apply grows_refl]. split; [cbn; lia|]. intros. apply prefix_refl. Qed.
  Lemma write_file r d s : b_file (fst (try_write SZ FQ r d s)) = b_file s.
  Proof. unfold try_write. destruct (find_pos SZ FQ (b_ring s) (b_que s) (len r)) as [[[r' q] bad] []]; reflexivity. Qed.
  Lemma flush1_file a s : b_file (flush1 FQ a s) = b_file s.
  Proof.
    destruct (b_ph s) eqn:PH; try (unfold flush1; rewrite PH; reflexivity).
    destruct (mark (b_que s)) as [q1 c] eqn:MK. destruct (pick FQ a s q1) as [[[q2 n] d] bad] eqn:PK.
    rewrite (flush1_eq FQ _ _ _ _ _ _ _ _ PH MK PK). reflexivity.
  Qed.
  Lemma grows_step o s : grows (b_file s) (b_file (lstep SZ FQ o s)).
  Proof.
    destruct o as [r d|al|a| | | |ok| |u|]; cbn [lstep].
    - rewrite write_file. apply grows_refl.
    - rewrite flush1_file. apply grows_refl.
    - unfold flush2. destruct (b_ph s) as [|n d [wd|]|n d|n]; cbn [b_file]; try apply grows_refl. apply grows_switch.
    - unfold flush3. destruct (b_ph s) as [|n d [wd|]|n d|n]; try apply grows_refl. destruct (0 <? n); cbn [b_file]; [apply grows_fwrite|apply grows_refl].
    - unfold flush4. destruct (b_ph s) as [|n d [wd|]|n d|n]; apply grows_refl.
    - unfold fopen. cbn [b_file]. split; [cbn; lia|]. intros id H. cbn [f_data]. unfold upd. destruct (N.eqb_spec id (f_new (b_file s))); [lia|apply prefix_refl].
    - unfold complete. destruct ok; apply grows_refl.
    - split; [cbn; lia|]. intros. apply prefix_refl.
    - unfold request. destruct (_ && _); apply grows_refl.
    - split; [cbn; lia|]. intros. apply prefix_refl.
  Qed.
  Lemma grows_trans f g h : grows f g -> grows g h -> grows f h.
  Proof. intros [A B] [C D]. split; [lia|]. intros id H. eapply prefix_trans; [apply B, H|apply D; lia]. Qed.

  (* ---------- the log sequence numbers ---------- *)
  Definition lle (a b : lsn) : Prop := fst a < fst b \/ (fst a = fst b /\ snd a <= snd b).
  Lemma lle_refl a : lle a a.
  Proof. right. lia. Qed.
  Lemma lle_trans a b c : lle a b -> lle b c -> lle a c.
  Proof. unfold lle. lia. Qed.
  Lemma lle_add a n : lle a (lsn_add a n).
  Proof. right. cbn. lia. Qed.
  Lemma write_lsn r d s : l_write (b_lsn (fst (try_write SZ FQ r d s))) = if snd (try_write SZ FQ r d s) then lsn_add (l_write (b_lsn s)) (len r) else l_write (b_lsn s).
  Proof. unfold try_write. destruct (find_pos SZ FQ (b_ring s) (b_que s) (len r)) as [[[r' q] bad] []]; reflexivity. Qed.
  Lemma flush1_lsn a s : b_lsn (flush1 FQ a s) = b_lsn s.
  Proof.
    destruct (b_ph s) eqn:PH; try (unfold flush1; rewrite PH; reflexivity).
    destruct (mark (b_que s)) as [q1 c] eqn:MK. destruct (pick FQ a s q1) as [[[q2 n] d] bad] eqn:PK.
    rewrite (flush1_eq FQ _ _ _ _ _ _ _ _ PH MK PK). reflexivity.
  Qed.
  Lemma step_write o s : o <> Complete true -> exists more,
    l_write (b_lsn (lstep SZ FQ o s)) = lsn_add (l_write (b_lsn s)) (len more) /\
    (forall w, w_cur (wstep o (accepted SZ FQ o s) w) = w_cur w ++ more) /\ ((forall r d, o <> Write r d) -> more = []).
  Proof.
    assert (Z : forall a : lsn, a = lsn_add a 0) by (intros [x y]; unfold lsn_add; cbn; f_equal; lia).
    intro NC. destruct o as [r d|al|a| | | |ok| |u|]; cbn [lstep accepted wstep].
    - rewrite write_lsn. destruct (snd (try_write SZ FQ r d s)); [exists r|exists []]; (split; [|split]); try reflexivity; [intro X; destruct (X r d eq_refl)|apply Z|intro; rewrite app_nil_r; reflexivity].
    - exists []. rewrite flush1_lsn. split; [apply Z|]. split; [intro; rewrite app_nil_r; reflexivity|reflexivity].
    - exists []. split; [|split; [intro; rewrite app_nil_r; reflexivity|reflexivity]]. unfold flush2. destruct (b_ph s) as [|n d [wd|]|n d|n]; apply Z.
    - exists []. split; [|split; [intro; rewrite app_nil_r; reflexivity|reflexivity]]. unfold flush3. destruct (b_ph s) as [|n d [wd|]|n d|n]; try apply Z. destruct (0 <? n); apply Z.
    - exists []. split; [|split; [intro; rewrite app_nil_r; reflexivity|reflexivity]]. unfold flush4. destruct (b_ph s) as [|n d [wd|]|n d|n]; apply Z.
    - exists []. split; [apply Z|]. split; [intro; rewrite app_nil_r; reflexivity|reflexivity].
    - exists []. destruct ok; [congruence|]. split; [apply Z|]. split; [intro; rewrite app_nil_r; reflexivity|reflexivity].
    - exists []. split; [apply Z|]. split; [intro; rewrite app_nil_r; reflexivity|reflexivity].
    - exists []. split; [|split; [intro; rewrite app_nil_r; reflexivity|reflexivity]]. unfold request. destruct (_ && _); apply Z.
    - exists []. split; [apply Z|]. split; [intro; rewrite app_nil_r; reflexivity|reflexivity].
  Qed.
  Lemma step_write_le o s : lle (l_write (b_lsn s)) (l_write (b_lsn (lstep SZ FQ o s))).
  Proof.
    assert (D : o = Complete true \/ o <> Complete true) by (destruct o as [r d|al|a| | | |[]| |u|]; (left; reflexivity) || (right; discriminate)).
    destruct D as [->|D]; [left; cbn; lia|]. destruct (step_write o s D) as (more & -> & _). apply lle_add.
  Qed.
  Lemma flush_le cl s w : Inv SZ FQ cl s w -> lle (l_flush (b_lsn s)) (l_write (b_lsn s)).
  Proof.
    intros (ea & eb & m & ob & od & _ & _ & _ & _ & _ & _ & _ & _ & _ & M). unfold mrel in M. destruct (w_mode w).
    - destruct M as (_ & _ & _ & _ & _ & _ & _ & ->). apply lle_add.
    - destruct M as (_ & _ & _ & _ & _ & ->). apply lle_add.
    - destruct M as [(_ & _ & _ & _ & nx & _ & _ & _ & _ & ->)|[(_ & _ & _ & _ & wd & nx & _ & _ & _ & _ & _ & _ & ->)|(_ & _ & _ & _ & _ & _ & _ & _ & ->)]]; [left; cbn; lia|left; cbn; lia|apply lle_add].
    - destruct M as (_ & _ & _ & _ & _ & _ & _ & ->). apply lle_add.
  Qed.

  (* ---------- the file in use changes only when a checkpoint ends ---------- *)
  Definition stay (s : lb) (w : want) : Prop := w_mode w <> Switching \/ f_next (b_file s) = None.
  Lemma stay_pc cl s w : Inv SZ FQ cl s w -> stay s w -> pc (b_ph s) = None.
  Proof.
    intros (ea & eb & m & ob & od & _ & _ & _ & _ & _ & _ & _ & _ & _ & M) ST. unfold mrel in M. unfold stay in ST. destruct (w_mode w); try (apply M).
    destruct ST as [X|X]; [congruence|]. destruct M as [(_ & M & _)|[(_ & _ & _ & _ & wd & nx & _ & M & _)|(_ & _ & _ & _ & M & _)]]; try exact M. congruence.
  Qed.
  Lemma stay_step cl o s w : Inv SZ FQ cl s w -> stay s w -> allowed SZ FQ o s w -> o <> Complete true ->
    f_fd (b_file (lstep SZ FQ o s)) = f_fd (b_file s) /\ stay (lstep SZ FQ o s) (wstep o (accepted SZ FQ o s) w).
  Proof.
    intros I ST A NC. pose proof (stay_pc cl s w I ST) as PC. unfold stay in *. destruct o as [r d|al|a| | | |ok| |u|]; cbn [lstep wstep accepted].
    - rewrite write_file. split; [reflexivity|]. destruct (snd (try_write SZ FQ r d s)); exact ST.
    - rewrite flush1_file. auto.
    - unfold flush2. destruct (b_ph s) as [|n d [wd|]|n d|n]; cbn [pc] in PC; try discriminate; auto.
    - unfold flush3. destruct (b_ph s) as [|n d [wd|]|n d|n]; auto. destruct (0 <? n); auto. cbn [b_file].
      unfold fwrite. destruct (f_next (b_file s)) as [nx|] eqn:FN; [destruct d|]; cbn [f_fd f_next]; rewrite ?FN; auto.
    - unfold flush4. destruct (b_ph s) as [|n d [wd|]|n d|n]; auto.
    - split; [reflexivity|]. left. discriminate.
    - destruct ok; [congruence|]. split; [reflexivity|]. left. discriminate.
    - split; [reflexivity|]. left. discriminate.
    - unfold request. destruct (_ && _); auto.
    - auto.
  Qed.

  (* ---------- the invariant ---------- *)
  Definition cover (t : files) (p : option N) (fd : N) (nx : option N) : Prop :=
    (f_fd t = fd \/ p = Some (f_fd t)) /\ (forall n, f_next t = Some n -> nx = Some n \/ fd = n).
  Definition kept (t : files) (y : sy) : Prop :=
    prefix (f_data t (f_fd t)) (durable y (f_fd t)) /\ (forall n, f_next t = Some n -> prefix (f_data t n) (durable y n)).
  Definition okfile (f : files) : Prop := f_fd f < f_new f /\ (forall n, f_next f = Some n -> n < f_new f).

  Variable m : N -> N.
  Variable old : bytes.
  Definition at_ (l : list sop) : sy := yrun SZ FQ l (yinit m old).
  Definition wat (l : list sop) : want := ywrun SZ FQ l (yinit m old) (w0 old).

  Lemma yrun_app l1 : forall l2 y, yrun SZ FQ (l1 ++ l2) y = yrun SZ FQ l2 (yrun SZ FQ l1 y).
  Proof. induction l1 as [|o l1 IH]; intros l2 y; [reflexivity|]. cbn [app yrun]. apply IH. Qed.
  Lemma ywrun_app l1 : forall l2 y w, ywrun SZ FQ (l1 ++ l2) y w = ywrun SZ FQ l2 (yrun SZ FQ l1 y) (ywrun SZ FQ l1 y w).
  Proof. induction l1 as [|o l1 IH]; intros l2 y w; [reflexivity|]. cbn [app yrun ywrun]. apply IH. Qed.
  Lemma ylawful_app l1 : forall l2 y w, ylawful SZ FQ (l1 ++ l2) y w <-> ylawful SZ FQ l1 y w /\ ylawful SZ FQ l2 (yrun SZ FQ l1 y) (ywrun SZ FQ l1 y w).
  Proof. induction l1 as [|o l1 IH]; intros l2 y w; cbn [app yrun ywrun ylawful]; [tauto|]. rewrite IH. tauto. Qed.

  Lemma yallowed_l o y w : yallowed SZ FQ (L o) y w -> allowed SZ FQ o (y_lb y) w.
  Proof. destruct o; cbn [yallowed]; try tauto; intros; exact Logic.I. Qed.
  Lemma yinv_step o y w : Inv SZ FQ false (y_lb y) w -> yallowed SZ FQ o y w -> Inv SZ FQ false (y_lb (ystep SZ FQ o y)) (ywstep SZ FQ o y w).
  Proof.
    intros I A. destruct o as [o| | |]; cbn [ystep ywstep].
    - cbn [y_lb]. apply inv_step; [exact FQ2|exact SZ1|exact I|apply yallowed_l, A|discriminate].
    - destruct (y_ph y); exact I.
    - destruct (y_ph y); exact I.
    - destruct (y_ph y) as [| |F p fd nx]; try exact I. cbn zeta. destruct (lsn_gt F (y_fs y)); exact I.
  Qed.

  Lemma inv_okfile cl s w : Inv SZ FQ cl s w -> okfile (b_file s).
  Proof. intros (ea & eb & mk & ob & od & _ & _ & _ & _ & _ & _ & I7 & I8 & _). split; [exact I7|]. intros n H. apply (I8 n H). Qed.

  Definition SyI (l : list sop) : Prop :=
    let y := at_ l in let f := b_file (y_lb y) in
    (forall id, y_len y id <= len (f_data f id) /\ (f_new f <= id -> y_len y id = 0)) /\
    (forall p, f_prev f = Some p -> f_next f = None) /\ (forall p, f_prev f = Some p -> p < f_new f) /\
    (exists la lb, l = la ++ lb /\ l_flush (b_lsn (y_lb (at_ la))) = y_fs y /\ grows (b_file (y_lb (at_ la))) f /\ kept (b_file (y_lb (at_ la))) y) /\
    match y_ph y with
    | YIdle => True
    | YLsn F => exists la lb, l = la ++ lb /\ l_flush (b_lsn (y_lb (at_ la))) = F /\ grows (b_file (y_lb (at_ la))) f /\ cover (b_file (y_lb (at_ la))) (f_prev f) (f_fd f) (f_next f)
    | YFds F p fd nx => exists la lb, l = la ++ lb /\ l_flush (b_lsn (y_lb (at_ la))) = F /\ grows (b_file (y_lb (at_ la))) f /\ cover (b_file (y_lb (at_ la))) p fd nx /\
        (forall x, p = Some x \/ fd = x \/ nx = Some x -> x < f_new f)
    end.

  Lemma at_snoc l o : at_ (l ++ [o]) = ystep SZ FQ o (at_ l).
  Proof. unfold at_. rewrite yrun_app. reflexivity. Qed.
  Lemma wat_snoc l o : wat (l ++ [o]) = ywstep SZ FQ o (at_ l) (wat l).
  Proof. unfold wat. rewrite ywrun_app. reflexivity. Qed.

  Lemma yinv l : ylawful SZ FQ l (yinit m old) (w0 old) -> Inv SZ FQ false (y_lb (at_ l)) (wat l).
  Proof.
    induction l as [|o l IH] using rev_ind; intro LW.
    - apply inv_init; [exact FQ2|exact SZ1].
    - apply ylawful_app in LW. destruct LW as [L1 [L2 _]]. rewrite at_snoc, wat_snoc. apply yinv_step; [apply IH, L1|exact L2].
  Qed.

  Lemma durable_grow y y' t id : grows (b_file (y_lb y)) (b_file (y_lb y')) -> (forall i, y_len y i <= y_len y' i) ->
    y_len y id <= len (f_data (b_file (y_lb y)) id) -> id < f_new (b_file (y_lb y)) -> prefix t (durable y id) -> prefix t (durable y' id).
  Proof.
    intros [_ G] M L I P. eapply prefix_trans; [exact P|]. apply firstn_mono; [apply G, I|specialize (M id); lia|lia].
  Qed.

  (* the previous file under the steps of the log buffer *)
  Definition apart (t : files) : Prop := forall n, f_next t = Some n -> n <> f_fd t.
  Lemma prev_step o y w : Inv SZ FQ false (y_lb y) w -> yallowed SZ FQ (L o) y w -> (forall p, f_prev (b_file (y_lb y)) = Some p -> f_next (b_file (y_lb y)) = None) -> (forall p, f_prev (b_file (y_lb y)) = Some p -> p < f_new (b_file (y_lb y))) ->
    let f := b_file (y_lb y) in let f' := b_file (lstep SZ FQ o (y_lb y)) in
    (forall p, f_prev f' = Some p -> f_next f' = None) /\ (forall p, f_prev f' = Some p -> p < f_new f') /\
    (forall t, y_ph y <> YIdle -> apart t -> cover t (f_prev f) (f_fd f) (f_next f) -> cover t (f_prev f') (f_fd f') (f_next f')).
  Proof.
    intros I A P P'. cbn zeta. set (s := y_lb y) in *. destruct o as [r d|al|a| | | |ok| |u|]; cbn [lstep yallowed] in *.
    - rewrite write_file. auto.
    - rewrite flush1_file. auto.
    - subst a. unfold flush2. destruct (b_ph s) as [|n d [wd|]|n d|n]; cbn [b_file]; auto. unfold switch. destruct (f_next (b_file s)) as [nx|] eqn:FN; [|rewrite FN; auto].
      cbn [f_prev f_next f_fd]. split; [reflexivity|]. split; [intros p X; injection X as <-; exact (proj1 (inv_okfile _ _ _ I))|]. intros t _ AP [C1 C2]. destruct (f_prev (b_file s)) as [p|] eqn:FP; [specialize (P p eq_refl); congruence|].
      destruct C1 as [C1|C1]; [|discriminate]. split; [right; congruence|]. intros n' H. destruct (C2 n' H) as [C3|C3]; [right; congruence|].
      exfalso. apply (AP n' H). congruence.
    - unfold flush3. destruct (b_ph s) as [|n d [wd|]|n d|n]; auto. destruct (0 <? n); auto. cbn [b_file].
      unfold fwrite. destruct (f_next (b_file s)) as [nx|] eqn:FN; [destruct d|]; cbn [f_fd f_next f_prev]; rewrite ?FN; auto.
    - unfold flush4. destruct (b_ph s) as [|n d [wd|]|n d|n]; auto.
    - destruct A as [A FP]. fold s in A, FP. unfold fopen. cbn [b_file f_prev f_next f_fd]. split; [congruence|]. split; [congruence|]. intros t _ AP [C1 C2]. split; [exact C1|].
      intros n H. rewrite FP in C1. destruct C1 as [C1|C1]; [|discriminate]. destruct (C2 n H) as [C3|C3]; [exfalso|exfalso; apply (AP n H); congruence].
      destruct I as (ea & eb & mk & ob & od & _ & _ & _ & _ & _ & _ & _ & _ & _ & M). unfold mrel in M. destruct A as [[A|[_ A]] _]; [|congruence].
      rewrite A in M. destruct M as (_ & _ & M & _). congruence.
    - unfold complete. destruct ok; auto.
    - destruct A as [_ YI]. split; [reflexivity|]. split; [exact P'|]. intros t NI. contradiction.
    - unfold request. destruct (_ && _); auto.
    - contradiction.
  Qed.

  Lemma fsync_ge f i y id : (forall x, y_len y x <= len (f_data f x)) -> y_len y id <= fsync f i (y_len y) id.
  Proof. intro H. destruct i as [i|]; cbn [fsync]; [|lia]. unfold upd. destruct (N.eqb_spec id i) as [->|]; [apply H|lia]. Qed.
  Lemma fsync_le f i (ln : N -> N) : (forall x, ln x <= len (f_data f x)) -> forall x, fsync f i ln x <= len (f_data f x) /\ ln x <= fsync f i ln x.
  Proof. intros H x. destruct i as [i|]; cbn [fsync]; [|split; [apply H|lia]]. unfold upd. destruct (N.eqb_spec x i) as [->|]; split; try (apply H); lia. Qed.
  Lemma fsync_at f i (ln : N -> N) : fsync f (Some i) ln i = len (f_data f i).
  Proof. cbn [fsync]. unfold upd. rewrite N.eqb_refl. reflexivity. Qed.
  Lemma fsync_zero f i (ln : N -> N) b x : (forall z, i = Some z -> z < b) -> b <= x -> fsync f i ln x = ln x.
  Proof. intros H B. destruct i as [i|]; cbn [fsync]; [|reflexivity]. unfold upd. specialize (H i eq_refl). destruct (N.eqb_spec x i); [lia|reflexivity]. Qed.
  Lemma durable_full y id t : y_len y id = len (f_data (b_file (y_lb y)) id) -> grows t (b_file (y_lb y)) -> id < f_new t -> prefix (f_data t id) (durable y id).
  Proof. intros E [_ G] I. unfold durable. rewrite E, Nat2N.id, firstn_all. apply G, I. Qed.

  Lemma syi l : ylawful SZ FQ l (yinit m old) (w0 old) -> SyI l.
  Proof.
    induction l as [|o l IH] using rev_ind; intro LW.
    - split; [|split; [|split; [|split]]].
      + intro id. cbn. destruct (N.eqb_spec id 0) as [->|]; cbn; split; lia.
      + cbn. congruence.
      + cbn. congruence.
      + exists [], []. split; [reflexivity|]. split; [reflexivity|]. split; [apply grows_refl|]. split; [|cbn; congruence].
        unfold durable. cbn. rewrite Nat2N.id. exists []. rewrite app_nil_r. symmetry. apply firstn_all.
      + exact Logic.I.
    - apply ylawful_app in LW. destruct LW as [L1 [L2 _]]. specialize (IH L1). pose proof (yinv l L1) as I. fold (at_ l) in L2. fold (wat l) in L2.
      destruct IH as (H1 & H2 & H3 & (la & lb & E & HF & HG & HK) & H4). unfold SyI. rewrite at_snoc. set (y := at_ l) in *.
      assert (PAST : forall la0 lb0, l = la0 ++ lb0 -> okfile (b_file (y_lb (at_ la0))) /\ apart (b_file (y_lb (at_ la0)))).
      { intros la0 lb0 E0. rewrite E0 in L1. apply ylawful_app in L1. destruct L1 as [L1 _]. pose proof (yinv la0 L1) as I0. split; [apply (inv_okfile _ _ _ I0)|].
        destruct I0 as (ea & eb & mk & ob & od & _ & _ & _ & _ & _ & _ & _ & I8 & _). intros n N0. apply (I8 n N0). }
      assert (SN : forall la0 lb0, l = la0 ++ lb0 -> l ++ [o] = la0 ++ (lb0 ++ [o])) by (intros la0 lb0 ->; symmetry; apply app_assoc).
      assert (KEEP : forall y', grows (b_file (y_lb y)) (b_file (y_lb y')) -> (forall i, y_len y i <= y_len y' i) -> kept (b_file (y_lb (at_ la))) y').
      { intros y' G M. destruct (PAST la lb E) as [[O1 O2] _]. destruct HG as [HG1 HG2]. destruct HK as [K1 K2]. split.
        - apply (durable_grow y); [exact G|exact M|apply H1|lia|exact K1].
        - intros n N0. specialize (O2 n N0). apply (durable_grow y); [exact G|exact M|apply H1|lia|apply K2, N0]. }
      destruct o as [o| | |]; cbn [ystep].
      + pose proof (grows_step o (y_lb y)) as G. destruct (prev_step o y (wat l) I L2 H2 H3) as (P1 & P1' & P2). cbn [y_lb y_len y_fs y_ph].
        split; [|split; [exact P1|split; [exact P1'|split]]].
        * intro id. destruct (H1 id) as [A B]. destruct G as [G1 G2]. split.
          -- destruct (N.ltb_spec id (f_new (b_file (y_lb y)))) as [Y|Y]; [|rewrite (B Y); lia]. specialize (G2 id Y). apply prefix_len in G2. lia.
          -- intro X. apply B. lia.
        * exists la, (lb ++ [L o]). split; [apply SN, E|]. split; [exact HF|]. split; [eapply grows_trans; [exact HG|exact G]|]. apply KEEP; [exact G|intro; cbn; lia].
        * destruct (y_ph y) as [|F|F p fd nx] eqn:PH; [exact Logic.I| |].
          -- destruct H4 as (la1 & lb1 & E1 & F1 & G1 & C1). exists la1, (lb1 ++ [L o]). split; [apply SN, E1|]. split; [exact F1|]. split; [eapply grows_trans; [exact G1|exact G]|].
             apply P2; [discriminate|apply (PAST la1 lb1 E1)|exact C1].
          -- destruct H4 as (la1 & lb1 & E1 & F1 & G1 & C1 & N1). exists la1, (lb1 ++ [L o]). split; [apply SN, E1|]. split; [exact F1|]. split; [eapply grows_trans; [exact G1|exact G]|].
             split; [exact C1|]. intros x X. specialize (N1 x X). destruct G as [G _]. lia.
      + assert (K0 : kept (b_file (y_lb (at_ la))) y) by exact HK.
        destruct (y_ph y) as [|F|F p fd nx] eqn:PH; cbn [y_lb y_len y_fs y_ph].
        * split; [exact H1|]. split; [exact H2|]. split; [exact H3|]. split; [exists la, (lb ++ [SyncLsn]); split; [apply SN, E|]; auto|].
          exists l, [SyncLsn]. split; [reflexivity|]. split; [reflexivity|]. split; [apply grows_refl|]. split; [left; reflexivity|auto].
        * split; [exact H1|]. split; [exact H2|]. split; [exact H3|]. split; [exists la, (lb ++ [SyncLsn]); split; [apply SN, E|]; auto|]. rewrite PH.
          destruct H4 as (la1 & lb1 & E1 & R1). exists la1, (lb1 ++ [SyncLsn]). split; [apply SN, E1|exact R1].
        * split; [exact H1|]. split; [exact H2|]. split; [exact H3|]. split; [exists la, (lb ++ [SyncLsn]); split; [apply SN, E|]; auto|]. rewrite PH.
          destruct H4 as (la1 & lb1 & E1 & R1). exists la1, (lb1 ++ [SyncLsn]). split; [apply SN, E1|exact R1].
      + assert (G0 : grows (b_file (y_lb y)) (b_file (take_prev (y_lb y)))) by (apply (grows_step TakePrev (y_lb y))).
        destruct (y_ph y) as [|F|F p fd nx] eqn:PH; cbn [y_lb y_len y_fs y_ph].
        * rewrite PH. split; [exact H1|]. split; [exact H2|]. split; [exact H3|]. split; [exists la, (lb ++ [SyncFds]); split; [apply SN, E|]; auto|exact Logic.I].
        * split; [exact H1|]. split; [cbn; congruence|]. split; [cbn; congruence|]. split.
          { exists la, (lb ++ [SyncFds]). split; [apply SN, E|]. split; [exact HF|]. split; [eapply grows_trans; [exact HG|exact G0]|]. apply KEEP; [exact G0|intro; cbn; lia]. }
          destruct H4 as (la1 & lb1 & E1 & F1 & G1 & C1). exists la1, (lb1 ++ [SyncFds]). split; [apply SN, E1|]. split; [exact F1|]. split; [eapply grows_trans; [exact G1|exact G0]|].
          split; [exact C1|]. destruct (inv_okfile _ _ _ I) as [O1 O2].
          intros x [X|[X|X]]; [apply (H3 x X)|rewrite <- X; exact O1|apply (O2 x X)].
        * split; [exact H1|]. split; [exact H2|]. split; [exact H3|]. split; [exists la, (lb ++ [SyncFds]); split; [apply SN, E|]; auto|]. rewrite PH.
          destruct H4 as (la1 & lb1 & E1 & R1). exists la1, (lb1 ++ [SyncFds]). split; [apply SN, E1|exact R1].
      + destruct (y_ph y) as [|F|F p fd nx] eqn:PH; cbn [y_lb y_len y_fs y_ph].
        * rewrite PH. split; [exact H1|]. split; [exact H2|]. split; [exact H3|]. split; [exists la, (lb ++ [SyncEnd]); split; [apply SN, E|]; auto|exact Logic.I].
        * split; [exact H1|]. split; [exact H2|]. split; [exact H3|]. split; [exists la, (lb ++ [SyncEnd]); split; [apply SN, E|]; auto|]. rewrite PH.
          destruct H4 as (la1 & lb1 & E1 & R1). exists la1, (lb1 ++ [SyncEnd]). split; [apply SN, E1|exact R1].
        * destruct H4 as (la1 & lb1 & E1 & F1 & G1 & [C1 C2] & N1). cbn zeta. set (f := b_file (y_lb y)) in *.
          assert (L0 : forall x, y_len y x <= len (f_data f x)) by (intro x; apply H1).
          pose proof (fsync_le f p _ L0) as A1. set (n1 := fsync f p (y_len y)) in *.
          assert (L1' : forall x, n1 x <= len (f_data f x)) by (intro x; apply A1).
          pose proof (fsync_le f (Some fd) _ L1') as A2. set (n2 := fsync f (Some fd) n1) in *.
          assert (L2' : forall x, n2 x <= len (f_data f x)) by (intro x; apply A2).
          pose proof (fsync_le f nx _ L2') as A3. set (n3 := fsync f nx n2) in *.
          assert (Z1 : forall x, f_new f <= x -> n1 x = 0) by (intros x X; unfold n1; rewrite (fsync_zero f p _ (f_new f)); [apply H1, X|intros z Z; apply N1; auto|exact X]).
          assert (Z3 : forall x, f_new f <= x -> n3 x = 0).
          { intros x X. unfold n3, n2. rewrite (fsync_zero f nx _ (f_new f)); [|intros z Z; apply N1; auto|exact X].
            rewrite (fsync_zero f (Some fd) _ (f_new f)); [apply Z1, X|intros z Z; injection Z as <-; apply N1; auto|exact X]. }
          destruct (lsn_gt F (y_fs y)); cbn [y_lb y_len y_fs y_ph]; fold f.
          -- split; [intro id; split; [apply A3|apply Z3]|]. split; [exact H2|]. split; [exact H3|]. split; [|exact Logic.I].
             exists la1, (lb1 ++ [SyncEnd]). split; [apply SN, E1|]. split; [exact F1|]. split; [exact G1|]. destruct (PAST la1 lb1 E1) as [[O1 O2] _].
             assert (FULL : forall x, n3 x = len (f_data f x) -> x < f_new (b_file (y_lb (at_ la1))) ->
                prefix (f_data (b_file (y_lb (at_ la1))) x) (durable {| y_lb := y_lb y; y_len := n3; y_fs := F; y_ph := YIdle |} x)) by (intros x X1 X2; apply durable_full; [exact X1|exact G1|exact X2]).
             assert (D3 : forall x, p = Some x \/ fd = x \/ nx = Some x -> n3 x = len (f_data f x)).
             { intros x X. apply N.le_antisymm; [apply A3|]. destruct X as [X|[X|X]].
               - transitivity (n1 x); [unfold n1; rewrite X, fsync_at; lia|]. transitivity (n2 x); [apply A2|apply A3].
               - transitivity (n2 x); [unfold n2; rewrite X, fsync_at; lia|apply A3].
               - unfold n3. rewrite X, fsync_at. lia. }
             split; [apply FULL; [apply D3; destruct C1 as [C1|C1]; auto|exact O1]|].
             intros n X. apply FULL; [apply D3; destruct (C2 n X) as [C3|C3]; auto|apply O2, X].
          -- split; [intro id; split; [apply A1|apply Z1]|]. split; [exact H2|]. split; [exact H3|]. split; [|exact Logic.I].
             exists la, (lb ++ [SyncEnd]). split; [apply SN, E|]. split; [exact HF|]. split; [exact HG|]. apply KEEP; [apply grows_refl|intro i; apply A1].
  Qed.

  (* ---------- one record ---------- *)
  Lemma stay_split cl s w : Inv SZ FQ cl s w -> stay s w ->
    exists pend, cur_file s ++ pend = w_cur w /\ l_write (b_lsn s) = lsn_add (l_flush (b_lsn s)) (len pend).
  Proof.
    intros (ea & eb & mk & ob & od & _ & _ & _ & _ & _ & _ & _ & _ & _ & M) ST. unfold mrel in M. unfold stay in ST. exists (cat (eff (b_ph s) ea) ++ ob).
    destruct (w_mode w).
    - destruct M as (_ & _ & _ & _ & _ & M1 & _ & M2). auto.
    - destruct M as (_ & _ & _ & M1 & _ & M2). auto.
    - destruct ST as [X|X]; [congruence|]. destruct M as [(_ & _ & _ & _ & nx & Y & _)|[(_ & _ & _ & _ & wd & nx & _ & Y & _)|(_ & _ & _ & _ & _ & _ & M1 & _ & M2)]]; [congruence|congruence|auto].
    - destruct M as (_ & _ & _ & _ & _ & M1 & _ & M2). auto.
  Qed.
  Lemma unstay_lsn cl s w : Inv SZ FQ cl s w -> stay s w \/ fst (l_write (b_lsn s)) = fst (l_flush (b_lsn s)) + 1.
  Proof.
    intros (ea & eb & mk & ob & od & _ & _ & _ & _ & _ & _ & _ & _ & _ & M). unfold mrel in M. unfold stay.
    destruct (w_mode w); try (left; left; discriminate).
    destruct M as [(_ & _ & _ & _ & nx & _ & _ & _ & _ & ->)|[(_ & _ & _ & _ & wd & nx & _ & _ & _ & _ & _ & _ & ->)|(_ & _ & _ & _ & _ & Y & _)]]; auto.
  Qed.

  Definition quiet (l : list sop) : Prop := ~ In (L (Complete true)) l.
  Lemma sync_lsn o y : (forall x, o <> L x) -> b_lsn (y_lb (ystep SZ FQ o y)) = b_lsn (y_lb y) /\ f_fd (b_file (y_lb (ystep SZ FQ o y))) = f_fd (b_file (y_lb y)) /\
    f_next (b_file (y_lb (ystep SZ FQ o y))) = f_next (b_file (y_lb y)) /\ forall w, ywstep SZ FQ o y w = w.
  Proof.
    intro H. destruct o as [x| | |]; [destruct (H x eq_refl)| | |]; cbn [ystep ywstep]; destruct (y_ph y) as [|F|F p fd nx]; auto. cbn zeta. destruct (lsn_gt F (y_fs y)); auto.
  Qed.
  Lemma run_cur l : forall y w, quiet l -> exists more, l_write (b_lsn (y_lb (yrun SZ FQ l y))) = lsn_add (l_write (b_lsn (y_lb y))) (len more) /\
    w_cur (ywrun SZ FQ l y w) = w_cur w ++ more.
  Proof.
    induction l as [|o l IH]; intros y w Q.
    - exists []. split; [cbn; unfold lsn_add; destruct (l_write (b_lsn (y_lb y))); cbn; f_equal; lia|cbn; rewrite app_nil_r; reflexivity].
    - assert (Q' : quiet l) by (intro X; apply Q; right; exact X). cbn [yrun ywrun].
      destruct (IH (ystep SZ FQ o y) (ywstep SZ FQ o y w) Q') as (more & E1 & E2).
      assert (ST : exists mo, l_write (b_lsn (y_lb (ystep SZ FQ o y))) = lsn_add (l_write (b_lsn (y_lb y))) (len mo) /\ w_cur (ywstep SZ FQ o y w) = w_cur w ++ mo).
      { destruct o as [x| | |].
        - destruct (step_write x (y_lb y)) as (mo & A & B & _); [intro; subst x; apply Q; left; reflexivity|]. exists mo. split; [exact A|apply B].
        - destruct (sync_lsn SyncLsn y ltac:(discriminate)) as (A & _ & _ & B). exists []. rewrite A, B, app_nil_r. split; [unfold lsn_add; destruct (l_write (b_lsn (y_lb y))); cbn; f_equal; lia|reflexivity].
        - destruct (sync_lsn SyncFds y ltac:(discriminate)) as (A & _ & _ & B). exists []. rewrite A, B, app_nil_r. split; [unfold lsn_add; destruct (l_write (b_lsn (y_lb y))); cbn; f_equal; lia|reflexivity].
        - destruct (sync_lsn SyncEnd y ltac:(discriminate)) as (A & _ & _ & B). exists []. rewrite A, B, app_nil_r. split; [unfold lsn_add; destruct (l_write (b_lsn (y_lb y))); cbn; f_equal; lia|reflexivity]. }
      destruct ST as (mo & S1 & S2). exists (mo ++ more). rewrite E1, E2, S1, S2. split; [unfold lsn_add; cbn; rewrite len_app; f_equal; lia|rewrite app_assoc; reflexivity].
  Qed.
  Lemma run_le l : forall y, lle (l_write (b_lsn (y_lb y))) (l_write (b_lsn (y_lb (yrun SZ FQ l y)))).
  Proof.
    induction l as [|o l IH]; intros y; [apply lle_refl|]. cbn [yrun]. eapply lle_trans; [|apply IH]. destruct o as [x| | |]; [apply step_write_le| | |].
    - destruct (sync_lsn SyncLsn y ltac:(discriminate)) as (-> & _). apply lle_refl.
    - destruct (sync_lsn SyncFds y ltac:(discriminate)) as (-> & _). apply lle_refl.
    - destruct (sync_lsn SyncEnd y ltac:(discriminate)) as (-> & _). apply lle_refl.
  Qed.
  Lemma run_stay l : forall y w, Inv SZ FQ false (y_lb y) w -> stay (y_lb y) w -> ylawful SZ FQ l y w -> quiet l ->
    f_fd (b_file (y_lb (yrun SZ FQ l y))) = f_fd (b_file (y_lb y)).
  Proof.
    induction l as [|o l IH]; intros y w I ST LW Q; [reflexivity|]. destruct LW as [A LW]. cbn [yrun].
    assert (Q' : quiet l) by (intro X; apply Q; right; exact X).
    assert (S1 : f_fd (b_file (y_lb (ystep SZ FQ o y))) = f_fd (b_file (y_lb y)) /\ stay (y_lb (ystep SZ FQ o y)) (ywstep SZ FQ o y w)).
    { destruct o as [x| | |].
      - apply (stay_step false x (y_lb y) w I ST (yallowed_l _ _ _ A)). intro; subst x; apply Q; left; reflexivity.
      - destruct (sync_lsn SyncLsn y ltac:(discriminate)) as (_ & B1 & B2 & B). rewrite B. unfold stay in *. rewrite B2. auto.
      - destruct (sync_lsn SyncFds y ltac:(discriminate)) as (_ & B1 & B2 & B). rewrite B. unfold stay in *. rewrite B2. auto.
      - destruct (sync_lsn SyncEnd y ltac:(discriminate)) as (_ & B1 & B2 & B). rewrite B. unfold stay in *. rewrite B2. auto. }
    destruct S1 as [S1 S2]. rewrite <- S1. apply (IH _ (ywstep SZ FQ o y w)); [apply yinv_step; assumption|exact S2|exact LW|exact Q'].
  Qed.

  Lemma durable_main l1 r d l2 : let whole := l1 ++ L (Write r d) :: l2 in
    ylawful SZ FQ whole (yinit m old) (w0 old) -> quiet l2 ->
    accepted SZ FQ (Write r d) (y_lb (at_ l1)) = true -> answered (at_ whole) (l_write (b_lsn (y_lb (at_ l1)))) = true ->
    let x := l_write (b_lsn (y_lb (at_ l1))) in let F := y_fs (at_ whole) in
    fst F = fst x /\ snd x < snd F /\ (exists more, w_cur (wat whole) = w_cur (wat l1) ++ r ++ more) /\
    len (w_cur (wat l1)) + (snd F - snd x) <= len (w_cur (wat whole)) /\
    prefix (firstn (N.to_nat (len (w_cur (wat l1)) + (snd F - snd x))) (w_cur (wat whole))) (durable_log (at_ whole)).
  Proof.
    intros whole LW QU AC AN x F.
    destruct (syi whole LW) as (_ & _ & _ & (la & lb & E & HF & HG & HK) & _). fold F in HF.
    assert (GT : fst x < fst F \/ (fst F = fst x /\ snd x < snd F)).
    { unfold answered, lsn_le in AN. fold x F in AN. destruct (N.ltb_spec (fst F) (fst x)); [discriminate|]. destruct (N.eqb_spec (fst F) (fst x)); [|lia]. destruct (N.leb_spec (snd F) (snd x)); [discriminate|]. lia. }
    assert (IA : Inv SZ FQ false (y_lb (at_ la)) (wat la)) by (apply yinv; rewrite E in LW; apply ylawful_app in LW; apply LW).
    assert (HD : exists l2a, la = l1 ++ L (Write r d) :: l2a /\ l2 = l2a ++ lb).
    { unfold whole in E. symmetry in E. apply app_eq_app in E. destruct E as (z & [[E1 E2]|[E1 E2]]).
      - destruct z as [|o z].
        + exfalso. rewrite app_nil_r in E1. subst la. pose proof (flush_le _ _ _ IA) as LE. rewrite HF in LE. fold x in LE. unfold lle in LE. lia.
        + cbn in E2. injection E2 as <- E2. exists z. auto.
      - exfalso. pose proof (flush_le _ _ _ IA) as LE. rewrite HF in LE. pose proof (run_le z (at_ la)) as LE2.
        replace (yrun SZ FQ z (at_ la)) with (at_ l1) in LE2 by (rewrite E1; unfold at_; apply yrun_app). fold x in LE2. unfold lle in *. lia. }
    destruct HD as (l2a & Ela & El2).
    assert (Q2 : quiet l2a /\ quiet lb) by (split; intro X; apply QU; rewrite El2; apply in_or_app; auto). destruct Q2 as [Qa Qb].
    set (s1 := ystep SZ FQ (L (Write r d)) (at_ l1)). set (w1 := ywstep SZ FQ (L (Write r d)) (at_ l1) (wat l1)).
    assert (Ta : at_ la = yrun SZ FQ l2a s1) by (rewrite Ela; unfold at_; rewrite yrun_app; reflexivity).
    assert (Wa : wat la = ywrun SZ FQ l2a s1 w1) by (rewrite Ela; unfold wat; rewrite ywrun_app; reflexivity).
    assert (Tw : at_ whole = yrun SZ FQ lb (at_ la)) by (rewrite E; unfold at_; apply yrun_app).
    assert (Ww : wat whole = ywrun SZ FQ lb (at_ la) (wat la)) by (rewrite E; unfold wat; apply ywrun_app).
    assert (W1 : w_cur w1 = w_cur (wat l1) ++ r /\ l_write (b_lsn (y_lb s1)) = lsn_add x (len r)).
    { unfold w1, s1. cbn [ywstep ystep y_lb lstep wstep]. rewrite write_lsn. cbn [accepted] in *. rewrite AC. split; reflexivity. }
    destruct W1 as [W1 S1]. destruct (run_cur l2a s1 w1 Qa) as (mo1 & A1 & A2). rewrite <- Ta in A1. rewrite <- Wa in A2.
    destruct (run_cur lb (at_ la) (wat la) Qb) as (mo2 & _ & A4). rewrite <- Ww in A4.
    assert (LWa : l_write (b_lsn (y_lb (at_ la))) = (fst x, snd x + len r + len mo1)) by (rewrite A1, S1; reflexivity).
    assert (STAY : stay (y_lb (at_ la)) (wat la)).
    { destruct (unstay_lsn _ _ _ IA) as [X|X]; [exact X|]. exfalso. rewrite LWa, HF in X. cbn in X. lia. }
    destruct (stay_split _ _ _ IA STAY) as (pend & P1 & P2). rewrite LWa, HF in P2. unfold lsn_add in P2.
    assert (P3 : fst x = fst F /\ snd x + len r + len mo1 = snd F + len pend) by (split; [exact (f_equal fst P2)|exact (f_equal snd P2)]). destruct P3 as [P3 P4].
    assert (FD : f_fd (b_file (y_lb (at_ whole))) = f_fd (b_file (y_lb (at_ la)))).
    { rewrite Tw. apply (run_stay lb _ (wat la)); [exact IA|exact STAY| |exact Qb]. rewrite E in LW. apply ylawful_app in LW. apply LW. }
    assert (P5 : len (cur_file (y_lb (at_ la))) = len (w_cur (wat l1)) + (snd F - snd x)).
    { assert (Y : len (w_cur (wat la)) = len (w_cur (wat l1)) + len r + len mo1) by (rewrite A2, W1, !len_app; lia). rewrite <- P1, len_app in Y. lia. }
    split; [congruence|]. split; [lia|]. split; [exists (mo1 ++ mo2); rewrite A4, A2, W1, <- !app_assoc; reflexivity|].
    split; [rewrite A4, len_app, <- P1, len_app; lia|]. rewrite <- P5, Nat2N.id, A4, <- P1, <- app_assoc, firstn_app, firstn_all, Nat.sub_diag, firstn_O, app_nil_r.
    unfold durable_log. rewrite FD. exact (proj1 HK).
  Qed.
End Sizes.
