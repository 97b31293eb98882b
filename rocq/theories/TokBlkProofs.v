(* Proofs about the key lists spread over memory blocks. *)
From Verif Require Import Base TokModel TokSpec TokProofs.
Open Scope nat_scope.

(* ------------------------------------------------------------------ one block *)
Definition piece_ok (w : bytes) : Prop := w <> [] /\ ~ In SP w.

Lemma rev_nonnil {A} (x : A) l : rev (x :: l) <> [].
Proof. intro H. apply (f_equal (@length A)) in H. rewrite rev_length in H. discriminate. Qed.

Lemma mb_loop_iff d : forall s cur cnt l h t,
  ~ In SP cur -> fields d s = h :: t ->
  (mb_loop s cur cnt d = Some l <->
   l = (rev cur ++ h) :: t /\ length l <= cnt /\ Forall piece_ok l).
Proof.
  induction s as [|x s IH]; intros cur cnt l h t Hc Hf.
  - cbn [fields] in Hf. injection Hf as <- <-. rewrite app_nil_r.
    destruct cnt as [|c]; cbn [mb_loop].
    + split; [discriminate|]. intros (-> & H & _). cbn in H. lia.
    + destruct cur as [|c0 cur].
      * split; [discriminate|]. intros (-> & _ & H). inversion H as [|? ? [H0 _] _]. cbn in H0. congruence.
      * split.
        -- intro H. injection H as <-. split; [reflexivity|]. split; [cbn; lia|].
           constructor; [|constructor]. split; [apply rev_nonnil|].
           intro X. apply Hc. apply in_rev. exact X.
        -- intros (-> & _ & _). reflexivity.
  - cbn [fields] in Hf. destruct cnt as [|c]; cbn [mb_loop].
    { split; [discriminate|]. intros (-> & H & _). cbn in H. lia. }
    destruct (N.eqb_spec x d) as [->|Nd].
    + injection Hf as <- <-. rewrite app_nil_r. destruct cur as [|c0 cur].
      { split; [discriminate|]. intros (-> & _ & H). inversion H as [|? ? [H0 _] _]. cbn in H0. congruence. }
      destruct (fields_cons d s) as (h2 & t2 & Ef).
      specialize (fun l => IH [] c l h2 t2 (fun X => X) Ef).
      destruct (mb_loop s [] c d) as [l2|].
      * destruct (IH l2) as [I1 _]. destruct (I1 eq_refl) as (E & L & F). cbn [rev app] in E.
        split.
        -- intro H. injection H as <-. rewrite Ef. rewrite E in *. split; [reflexivity|].
           split; [cbn [length] in *; lia|]. constructor; [|exact F].
           split; [apply rev_nonnil|]. intro X; apply Hc, in_rev; exact X.
        -- intros (-> & _ & _). rewrite Ef, E. reflexivity.
      * split; [discriminate|]. intros (-> & L & F). exfalso.
        destruct (IH (fields d s)) as [_ I2]. rewrite Ef in *.
        enough (@None (list bytes) = Some (h2 :: t2)) by discriminate. apply I2.
        split; [reflexivity|]. cbn [length] in *. split; [lia|]. inversion F; assumption.
    + destruct (fields_cons d s) as (h2 & t2 & Ef). rewrite Ef in Hf. injection Hf as <- <-.
      destruct (N.eqb_spec x SP) as [->|Ns].
      * split; [discriminate|]. intros (-> & _ & H). inversion H as [|? ? [_ H0] _].
        exfalso. apply H0. apply in_or_app. right. left. reflexivity.
      * rewrite (IH (x :: cur) (S c) l h2 t2); [|intros [X|X]; [congruence|auto]|exact Ef].
        cbn [rev]. rewrite <- app_assoc. cbn [app]. tauto.
Qed.

Lemma mblck_iff d s cnt l :
  tokenize_mblck s cnt d = Some l <->
  l = fields d s /\ length l <= cnt /\ Forall piece_ok l.
Proof.
  destruct (fields_cons d s) as (h & t & E). unfold tokenize_mblck.
  rewrite (mb_loop_iff d s [] cnt l h t (fun X => X) E). rewrite E. cbn [rev app]. tauto.
Qed.

(* tokenize_keys accepts in addition only the exact count *)
Lemma tk_mb d : forall s cur cnt l,
  tk_loop s cur cnt d = Some l <-> (mb_loop s cur cnt d = Some l /\ length l = cnt).
Proof.
  induction s as [|x s IH]; intros cur cnt l; destruct cnt as [|c]; cbn [tk_loop mb_loop].
  - split; [discriminate|intros [H _]; discriminate].
  - destruct cur as [|c0 cur]; [split; [discriminate|intros [H _]; discriminate]|].
    destruct (Nat.eqb_spec c 0) as [->|Nc].
    + split; [intro H; split; [exact H|injection H as <-; reflexivity]|intros [H _]; exact H].
    + split; [discriminate|]. intros [H L]. injection H as <-. cbn in L. lia.
  - split; [discriminate|intros [H _]; discriminate].
  - destruct (N.eqb x d).
    + destruct cur as [|c0 cur]; [split; [discriminate|intros [H _]; discriminate]|].
      specialize (IH [] c). destruct (tk_loop s [] c d) as [l2|].
      * destruct (IH l2) as [I1 _]. destruct (I1 eq_refl) as [E L]. rewrite E.
        split; [intro H; split; [exact H|injection H as <-; cbn; lia]|intros [H _]; exact H].
      * split; [discriminate|]. intros [H L]. exfalso.
        destruct (mb_loop s [] c d) as [l2|]; [|discriminate]. injection H as <-. cbn in L.
        destruct (IH l2) as [_ I2]. enough (@None (list bytes) = Some l2) by discriminate.
        apply I2. split; [reflexivity|lia].
    + destruct (N.eqb x SP); [split; [discriminate|intros [H _]; discriminate]|]. apply IH.
Qed.

Lemma tokenize_keys_iff d s cnt l :
  tokenize_keys s cnt d = Some l <->
  fields d s = l /\ length l = cnt /\ Forall piece_ok l.
Proof.
  unfold tokenize_keys. rewrite tk_mb. change (mb_loop s [] cnt d) with (tokenize_mblck s cnt d).
  rewrite mblck_iff. split.
  - intros [(E & _ & F) L]. auto.
  - intros (E & L & F). split; [split; [auto|split; [lia|exact F]]|exact L].
Qed.

(* ------------------------------------------------------------------ words in pieces *)
Fixpoint look (i : nat) (segs : list segtok) : bytes :=
  match segs with
  | [] => []
  | (v, j) :: r => if i =? j then v else look i r
  end.
Fixpoint vmap (k : nat) (segs : list segtok) (l : list bytes) : list bytes :=
  match l with
  | [] => []
  | w :: r => (look k segs ++ w) :: vmap (S k) segs r
  end.

Lemma vmap_app segs a : forall k b, vmap k segs (a ++ b) = vmap k segs a ++ vmap (k + length a) segs b.
Proof.
  induction a as [|w a IH]; intros k b; cbn [app vmap length].
  - rewrite Nat.add_0_r. reflexivity.
  - rewrite IH. do 3 f_equal. lia.
Qed.

Lemma vmap_len segs l : forall k, length (vmap k segs l) = length l.
Proof. induction l; intros k; cbn [vmap length]; auto. Qed.

Lemma look_out segs k : Forall (fun j => j < k) (map snd segs) -> forall i, k <= i -> look i segs = [].
Proof.
  induction segs as [|[v j] r IH]; cbn [map look]; intros F i Hi; [reflexivity|].
  inversion F; subst. cbn in *. destruct (Nat.eqb_spec i j); [lia|]. apply IH; assumption.
Qed.

Lemma vmap_out segs k : Forall (fun j => j < k) (map snd segs) -> forall l i, k <= i -> vmap i segs l = l.
Proof.
  intro F. induction l as [|w l IH]; intros i Hi; cbn [vmap]; [reflexivity|].
  rewrite (look_out segs k F) by exact Hi. rewrite IH by lia. reflexivity.
Qed.

Lemma look_app_other segs v j i : i <> j -> look i (segs ++ [(v, j)]) = look i segs.
Proof.
  intro H. induction segs as [|[v0 j0] r IH]; cbn [app look].
  - destruct (Nat.eqb_spec i j); [congruence|reflexivity].
  - rewrite IH. reflexivity.
Qed.

Lemma vmap_app_other segs v j l : forall k, k + length l <= j -> vmap k (segs ++ [(v, j)]) l = vmap k segs l.
Proof.
  induction l as [|w l IH]; intros k H; cbn [vmap]; [reflexivity|]. cbn [length] in H.
  rewrite look_app_other by lia. rewrite IH by lia. reflexivity.
Qed.

Lemma look_app_new segs v j : Forall (fun i => i < j) (map snd segs) -> look j (segs ++ [(v, j)]) = v.
Proof.
  induction segs as [|[v0 j0] r IH]; cbn [app look map]; intro F.
  - rewrite Nat.eqb_refl. reflexivity.
  - inversion F; subst. cbn in *. destruct (Nat.eqb_spec j j0); [lia|]. auto.
Qed.

Lemma vmap_nth segs l : forall k i,
  nth_error (vmap k segs l) i = option_map (fun w => look (k + i) segs ++ w) (nth_error l i).
Proof.
  induction l as [|w l IH]; intros k [|i]; cbn [vmap nth_error option_map]; try reflexivity.
  - rewrite Nat.add_0_r. reflexivity.
  - rewrite IH. replace (S k + i) with (k + S i) by lia. reflexivity.
Qed.

Lemma nth_error_ext' {A} (a : list A) : forall b, (forall i, nth_error a i = nth_error b i) -> a = b.
Proof.
  induction a as [|x a IH]; intros [|y b] H; [reflexivity| | |].
  - specialize (H 0); discriminate.
  - specialize (H 0); discriminate.
  - f_equal; [specialize (H 0); injection H as ->; reflexivity|]. apply IH. intro i. apply (H (S i)).
Qed.

Lemma upd_nth w : forall l i j, i < length l ->
  nth_error (upd i w l) j = if j =? i then Some w else nth_error l j.
Proof.
  intros l i j H. unfold upd.
  assert (Lf : length (firstn i l) = i) by (rewrite firstn_length; lia).
  destruct (Nat.eqb_spec j i) as [->|Nj].
  - rewrite nth_error_app2 by lia. rewrite Lf, Nat.sub_diag. reflexivity.
  - destruct (lt_dec j i).
    + rewrite nth_error_app1 by lia. rewrite <- (firstn_skipn i l) at 2.
      rewrite nth_error_app1 by lia. reflexivity.
    + rewrite nth_error_app2 by lia. rewrite Lf.
      destruct (j - i) as [|m] eqn:E; [lia|]. cbn [nth_error].
      rewrite <- (firstn_skipn (S i) l) at 2. rewrite nth_error_app2; rewrite firstn_length; [|lia].
      f_equal. lia.
Qed.

Lemma upd_len i w l : i < length l -> length (upd i w l) = length l.
Proof.
  intro H. unfold upd. rewrite app_length. cbn [length]. rewrite firstn_length, skipn_length. lia.
Qed.

Lemma vmap_upd v i w r l : nth_error l i = Some w -> look i r = [] ->
  vmap 0 r (upd i (v ++ w) l) = vmap 0 ((v, i) :: r) l.
Proof.
  intros E Hl. assert (Hi : i < length l) by (apply nth_error_Some; congruence).
  apply nth_error_ext'. intro j. rewrite !vmap_nth, upd_nth by exact Hi. cbn [plus look].
  destruct (Nat.eqb_spec j i) as [->|Nj]; [|reflexivity].
  unfold bytes in *. rewrite E. cbn [option_map]. rewrite Hl. reflexivity.
Qed.

Lemma look_notin i segs : ~ In i (map snd segs) -> look i segs = [].
Proof.
  induction segs as [|[v j] r IH]; cbn [map look]; intro H; [reflexivity|].
  destruct (Nat.eqb_spec i j) as [->|]; [exfalso; apply H; left; reflexivity|].
  apply IH. intro; apply H; right; assumption.
Qed.

Lemma look_in v i segs : NoDup (map snd segs) -> In (v, i) segs -> look i segs = v.
Proof.
  induction segs as [|[v0 j] r IH]; cbn [map look]; intros Nd H; [destruct H|destruct H as [E|H]].
  - injection E as -> ->. rewrite Nat.eqb_refl. reflexivity.
  - inversion Nd; subst. destruct (Nat.eqb_spec i j) as [->|]; [|auto].
    exfalso. apply H2. apply (in_map snd) in H. exact H.
Qed.

(* ------------------------------------------------------------------ joining the pieces *)
Lemma cc_count_ge B maxk T : forall segs nb dl n, cc_count B maxk T segs nb dl = Some n -> nb <= n.
Proof.
  induction segs as [|[v i] r IH]; intros nb dl n; cbn [cc_count]; intro H.
  - injection H as <-. lia.
  - destruct (maxk <? _); [discriminate|]. destruct (B <? _); apply IH in H; lia.
Qed.

Lemma cc_build_ok B maxk T : maxk <= B -> forall segs T0 nb dl n,
  cc_count B maxk T segs nb dl = Some n ->
  NoDup (map snd segs) -> Forall (fun j => j < length T) (map snd segs) ->
  length T0 = length T ->
  (forall j, In j (map snd segs) -> nth_error T0 j = nth_error T j) ->
  cc_build B T0 segs (n - nb) dl = Some (vmap 0 segs T0).
Proof.
  intros HB. induction segs as [|[v i] r IH]; intros T0 nb dl n Hc Nd F L Hs; cbn [cc_count cc_build map snd] in *.
  - f_equal. clear. generalize 0. induction T0 as [|w l IHl]; intro k; cbn [vmap look app]; [reflexivity|].
    rewrite <- IHl. reflexivity.
  - inversion Nd as [|? ? Ni Nd']; subst. inversion F as [|? ? Fi F']; subst.
    destruct (nth_error T0 i) as [w|] eqn:Ew.
    2:{ apply nth_error_None in Ew. lia. }
    assert (EwT : nth i T [] = w).
    { apply nth_error_nth. rewrite <- Hs by (left; reflexivity). exact Ew. }
    rewrite EwT in Hc.
    destruct (Nat.ltb_spec maxk (length v + length w)) as [|Hm]; [discriminate|].
    assert (IHa : forall nb' dl' , cc_count B maxk T r nb' dl' = Some n ->
              cc_build B (upd i (v ++ w) T0) r (n - nb') dl' = Some (vmap 0 ((v, i) :: r) T0)).
    { intros nb' dl' Hc'. rewrite (IH _ nb' dl' n Hc' Nd' F').
      - f_equal. apply vmap_upd; [exact Ew|]. apply look_notin. exact Ni.
      - rewrite upd_len; lia.
      - intros j Hj. rewrite upd_nth by lia. destruct (Nat.eqb_spec j i) as [->|]; [contradiction|].
        apply Hs. right. exact Hj. }
    destruct (Nat.ltb_spec B (dl + (length v + length w))) as [Hb|Hb].
    + pose proof (cc_count_ge _ _ _ _ _ _ _ Hc).
      destruct (n - nb) as [|m] eqn:Em; [lia|].
      destruct (Nat.ltb_spec B (length v + length w)); [lia|].
      replace m with (n - S nb) by lia. apply IHa. exact Hc.
    + apply IHa. exact Hc.
Qed.

Lemma cc_count_none B maxk T : forall segs nb dl,
  cc_count B maxk T segs nb dl = None <->
  exists v i, In (v, i) segs /\ maxk < length v + length (nth i T []).
Proof.
  induction segs as [|[v i] r IH]; intros nb dl; cbn [cc_count].
  - split; [discriminate|]. intros (v & i & [] & _).
  - destruct (Nat.ltb_spec maxk (length v + length (nth i T []))) as [Hm|Hm].
    + split; [|reflexivity]. intros _. exists v, i. split; [left; reflexivity|exact Hm].
    + transitivity (exists v0 i0, In (v0, i0) r /\ maxk < length v0 + length (nth i0 T [])).
      * destruct (B <? _); apply IH.
      * split; intros (v0 & i0 & H & H'); exists v0, i0; split; try exact H'.
        -- right; exact H.
        -- destruct H as [E|H]; [injection E as <- <-; lia|exact H].
Qed.

Lemma concat_ok mem B maxk T segs :
  maxk <= B -> NoDup (map snd segs) -> Forall (fun j => j < length T) (map snd segs) ->
  Forall (fun w => length w <= maxk) T ->
  exists nb,
  concat_segs mem B maxk T segs =
    if forallb (fun w => length w <=? maxk) (vmap 0 segs T)
    then (if mem nb T then TOk (vmap 0 segs T) else TNoMem) else TBad.
Proof.
  intros HB Nd F FT. unfold concat_segs.
  destruct (cc_count B maxk T segs 1 0) as [nb|] eqn:Ec.
  - exists nb. rewrite (cc_build_ok B maxk T HB segs T 1 0 nb Ec Nd F eq_refl (fun _ _ => eq_refl)).
    replace (forallb _ _) with true; [reflexivity|]. symmetry. apply forallb_forall.
    intros w Hw. apply Nat.leb_le. apply In_nth_error in Hw as [i Hi].
    rewrite vmap_nth in Hi. cbn [plus] in Hi. unfold bytes in *.
    destruct (nth_error T i) as [u|] eqn:Eu; [|discriminate]. injection Hi as <-.
    rewrite app_length.
    destruct (in_dec Nat.eq_dec i (map snd segs)) as [Hin|Hin].
    + apply in_map_iff in Hin as [[v i'] [Ei Hin]]. cbn in Ei. subst i'.
      rewrite (look_in v i segs Nd Hin).
      destruct (le_lt_dec (length v + length u) maxk); [assumption|exfalso].
      assert (cc_count B maxk T segs 1 0 = None); [|congruence].
      apply cc_count_none. exists v, i. split; [exact Hin|].
      pose proof (nth_error_nth _ _ [] Eu) as X. unfold bytes in *. rewrite X. assumption.
    + rewrite (look_notin i segs Hin). cbn. apply nth_error_In in Eu.
      rewrite Forall_forall in FT. apply FT. exact Eu.
  - exists 0. replace (forallb _ _) with false; [reflexivity|]. symmetry.
    apply cc_count_none in Ec as (v & i & Hin & Hm).
    apply not_true_iff_false. intro Hf. rewrite forallb_forall in Hf.
    assert (Hi : i < length T).
    { rewrite Forall_forall in F. apply F. apply (in_map snd) in Hin. exact Hin. }
    destruct (nth_error T i) as [u|] eqn:Eu; [|apply nth_error_None in Eu; lia].
    pose proof (nth_error_nth _ _ [] Eu) as X. unfold bytes in *. rewrite X in Hm.
    specialize (Hf (v ++ u)). rewrite app_length in Hf.
    assert (length v + length u <=? maxk = true); [|lia]. apply Hf.
    apply (nth_error_In _ i). rewrite vmap_nth. unfold bytes in *. rewrite Eu. cbn [option_map plus].
    rewrite (look_in v i segs Nd Hin). reflexivity.
Qed.
