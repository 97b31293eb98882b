From Coq Require Import String.
From Coq Require Import List NArith Bool Arith Lia.
From Verif Require Import Base UtilModel UtilSpec UtilProofs ArgTypes CkProofs AtProofs3 LqModel LqSpec.
Import ListNotations.
Local Open Scope list_scope.
Local Open Scope nat_scope.

Lemma F2_len {A B} (R : A -> B -> Prop) l k : Forall2 R l k -> List.length l = List.length k.
Proof. induction 1; cbn; congruence. Qed.

Lemma dec10 n : (n < 2 ^ 32)%N -> List.length (dec_text n) <= 10.
Proof.
  intro H. unfold dec_text. pose proof (dec_short (S (N.to_nat (N.size n))) 9 n []) as D. cbn [List.length] in D.
  assert (n < 10 ^ N.of_nat 10)%N. { eapply N.lt_le_trans; [exact H|]. vm_compute. discriminate. }
  specialize (D H0). match goal with |- context [dec_digits ?f n []] => pose proof (dec_short f 9 n [] H0) as D' end. cbn [List.length] in D'. lia.
Qed.

(* digits followed by something else are read in one way *)
Lemma digits_split a b r s : Forall is_digit a -> Forall is_digit b ->
  (forall c t, r = c :: t -> ~ is_digit c) -> (forall c t, s = c :: t -> ~ is_digit c) -> a ++ r = b ++ s -> a = b /\ r = s.
Proof.
  revert b. induction a as [|x a IH]; intros [|y b] A B Hr Hs E; cbn in E.
  - auto.
  - exfalso. inversion B; subst. eapply Hr; [reflexivity|assumption].
  - exfalso. inversion A; subst. eapply Hs; [symmetry; reflexivity|assumption].
  - inversion A; inversion B; subst. injection E as -> E. destruct (IH b) as [-> ->]; auto.
Qed.

Definition okask (c : nat) (a : ask) : Prop :=
  match a with
  | Counted n r => c < 3 /\ (n < 2 ^ 32)%N /\ In r [[]; txt " delete"; txt " drop"]
  | Plain t => 3 <= c /\ List.length t <= 191
  end.
Lemma rest_nd r : In r [[]; txt " delete"; txt " drop"] -> forall c t, r = c :: t -> ~ is_digit c.
Proof.
  intros [<-|[<-|[<-|[]]]] c t E; [discriminate| |]; vm_compute in E; injection E as <- _; unfold is_digit; lia.
Qed.
Lemma text_inj c a b : okask c a -> okask c b -> query_text a = query_text b -> a = b.
Proof.
  destruct a as [n r|t], b as [m s|u]; cbn; intros A B E; try lia; [|congruence].
  destruct A as (_ & _ & A), B as (_ & _ & B).
  destruct (digits_split _ _ _ _ (proj1 (dec_fold n)) (proj1 (dec_fold m)) (rest_nd _ A) (rest_nd _ B) E) as [E1 E2].
  apply dec_inj in E1. congruence.
Qed.
Lemma text_len c a : okask c a -> List.length (query_text a) <= 191.
Proof.
  destruct a as [n r|t]; cbn [okask query_text]; [|tauto]. intros (_ & H & I). rewrite app_length. pose proof (dec10 n H).
  assert (List.length r <= 7) by (destruct I as [<-|[<-|[<-|[]]]]; apply Nat.leb_le; reflexivity). lia.
Qed.

Lemma skip_skip {A} (l : list A) : forall n m, skipn m (skipn n l) = skipn (n + m) l.
Proof.
  induction l as [|x l IH]; intros [|n] m; cbn [skipn plus]; try reflexivity; [rewrite skipn_nil; reflexivity|apply IH].
Qed.
Lemma key_short key : shortened key (key_shown key) /\ List.length (key_shown key) <= 250.
Proof.
  unfold key_shown, shortened. destruct (Nat.ltb_spec 250 (List.length key)) as [L|L]; [|split; [left; split; [lia|reflexivity]|lia]].
  split.
  - right. split; [exact L|]. exists (firstn 124 key), (firstn (List.length key - 247) (skipn 124 key)), (skipn (List.length key - 123) key).
    repeat split.
    + rewrite <- (firstn_skipn 124 key) at 1. f_equal.
      rewrite <- (firstn_skipn (List.length key - 247) (skipn 124 key)) at 1. f_equal.
      rewrite skip_skip. f_equal. lia.
    + rewrite firstn_length. lia.
    + rewrite skipn_length. lia.
  - rewrite !app_length, firstn_length, skipn_length. change (List.length (txt "...")) with 3. lia.
Qed.

Lemma name_eq c : command_str c = nth c names [].
Proof. reflexivity. Qed.
Lemma name_len c : List.length (command_str c) <= 10.
Proof. do 10 (destruct c as [|c]; [apply Nat.leb_le; reflexivity|]). destruct c; apply Nat.leb_le; reflexivity. Qed.
Lemma line_eq c time ip k a ov : line c time ip k a ov = shown c time ip k a ov.
Proof. reflexivity. Qed.
Lemma line_len c time ip k a ov : List.length time <= 15 -> List.length ip <= 15 -> List.length k <= 250 -> (ov < 2 ^ 32)%N -> okask c a ->
  List.length (line c time ip k a ov) <= 499.
Proof.
  intros T I K O Q. unfold line. rewrite !app_length. pose proof (dec10 ov O). pose proof (text_len c a Q). pose proof (name_len c).
  change (List.length (txt " ")) with 1. change (List.length (txt " <")) with 2. change (List.length (txt "> ")) with 2.
  cbn [List.length]. lia.
Qed.

Definition ent (c : nat) (e : bytes * bytes) (n : noted) : Prop :=
  fst e = query_text (n_ask n) /\ okask c (n_ask n) /\ (c < 3 -> count_of (n_ask n) = 0%N -> snd e = n_key n).
Record rb (c : nat) (b : buf) (t : N) (k : list noted) : Prop := {
  rb_total : ntotal b = t;
  rb_off : offset b = List.length (List.concat (map n_line k));
  rb_data : (0 < t)%N -> data b = List.concat (map n_line k);
  rb_none : t = 0%N -> k = [];
  rb_few : List.length k <= 20;
  rb_ent : Forall2 (ent c) (saved b) k;
  rb_line : Forall (fun n => List.length (n_line n) <= 499) k }.
Definition full (f : nat -> list noted) (d : nat) : bool := Nat.leb 20 (List.length (f d)).
Record rel (s : state) (bk : book) : Prop := {
  r_on : in_use s = on bk;
  r_thr : threshold s = limit bk;
  r_buf : forall c, c < 10 -> rb c (bufs s c) (total bk c) (kept bk c);
  r_over : overflow_cnt s = List.length (filter (full (kept bk)) (seq 0 10));
  r_run : on bk = true -> overflow_cnt s < 10 }.

Lemma lines_len k : Forall (fun n => List.length (n_line n) <= 499) k -> List.length (List.concat (map n_line k)) <= 499 * List.length k.
Proof. induction 1; cbn [map List.concat List.length]; rewrite ?app_length; lia. Qed.

Lemma dup_iff c key a b t k : rb c b t k -> okask c a -> is_command_duplicated key c a b = true <-> Exists (repeats c a key) k.
Proof.
  intros R Q. unfold is_command_duplicated. pose proof (rb_ent _ _ _ _ R) as F. clear R.
  induction F as [|e n l m E F IH]; [split; [discriminate|intro H; inversion H]|].
  cbn [existsb]. rewrite orb_true_iff, IH, Exists_cons. clear IH F. apply or_iff_compat_r.
  destruct E as (E1 & E2 & E3). unfold repeats. rewrite andb_true_iff, beqb_eq, !orb_true_iff, beqb_eq, negb_true_iff. unfold by_key.
  rewrite Nat.ltb_ge, N.ltb_lt. split.
  - intros [X Y]. rewrite E1 in X. apply (text_inj c) in X; [|assumption..]. split; [exact X|]. intros L [r G].
    destruct Y as [[Y|Y]|Y]; [lia|rewrite G in Y; cbn in Y; lia|]. rewrite <- Y. symmetry. apply E3; [exact L|]. rewrite X, G. reflexivity.
  - intros [X Y]. split; [rewrite E1, X; reflexivity|]. destruct (Nat.ltb_spec c 3) as [L|L]; [|left; left; exact L].
    destruct (N.eq_dec (count_of a) 0) as [Z|Z]; [|left; right; lia]. right.
    rewrite E3 by (try rewrite X; assumption). apply Y; [exact L|].
    destruct a as [u r|u]; cbn in Z, Q; [subst; eauto|lia].
Qed.

Lemma write_new c time ip key a ov old b0 b t0 t k :
  rb c b0 t0 k -> b = mkB (data b0) (offset b0) t (saved b0) -> (0 < t)%N -> List.length k < 20 ->
  sane (Long c time ip key a ov old) -> is_command_duplicated (key_shown key) c a b = false ->
  rb c (do_lqdetect_write c time ip key a ov old b) t (k ++ [mkN a (key_shown key) (shown c time ip (key_shown key) a ov)]).
Proof.
  intros R Hb P L (C & T & I & O & Q) Dup. change (okask c a) in Q. unfold do_lqdetect_write. rewrite Dup.
  assert (D : k = [] \/ data b0 = List.concat (map n_line k)).
  { destruct (N.eq_dec t0 0) as [Z|Z]; [left; apply (rb_none _ _ _ _ R Z)|right; apply (rb_data _ _ _ _ R); lia]. }
  subst b. clear Dup. unfold nsaved. cbn [data offset saved ntotal].
  destruct (key_short key) as [_ KL]. pose proof (line_len c time ip (key_shown key) a ov T I KL O Q) as LL.
  pose proof (lines_len k (rb_line _ _ _ _ R)) as LS. pose proof (F2_len _ _ _ (rb_ent _ _ _ _ R)) as N1. pose proof (rb_off _ _ _ _ R) as OF.
  rewrite (firstn_all2 (line c time ip (key_shown key) a ov)) by (unfold LQ_INPUT_SIZE; lia).
  assert (DD : firstn (offset b0) (data b0) = List.concat (map n_line k)).
  { destruct D as [->|D]; [rewrite OF; reflexivity|]. rewrite OF, D. apply firstn_all. }
  assert (CC : List.concat (map n_line (k ++ [mkN a (key_shown key) (shown c time ip (key_shown key) a ov)]))
     = List.concat (map n_line k) ++ line c time ip (key_shown key) a ov).
  { rewrite map_app, concat_app. cbn [map List.concat n_line]. rewrite app_nil_r. reflexivity. }
  constructor; cbn [ntotal offset data saved].
  - reflexivity.
  - rewrite CC, app_length, OF. reflexivity.
  - intros _. rewrite CC, DD. reflexivity.
  - lia.
  - rewrite app_length. cbn. lia.
  - apply Forall2_app; [apply (rb_ent _ _ _ _ R)|]. constructor; [|constructor]. split; [reflexivity|]. cbn [n_ask n_key fst snd].
    split; [exact Q|]. intros C3 Z. unfold stored_key, by_key. rewrite (proj2 (Nat.ltb_lt c 3) C3), Z. cbn [andb N.eqb].
    apply firstn_all2. exact KL.
  - apply Forall_app. split; [apply (rb_line _ _ _ _ R)|]. constructor; [|constructor]. cbn [n_line]. rewrite <- line_eq. exact LL.
Qed.

(* counting the full commands *)
Lemma full_same f g l : (forall d, In d l -> full f d = full g d) -> filter (full f) l = filter (full g) l.
Proof.
  induction l as [|x l IH]; intro H; [reflexivity|]. cbn [filter]. rewrite (H x (or_introl eq_refl)), IH; [reflexivity|]. intros d I. apply H. right. exact I.
Qed.
Lemma full_one f c x l : NoDup l -> In c l -> full f c = false -> 20 <= List.length x ->
  List.length (filter (full (change f c x)) l) = S (List.length (filter (full f) l)).
Proof.
  intros ND I F X. induction l as [|y l IH]; [destruct I|]. inversion ND as [|? ? NI ND']; subst. cbn [filter].
  assert (FC : full (change f c x) c = true) by (unfold full, change; rewrite Nat.eqb_refl; apply Nat.leb_le; exact X).
  destruct (Nat.eq_dec y c) as [->|NE].
  - rewrite FC, F. cbn [List.length]. f_equal. f_equal. apply full_same. intros d Id. unfold full, change.
    destruct (Nat.eqb_spec d c); [subst; contradiction|reflexivity].
  - destruct I as [?|I]; [contradiction|]. assert (E : full (change f c x) y = full f y).
    { unfold full, change. destruct (Nat.eqb_spec y c); [contradiction|reflexivity]. }
    rewrite E. destruct (full f y); cbn [List.length]; rewrite (IH ND' I); reflexivity.
Qed.
Lemma filter_le (f : nat -> bool) l : List.length (filter f l) <= List.length l.
Proof. induction l as [|x l IH]; cbn; [lia|]. destruct (f x); cbn; lia. Qed.
Lemma full_all f l : forallb (full f) l = true <-> List.length (filter (full f) l) = List.length l.
Proof.
  induction l as [|x l IH]; [cbn; tauto|]. cbn [forallb filter List.length]. pose proof (filter_le (full f) l).
  destruct (full f x); cbn [andb List.length]; [rewrite IH; lia|]. split; [discriminate|]. intro. lia.
Qed.

Lemma rb_put s bk c b t k : (forall d, d < 10 -> rb d (bufs s d) (total bk d) (kept bk d)) -> rb c b t k ->
  forall d, d < 10 -> rb d (put (bufs s) c b d) (change (total bk) c t d) (change (kept bk) c k d).
Proof.
  intros H R d L. unfold put, change. destruct (Nat.eqb_spec d c) as [->|]; [exact R|]. apply H, L.
Qed.
Lemma rb_same s bk c b t : (forall d, d < 10 -> rb d (bufs s d) (total bk d) (kept bk d)) -> rb c b t (kept bk c) ->
  forall d, d < 10 -> rb d (put (bufs s) c b d) (change (total bk) c t d) (kept bk d).
Proof.
  intros H R d L. unfold put, change. destruct (Nat.eqb_spec d c) as [->|]; [exact R|]. apply H, L.
Qed.

Lemma show_ok s bk : rel s bk -> (forall c, (total bk c < 2 ^ 32)%N) ->
  lqdetect_result_get s = Text (List.concat (map (fun c => nth c names [] ++ txt " : " ++ dec_text (total bk c) ++ [10%N] ++ List.concat (map n_line (kept bk c))) (seq 0 10))).
Proof.
  intros R B.
  assert (P : forall c, c < 10 -> piece s c = nth c names [] ++ txt " : " ++ dec_text (total bk c) ++ [10%N] ++ List.concat (map n_line (kept bk c))
     /\ List.length (piece s c) < 32 + offset (bufs s c)).
  { intros c C. pose proof (r_buf _ _ R c C) as Rb.
    assert (E : piece s c = nth c names [] ++ txt " : " ++ dec_text (total bk c) ++ [10%N] ++ List.concat (map n_line (kept bk c))).
    { unfold piece. rewrite (rb_total _ _ _ _ Rb), <- name_eq. do 4 f_equal. destruct (N.ltb_spec 0 (total bk c)) as [Z|Z].
      - apply (rb_data _ _ _ _ Rb Z).
      - rewrite (rb_none _ _ _ _ Rb); [reflexivity|lia]. }
    split; [exact E|]. rewrite E, !app_length, (rb_off _ _ _ _ Rb), <- name_eq. pose proof (name_len c). pose proof (dec10 _ (B c)).
    change (List.length (txt " : ")) with 3. cbn [List.length]. lia. }
  unfold lqdetect_result_get.
  assert (E : map (piece s) (seq 0 LQ_CMD_NUM) = map (fun c => nth c names [] ++ txt " : " ++ dec_text (total bk c) ++ [10%N] ++ List.concat (map n_line (kept bk c))) (seq 0 10)).
  { apply map_ext_in. intros c I. apply in_seq in I. apply P. lia. }
  assert (G : forall l, (forall c, In c l -> c < 10) -> l <> [] -> List.length (List.concat (map (piece s) l)) < 32 * List.length l + list_sum (map (fun c => offset (bufs s c)) l)).
  { induction l as [|x l IH]; intros H NE; [congruence|]. cbn [map List.concat]. rewrite app_length.
    change (list_sum (offset (bufs s x) :: map (fun c => offset (bufs s c)) l)) with (offset (bufs s x) + list_sum (map (fun c => offset (bufs s c)) l)).
    destruct (P x (H x (or_introl eq_refl))) as [_ PL]. destruct l as [|y l]; [cbn [map List.concat List.length]; change (list_sum []) with 0; lia|].
    assert (IH' := IH (fun c I => H c (or_intror I)) ltac:(discriminate)). cbn [List.length] in *. lia. }
  specialize (G (seq 0 LQ_CMD_NUM)). rewrite seq_length in G.
  rewrite (proj2 (Nat.ltb_lt _ _)); [rewrite E; reflexivity|]. apply G; [|discriminate]. intros c I. apply in_seq in I. unfold LQ_CMD_NUM in I. lia.
Qed.

Lemma step_ok s bk e : rel s bk -> sane e -> (forall c, (total bk c + 1 < 2 ^ 32)%N) ->
  exists bk', bnext bk e (snd (step s e)) bk' /\ rel (fst (step s e)) bk' /\ forall c, (total bk' c <= total bk c + 1)%N.
Proof.
  intros R SN B. destruct e as [t| |c time ip key a ov old|].
  - cbn [step]. unfold lqdetect_start. destruct (in_use s) eqn:U; cbn [fst snd].
    + exists bk. split; [apply b_again; rewrite <- (r_on _ _ R); exact U|]. split; [exact R|intro; lia].
    + eexists. split; [apply b_start; rewrite <- (r_on _ _ R); exact U|]. split; [|intro; cbn [total]; lia].
      constructor; cbn [in_use on threshold limit bufs total kept overflow_cnt]; try reflexivity; [|intros _; lia].
      intros c C. constructor; cbn; auto; lia.
  - cbn [step]. destruct (in_use s) eqn:U; cbn [fst snd].
    + eexists. split; [apply b_stop; rewrite <- (r_on _ _ R); exact U|]. split; [|intro; cbn [total]; lia].
      destruct R. constructor; cbn [in_use on threshold limit bufs total kept overflow_cnt]; auto. discriminate.
    + exists bk. split; [apply b_off; rewrite <- (r_on _ _ R); exact U|]. split; [exact R|intro; lia].
  - cbn [step fst snd]. destruct (in_use s) eqn:U; cbn [andb].
    2:{ exists bk. split; [apply b_short; left; rewrite <- (r_on _ _ R); exact U|]. split; [exact R|intro; lia]. }
    assert (ON : on bk = true) by (rewrite <- (r_on _ _ R); exact U).
    destruct (N.leb_spec (threshold s) ov) as [TH|TH]; rewrite (r_thr _ _ R) in TH.
    2:{ exists bk. split; [apply b_short; right; exact TH|]. split; [exact R|intro; lia]. }
    assert (C : c < 10) by (destruct SN; assumption). pose proof (r_buf _ _ R c C) as Rb.
    assert (Q : okask c a) by (destruct SN as (_ & _ & _ & _ & Q); exact Q).
    assert (LT : forall d, (change (total bk) c (total bk c + 1) d <= total bk d + 1)%N).
    { intro d. unfold change. destruct (Nat.eqb_spec d c) as [->|]; lia. }
    unfold do_lqdetect_save_cmd. rewrite U. cbv zeta.
    set (b := mkB (data (bufs s c)) (offset (bufs s c)) ((ntotal (bufs s c) + 1) mod 2 ^ 32) (saved (bufs s c))).
    assert (NT : ntotal b = (total bk c + 1)%N). { cbn [b ntotal]. rewrite (rb_total _ _ _ _ Rb). apply N.mod_small, B. }
    assert (NS : nsaved b = List.length (kept bk c)). { unfold nsaved. cbn [b saved]. apply (F2_len _ _ _ (rb_ent _ _ _ _ Rb)). }
    assert (KD : kept bk c = [] \/ data (bufs s c) = List.concat (map n_line (kept bk c))).
    { destruct (N.eq_dec (total bk c) 0) as [Z|Z]; [left; apply (rb_none _ _ _ _ Rb Z)|right; apply (rb_data _ _ _ _ Rb); lia]. }
    assert (RB : kept bk c <> [] -> rb c b (total bk c + 1)%N (kept bk c)).
    { intro NE. destruct KD as [?|KD]; [contradiction|]. destruct Rb. constructor; auto. lia. }
    destruct (Nat.ltb_spec (nsaved b) LQ_SAVE_CNT) as [L|L]; unfold LQ_SAVE_CNT in L; rewrite NS in L.
    + (* a relation of the buffer with its text for the test of repetition *)
      assert (DUP : is_command_duplicated (key_shown key) c a b = true <-> Exists (repeats c a (key_shown key)) (kept bk c)).
      { exact (dup_iff c (key_shown key) a (bufs s c) _ _ Rb Q). }
      destruct (is_command_duplicated (key_shown key) c a b) eqn:D.
      * assert (X : Exists (repeats c a (key_shown key)) (kept bk c)) by (apply DUP; reflexivity).
        unfold do_lqdetect_write. rewrite D. rewrite (proj2 (Nat.leb_gt LQ_SAVE_CNT (nsaved b))) by (rewrite NS; exact L).
        eexists. split; [eapply b_repeat; [exact ON|exact TH|apply key_short|right; exact X]|]. split; [|exact LT].
        destruct R. constructor; cbn [in_use on threshold limit bufs total kept overflow_cnt]; auto.
        apply rb_same; [assumption|]. apply RB. intro Z. rewrite Z in X. inversion X.
      * assert (X : ~ Exists (repeats c a (key_shown key)) (kept bk c)) by (intro X; apply DUP in X; discriminate).
        set (nw := mkN a (key_shown key) (shown c time ip (key_shown key) a ov)).
        assert (W : rb c (do_lqdetect_write c time ip key a ov old b) (total bk c + 1)%N (kept bk c ++ [nw])).
        { apply (write_new c time ip key a ov old (bufs s c) b (total bk c)); auto; [|lia]. rewrite <- NT. reflexivity. }
        assert (NW : nsaved (do_lqdetect_write c time ip key a ov old b) = S (List.length (kept bk c))).
        { unfold nsaved. rewrite (F2_len _ _ _ (rb_ent _ _ _ _ W)), app_length. cbn. lia. }
        eexists. split; [eapply b_new; [exact ON|exact TH|apply key_short|exact L|exact X|reflexivity]|]. fold nw.
        split; [|destruct (Nat.leb LQ_SAVE_CNT (nsaved (do_lqdetect_write c time ip key a ov old b))); exact LT].
        set (kk := change (kept bk) c (kept bk c ++ [nw])).
        change (forallb (fun d => Nat.leb 20 (List.length (kk d))) (seq 0 10)) with (forallb (full kk) (seq 0 10)).
        assert (FO : full (kept bk) c = false) by (apply Nat.leb_gt; exact L).
        pose proof (r_run _ _ R ON) as OV. pose proof (r_over _ _ R) as OE.
        pose proof (full_all kk (seq 0 10)) as FA. rewrite seq_length in FA.
        destruct (Nat.leb_spec LQ_SAVE_CNT (nsaved (do_lqdetect_write c time ip key a ov old b))) as [G|G]; unfold LQ_SAVE_CNT in G; rewrite NW in G.
        -- assert (CNT : List.length (filter (full kk) (seq 0 10)) = S (overflow_cnt s)).
           { rewrite OE. apply full_one; [apply seq_NoDup|apply in_seq; lia|exact FO|]. rewrite app_length. cbn. lia. }
           rewrite CNT in FA.
           constructor; cbn [in_use on threshold limit bufs total kept overflow_cnt].
           ++ unfold LQ_CMD_NUM. destruct (Nat.leb_spec 10 (S (overflow_cnt s))) as [H|H]; destruct (forallb (full kk) (seq 0 10)); try reflexivity.
              ** assert (false = true) by (apply FA; lia). discriminate.
              ** assert (S (overflow_cnt s) = 10) by (apply FA; reflexivity). lia.
           ++ apply (r_thr _ _ R).
           ++ apply rb_put; [apply (r_buf _ _ R)|exact W].
           ++ symmetry. exact CNT.
           ++ intro H. destruct (forallb (full kk) (seq 0 10)); [discriminate|].
              assert (S (overflow_cnt s) <> 10) by (intro Z; apply FA in Z; discriminate). lia.
        -- assert (CNT : List.length (filter (full kk) (seq 0 10)) = overflow_cnt s).
           { rewrite OE. f_equal. apply full_same. intros d _. unfold full, kk, change. destruct (Nat.eqb_spec d c) as [->|]; [|reflexivity].
             rewrite app_length. change (List.length [nw]) with 1. rewrite (proj2 (Nat.leb_gt _ _)) by lia. symmetry. exact FO. }
           rewrite CNT in FA.
           constructor; cbn [in_use on threshold limit bufs total kept overflow_cnt].
           ++ destruct (forallb (full kk) (seq 0 10)); [|reflexivity]. assert (overflow_cnt s = 10) by (apply FA; reflexivity). lia.
           ++ apply (r_thr _ _ R).
           ++ apply rb_put; [apply (r_buf _ _ R)|exact W].
           ++ symmetry. exact CNT.
           ++ intros _. exact OV.
    + eexists. split; [eapply b_repeat; [exact ON|exact TH|apply key_short|left; exact L]|]. split; [|exact LT].
      destruct R. constructor; cbn [in_use on threshold limit bufs total kept overflow_cnt]; auto.
      apply rb_same; [assumption|]. apply RB. intro Z. rewrite Z in L. cbn in L. lia.
  - cbn [step fst snd]. exists bk. split; [|split; [exact R|intro; lia]].
    rewrite (show_ok s bk R) by (intro c; specialize (B c); lia). apply b_show.
Qed.

Lemma run_ok l : forall s bk, rel s bk -> Forall sane l -> (forall c, (total bk c + N.of_nat (List.length l) < 2 ^ 32)%N) ->
  exists bk', books bk l (snd (run s l)) bk' /\ rel (fst (run s l)) bk'.
Proof.
  induction l as [|e l IH]; intros s bk R SN B; [exists bk; split; [constructor|exact R]|].
  inversion SN as [|? ? S1 S2]; subst. cbn [List.length] in B.
  destruct (step_ok s bk e R S1) as (bk1 & N1 & R1 & T1); [intro c; specialize (B c); lia|].
  destruct (IH (fst (step s e)) bk1 R1 S2) as (bk2 & N2 & R2); [intro c; specialize (B c); specialize (T1 c); lia|].
  exists bk2. cbn [run]. destruct (step s e) as [s1 o]. cbn [fst snd] in *. destruct (run s1 l) as [s2 os]. cbn [fst snd] in *.
  split; [econstructor; eassumption|exact R2].
Qed.
Lemma rel_init : rel init empty.
Proof.
  constructor; cbn [init empty in_use on threshold limit bufs total kept overflow_cnt]; try reflexivity; [|discriminate].
  intros c C. constructor; cbn; auto; lia.
Qed.

(* the book says one thing *)
Lemma app_len_inj {A} (a b r s : list A) : List.length a = List.length b -> a ++ r = b ++ s -> a = b /\ r = s.
Proof.
  revert b. induction a as [|x a IH]; intros [|y b] L E; try discriminate; [auto|]. cbn in *. injection E as -> E. injection L as L.
  destruct (IH b L E) as [-> ->]. auto.
Qed.
Lemma shortened_one key k k' : shortened key k -> shortened key k' -> k = k'.
Proof.
  intros [[L ->]|[L (a & m & z & E & A & Z & ->)]] [[L' ->]|[L' (a' & m' & z' & E' & A' & Z' & ->)]]; try lia; [reflexivity|].
  rewrite E in E'. apply app_len_inj in E' as [-> E']; [|congruence].
  assert (List.length m = List.length m') by (apply (f_equal (@List.length _)) in E'; rewrite !app_length in E'; lia).
  apply app_len_inj in E' as [_ ->]; [reflexivity|assumption].
Qed.
Lemma bnext_one bk e o bk1 o' bk2 : bnext bk e o bk1 -> bnext bk e o' bk2 -> o = o' /\ bk1 = bk2.
Proof.
  intros A B. inversion A; subst; inversion B; subst;
    repeat match goal with H : _ \/ _ |- _ => destruct H end;
    try match goal with H1 : shortened ?k ?x, H2 : shortened ?k ?y |- _ => pose proof (shortened_one _ _ _ H1 H2); subst end;
    try congruence; try lia; try contradiction; auto.
Qed.
Lemma books_one bk l os bk1 : books bk l os bk1 -> forall os' bk2, books bk l os' bk2 -> os = os' /\ bk1 = bk2.
Proof.
  induction 1 as [|bk e o bk1 l os bk2 N1 B1 IH]; intros os' bk3 B; inversion B; subst; [auto|].
  match goal with H : bnext bk e _ _ |- _ => destruct (bnext_one _ _ _ _ _ _ N1 H); subst end.
  match goal with H : books _ l _ bk3 |- _ => destruct (IH _ _ H); subst end. auto.
Qed.
