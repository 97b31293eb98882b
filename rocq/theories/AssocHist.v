(* Every history of operations on the table. *)
From Verif Require Import Base AssocModel AssocSpec AssocProofs AssocScan AssocRun.
Local Open Scope N_scope.

Lemma times_app k l1 l2 : times k (l1 ++ l2) = (times k l1 + times k l2)%nat.
Proof. unfold times. rewrite filter_app, app_length. reflexivity. Qed.
Lemma times_nodup k l : NoDup (map fst l) -> times k l = (if existsb (beqb k) (map fst l) then 1 else 0)%nat.
Proof.
  induction l as [|(k', v) l IH]; intro H; [reflexivity|]. inversion H as [|? ? NI ND]; subst. specialize (IH ND). unfold times in *. cbn [map fst existsb filter].
  destruct (beqb k k') eqn:E; cbn [orb length]; [|exact IH]. apply beqb_eq in E. subst k'. f_equal.
  replace (existsb (beqb k) (map fst l)) with false in IH; [exact IH|]. symmetry. apply not_true_is_false. intro D. apply existsb_in in D. contradiction.
Qed.
Lemma times_zero k l : ~ In k (map fst l) -> times k l = 0%nat.
Proof.
  induction l as [|(k', v) l IH]; intro H; [reflexivity|]. unfold times in *. cbn [filter fst]. cbn [map fst] in H.
  destruct (beqb k k') eqn:E; [apply beqb_eq in E; subst; exfalso; apply H; left; reflexivity|]. apply IH. intro D. apply H. right. exact D.
Qed.

Section Hist.
Variables (hp : N) (hash : bytes -> N).
Notation hsize := (hsize hp).
Notation bkt k := (bucket_of hp (hash k)).
Notation cur := (cur hp hash).
Notation base := (base hp hash).
Notation sinv := (sinv hp).
Notation vis := (vis hp hash).

Definition started (sc : scan) : Prop := s_tabcnt sc <> 0 \/ s_bucket sc = hsize.

Record inv (a : assoc) (w : world) : Prop := {
  i_base : base a (kv w);
  i_stable : stable a;
  i_sinv : sinv a;
  i_open : open w = map s_on (scans a)
}.

Lemma nth_map_on (l : list scan) s b : nth_error (map s_on l) s = Some b -> exists sc, nth_error l s = Some sc /\ s_on sc = b.
Proof. rewrite nth_error_map. destruct (nth_error l s) as [sc|]; cbn; [|discriminate]. intro H. injection H as <-. eauto. Qed.
Lemma map_set_nth (l : list scan) s x : map s_on (set_nth l s x) = set_nth (map s_on l) s (s_on x).
Proof. revert s; induction l as [|y l IH]; intros [|s]; cbn; try reflexivity. rewrite IH. reflexivity. Qed.

(* what one operation does for scan s *)
Definition track (s : nat) (a : assoc) (w : world) (o : op) (a' : assoc) (x : out) : Prop :=
  forall sc, nth_error (scans a) s = Some sc -> s_on sc = true -> keeps_scan s o = true ->
  exists sc', nth_error (scans a') s = Some sc' /\ s_on sc' = true /\
    (started sc \/ is_next s o = true -> started sc') /\
    (is_next s o = true -> x = OItems None -> s_bucket sc' = hsize) /\
    (forall k, stored (kv w) k = true -> keeps_key k o = true ->
       (times k (returned s [o] [x]) + (if vis a s sc k then 1 else 0) = (if vis a' s sc' k then 1 else 0))%nat).

Lemma track_same s a w o a' x : scans a' = scans a -> is_next s o = false -> returned s [o] [x] = [] ->
  (forall k, stored (kv w) k = true -> keeps_key k o = true -> same_vis hp hash a a' k) -> track s a w o a' x.
Proof.
  intros SC NX RT V sc N ON _. exists sc. rewrite SC. split; [exact N|]. split; [exact ON|]. rewrite NX, RT.
  split; [intros [H|H]; [exact H|discriminate]|]. split; [discriminate|]. intros k H1 H2. rewrite (V k H1 H2 s sc N ON). reflexivity.
Qed.

Lemma step_ok a w o : inv a w -> legal w o = true ->
  exists a' x, step hp hash a o = Some (a', x) /\ inv a' (effect w o) /\ answer w o x /\ forall s, track s a w o a' x.
Proof.
  intros [B ST S OP] L. destruct o as [k v m1 m2|k|k v|k|s g|s asz el cc|s|s k]; cbn [legal] in L; cbn [step].
  - unfold stored in L. destruct (lookup (kv w) k) eqn:LK; [discriminate|].
    destruct (insert_step hp hash a (kv w) k v m1 m2 B ST S LK) as (a' & E & B' & ST' & S' & SC & V). rewrite E. exists a', ODone.
    split; [reflexivity|]. split; [constructor; [exact B'|exact ST'|exact S'|cbn; rewrite SC; exact OP]|]. split; [exact I|].
    intro s. apply track_same; try reflexivity; [exact SC|]. intros k' H1 _. apply V. intros ->. unfold stored in H1. rewrite LK in H1. discriminate.
  - destruct (delete_step hp hash a (kv w) k B ST S L) as (a' & E & B' & ST' & S' & SC & V). rewrite E. exists a', ODone.
    split; [reflexivity|]. split; [constructor; [exact B'|exact ST'|exact S'|cbn; rewrite SC; exact OP]|]. split; [exact I|].
    intro s. apply track_same; try reflexivity; [exact SC|]. intros k' H1 H2. apply V. intros ->. cbn in H2. rewrite beqb_refl in H2. discriminate.
  - destruct (replace_step hp hash a (kv w) k v B ST S L) as (a' & E & B' & ST' & S' & SC & V). rewrite E. exists a', ODone.
    split; [reflexivity|]. split; [constructor; [exact B'|exact ST'|exact S'|cbn; rewrite SC; exact OP]|]. split; [exact I|].
    intro s. apply track_same; try reflexivity; [exact SC|]. intros k' H1 _. apply V.
  - exists a, (OFound (find hp hash a k)). split; [reflexivity|]. split; [constructor; assumption|]. split; [apply find_ok; exact B|].
    intro s. apply track_same; try reflexivity. intros k' _ _ s2 sc _ _. reflexivity.
  - destruct (in_use w s) as [[|]|] eqn:U; try discriminate. unfold in_use in U. rewrite OP in U. apply nth_map_on in U as (sc & N & OFF).
    destruct (scan_init_step hp hash a (kv w) s g sc B ST S N OFF) as (B' & ST' & S' & SC & V & _).
    exists (scan_init a s g), ODone. split; [reflexivity|]. split; [constructor; [exact B'|exact ST'|exact S'|cbn [effect open]; rewrite SC, map_set_nth, OP; reflexivity]|]. split; [exact I|].
    intros s2 sc2 N2 ON2 K. cbn in K. apply negb_true_iff, Nat.eqb_neq in K. exists sc2. rewrite SC, nth_set_nth.
    destruct (Nat.eqb_spec s s2); [congruence|]. split; [exact N2|]. split; [exact ON2|]. split; [intros [H|H]; [exact H|discriminate]|]. split; [discriminate|].
    intros k _ _. rewrite V. reflexivity.
  - destruct (in_use w s) as [[|]|] eqn:U; try discriminate. unfold in_use in U. rewrite OP in U. apply nth_map_on in U as (sc & N & ON).
    destruct (scan_next_step hp hash a (kv w) s asz el cc sc B ST S N ON ltac:(intro Z; rewrite Z in L; discriminate))
      as (a' & sc' & r & E & B' & ST' & S' & SC & ON' & V & ED & D1 & D2 & D3 & D4 & D5 & D6).
    rewrite E. exists a', (OItems r). split; [reflexivity|].
    split; [constructor; [exact B'|exact ST'|exact S'|]|]. { cbn [effect]. rewrite SC, map_set_nth, OP, ON'. symmetry. apply set_nth_same. rewrite nth_error_map, N. cbn. congruence. }
    split.
    { cbn [answer]. destruct r as [l|]; [|exact I]. split; [intros ->; apply D6; reflexivity|]. split; [|exact D3].
      intros k v H. apply lookup_in; [apply (b_ndm hp hash a _ B)|]. apply D2. exact H. }
    intros s2 sc2 N2 ON2 K. destruct (Nat.eqb_spec s s2) as [EQ|NE].
    + subst s2. assert (sc2 = sc) by congruence. subst sc2. exists sc'. rewrite SC, nth_set_nth, N, Nat.eqb_refl. split; [reflexivity|]. split; [exact ON'|].
      split; [intros _; unfold started; destruct (N.eq_dec (s_tabcnt sc') 0); auto|]. split; [intros _ H; apply D5; congruence|].
      intros k H _. cbn [returned]. rewrite Nat.eqb_refl.
      replace (match r with Some d => d ++ [] | None => [] end) with (match r with Some l => l | None => [] end) by (destruct r; rewrite ?app_nil_r; reflexivity).
      rewrite times_nodup by exact D3. rewrite D1 by (apply stored_in; exact H).
      set (d := match r with Some l => l | None => [] end) in *.
      destruct (existsb (beqb k) (map fst d)) eqn:X; [|rewrite orb_false_r; reflexivity]. rewrite (D4 k) by (apply existsb_in; exact X). reflexivity.
    + exists sc2. rewrite SC, nth_set_nth. destruct (Nat.eqb_spec s s2); [congruence|]. split; [exact N2|]. split; [exact ON2|].
      assert (X : is_next s2 (ScanNext s asz el cc) = false) by (cbn; apply Nat.eqb_neq; congruence). rewrite X.
      split; [intros [H|H]; [exact H|discriminate]|]. split; [discriminate|]. intros k _ _. rewrite (V s2 sc2 k) by (try exact N2; congruence).
      cbn [returned]. destruct (Nat.eqb_spec s2 s); [congruence|]. destruct r; reflexivity.
  - destruct (in_use w s) as [[|]|] eqn:U; try discriminate. unfold in_use in U. rewrite OP in U. apply nth_map_on in U as (sc & N & ON).
    destruct (scan_final_step hp hash a (kv w) s sc B ST S N ON) as (a' & sc' & E & B' & ST' & S' & SC & OFF & V). rewrite E. exists a', ODone.
    split; [reflexivity|]. split; [constructor; [exact B'|exact ST'|exact S'|cbn [effect open]; rewrite SC, map_set_nth, OP, OFF; reflexivity]|]. split; [exact I|].
    intros s2 sc2 N2 ON2 K. cbn in K. apply negb_true_iff, Nat.eqb_neq in K. exists sc2. rewrite SC, nth_set_nth.
    destruct (Nat.eqb_spec s s2); [congruence|]. split; [exact N2|]. split; [exact ON2|]. split; [intros [H|H]; [exact H|discriminate]|]. split; [discriminate|].
    intros k _ _. rewrite V by congruence. reflexivity.
  - exists a, (OVisited (visited hp hash a s k)). split; [reflexivity|]. split; [constructor; assumption|]. split; [exact I|].
    intro s2. apply track_same; try reflexivity. intros k' _ _ s3 sc _ _. reflexivity.
Qed.

Lemma run_ok : forall l a w, inv a w -> legal_run w l ->
  exists a' xs, run hp hash a l = Some (a', xs) /\ inv a' (final w l) /\ answers w l xs.
Proof.
  induction l as [|o l IH]; intros a w IV L; [exists a, []; split; [reflexivity|split; [exact IV|exact I]]|].
  destruct L as [L1 L2]. destruct (step_ok a w o IV L1) as (a1 & x & E & I1 & A1 & _). destruct (IH a1 _ I1 L2) as (a' & xs & R & I2 & A2).
  exists a', (x :: xs). cbn [run]. rewrite E, R. split; [reflexivity|]. split; [exact I2|]. split; assumption.
Qed.

Lemma stored_effect w o k : legal w o = true -> keeps_key k o = true -> stored (kv w) k = true -> stored (kv (effect w o)) k = true.
Proof.
  intros L K H. apply stored_in in H. apply in_map_iff in H as ((k0, v0) & E & H). cbn in E. subst k0.
  apply stored_in. apply in_map_iff. destruct o as [k' v' m1 m2|k'|k' v'|k'|s g|s asz el cc|s|s k']; cbn [effect kv]; try (exists (k, v0); split; [reflexivity|exact H]).
  - exists (k, v0). split; [reflexivity|right; exact H].
  - cbn in K. exists (k, v0). split; [reflexivity|]. apply without_in. split; [exact H|]. intros ->. rewrite beqb_refl in K. discriminate.
  - destruct (beqb k k') eqn:E.
    + apply beqb_eq in E. subst k'. exists (k, v'). split; [reflexivity|left; reflexivity].
    + exists (k, v0). split; [reflexivity|]. right. apply without_in. split; [exact H|]. intros ->. rewrite beqb_refl in E. discriminate.
Qed.
Lemma returned_cons s o l x xs : returned s (o :: l) (x :: xs) = returned s [o] [x] ++ returned s l xs.
Proof.
  cbn [returned]. destruct o as [k' v' m1 m2|k'|k' v'|k'|s' g|s' asz el cc|s'|s' k']; try reflexivity. destruct x as [|v|[d|]|b]; try reflexivity.
  destruct (Nat.eqb s s'); [rewrite app_nil_r|]; reflexivity.
Qed.

(* scan s over a piece of history that neither opens nor closes it *)
Lemma track_run s : forall l a w a' xs sc, inv a w -> legal_run w l -> run hp hash a l = Some (a', xs) ->
  nth_error (scans a) s = Some sc -> s_on sc = true -> forallb (keeps_scan s) l = true ->
  exists sc', nth_error (scans a') s = Some sc' /\ s_on sc' = true /\
    (started sc \/ existsb (is_next s) l = true -> started sc') /\
    (forall k, stored (kv w) k = true -> forallb (keeps_key k) l = true ->
       stored (kv (final w l)) k = true /\
       (times k (returned s l xs) + (if vis a s sc k then 1 else 0) = (if vis a' s sc' k then 1 else 0))%nat) /\
    (forall k, forallb (keeps_key k) l = true -> (times k (returned s l xs) <= 1)%nat).
Proof.
  induction l as [|o l IH]; intros a w a' xs sc IV L R N ON K.
  - cbn in R. injection R as <- <-. exists sc. split; [exact N|]. split; [exact ON|]. split; [intros [H|H]; [exact H|discriminate]|].
    split; [intros k H _; split; [exact H|reflexivity]|]. intros; cbn; lia.
  - destruct L as [L1 L2]. cbn [forallb] in K. apply andb_true_iff in K as [K1 K2].
    destruct (step_ok a w o IV L1) as (a1 & x & E & I1 & A1 & T). destruct (T s sc N ON K1) as (sc1 & N1 & ON1 & ST1 & _ & V1).
    cbn [run] in R. rewrite E in R. destruct (run hp hash a1 l) as [(a2, ys)|] eqn:R1; [|discriminate]. injection R as <- <-.
    destruct (IH a1 _ a2 ys sc1 I1 L2 R1 N1 ON1 K2) as (sc2 & N2 & ON2 & ST2 & V2 & M2). exists sc2. split; [exact N2|]. split; [exact ON2|].
    split. { cbn [existsb]. rewrite orb_true_iff. tauto. }
    assert (ALL : forall k, stored (kv w) k = true -> keeps_key k o && forallb (keeps_key k) l = true ->
       stored (kv (final (effect w o) l)) k = true /\
       (times k (returned s (o :: l) (x :: ys)) + (if vis a s sc k then 1 else 0) = (if vis a2 s sc2 k then 1 else 0))%nat).
    { intros k H KK. apply andb_true_iff in KK as [KK1 KK2]. destruct (V2 k (stored_effect w o k L1 KK1 H) KK2) as [V2a V2b].
      split; [exact V2a|]. specialize (V1 k H KK1). rewrite returned_cons, times_app. lia. }
    split; [exact ALL|]. intros k KK. cbn [forallb] in KK. destruct (stored (kv w) k) eqn:H.
    + destruct (ALL k H KK) as [_ C]. destruct (vis a2 s sc2 k); lia.
    + apply andb_true_iff in KK as [KK1 KK2]. rewrite returned_cons, times_app.
      replace (times k (returned s [o] [x])) with 0%nat; [apply M2; exact KK2|]. symmetry. apply times_zero.
      intro D. assert (stored (kv w) k = true); [|congruence]. destruct o; try (cbn in D; destruct D; fail).
      cbn [returned] in D. destruct x as [|v|[d|]|b]; try (destruct D; fail). cbn [answer] in A1. destruct A1 as (_ & A1 & _).
      destruct (Nat.eqb s s0); [|destruct D]. rewrite app_nil_r in D. apply in_map_iff in D as ((k2, v2) & E2 & D). cbn in E2. subst k2.
      unfold stored. rewrite (A1 k v2 D). reflexivity.
Qed.

Lemma run_app : forall l1 l2 a a1 xs1 a2 xs2, run hp hash a l1 = Some (a1, xs1) -> run hp hash a1 l2 = Some (a2, xs2) ->
  run hp hash a (l1 ++ l2) = Some (a2, xs1 ++ xs2).
Proof.
  induction l1 as [|o l1 IH]; intros l2 a a1 xs1 a2 xs2 R1 R2; cbn [run app] in *; [injection R1 as <- <-; exact R2|].
  destruct (step hp hash a o) as [(a0, x)|]; [|discriminate]. destruct (run hp hash a0 l1) as [(a0', ys)|] eqn:R; [|discriminate].
  injection R1 as <- <-. rewrite (IH l2 a0 a0' ys a2 xs2 R R2). reflexivity.
Qed.
Lemma run_split : forall l1 l2 a a2 xs, run hp hash a (l1 ++ l2) = Some (a2, xs) ->
  exists a1 xs1 xs2, run hp hash a l1 = Some (a1, xs1) /\ run hp hash a1 l2 = Some (a2, xs2) /\ xs = xs1 ++ xs2 /\ length xs1 = length l1.
Proof.
  induction l1 as [|o l1 IH]; intros l2 a a2 xs R; cbn [run app] in *; [exists a, [], xs; auto|].
  destruct (step hp hash a o) as [(a0, x)|]; [|discriminate]. destruct (run hp hash a0 (l1 ++ l2)) as [(a0', ys)|] eqn:E; [|discriminate].
  injection R as <- <-. destruct (IH l2 a0 a0' ys E) as (a1 & xs1 & xs2 & R1 & R2 & -> & LN). exists a1, (x :: xs1), xs2. rewrite R1. repeat split; [exact R2|cbn; lia].
Qed.
Lemma legal_split : forall l1 l2 w, legal_run w (l1 ++ l2) <-> legal_run w l1 /\ legal_run (final w l1) l2.
Proof. induction l1 as [|o l1 IH]; intros l2 w; cbn [app legal_run]; [unfold final; cbn; tauto|]. rewrite IH. unfold final. cbn [fold_left]. tauto. Qed.
Lemma returned_app s : forall l1 xs1 l2 xs2, length xs1 = length l1 -> returned s (l1 ++ l2) (xs1 ++ xs2) = returned s l1 xs1 ++ returned s l2 xs2.
Proof.
  induction l1 as [|o l1 IH]; intros [|x xs1] l2 xs2 H; cbn in H; try discriminate; [reflexivity|]. cbn [app].
  rewrite (returned_cons s o (l1 ++ l2)), (returned_cons s o l1), IH by lia. apply app_assoc.
Qed.

Lemma init_inv n : inv (init hp n) (empty n).
Proof.
  constructor.
  - constructor.
    + constructor; cbn; try lia; try discriminate; unfold rsize; cbn; lia.
    + intros t b k v [].
    + intros k v. split; intros [].
    + intros t b. constructor.
    + constructor.
    + reflexivity.
  - intro H. discriminate.
  - constructor.
    + intros t b s. cbn. split; [intros []|]. intros (sc & N & O & _). apply nth_error_In, repeat_spec in N. subst sc. discriminate.
    + intros t b. constructor.
    + intro b. cbn. induction n as [|n IH]; [reflexivity|]. cbn [repeat filter]. exact IH.
    + intros s sc N O. cbn in N. apply nth_error_In, repeat_spec in N. subst sc. discriminate.
  - cbn. induction n as [|n IH]; [reflexivity|]. cbn. f_equal. exact IH.
Qed.

Lemma visited_vis a s sc k : nth_error (scans a) s = Some sc -> started sc -> visited hp hash a s k = vis a s sc k.
Proof.
  intros N ST. unfold visited, vis, AssocScan.vis. rewrite N. destruct (bkt k <? s_bucket sc) eqn:L; [reflexivity|]. cbn [orb].
  destruct ST as [ST|ST]; [|pose proof (bkt_lt hp hash k); lia]. replace (s_tabcnt sc =? 0) with false by lia. cbn [negb]. rewrite andb_true_r.
  destruct (bkt k =? s_bucket sc); [|reflexivity]. cbn [andb]. fold (cur a k).
  destruct (cur a k <? s_tabidx sc); [reflexivity|]. cbn [orb]. destruct ((cur a k =? s_tabidx sc) && s_linked sc); [|reflexivity].
  cbn [andb]. unfold kbef. destruct (cut_ph s (tab a (cur a k) (bkt k))) as [(p, q)|]; [|reflexivity].
  clear. induction p as [|[k' v|s'] p IH]; [reflexivity| |]; cbn [existsb keys its flat_map map app]; fold (its p) (keys p).
  - cbn [fst]. f_equal. exact IH.
  - exact IH.
Qed.
End Hist.
