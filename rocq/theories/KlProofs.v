From Coq Require Import String Ascii.
From Verif Require Import Base UtilModel UtilSpec UtilProofs ArgTypes ArgSpec ArgModel ArgProofs KlModel KlSpec.
From Coq Require Import List ZArith NArith Lia Bool.
Local Open Scope nat_scope.
Local Open Scope list_scope.

Ltac lits := repeat match goal with
  | |- context[beqb (txt ?a) (txt ?b)] => let v := eval vm_compute in (beqb (txt a) (txt b)) in change (beqb (txt a) (txt b)) with v
  end.
Ltac shape := unfold parse; cbn [List.length word nth Nat.eqb Nat.leb orb andb]; lits; cbn [andb orb]; lits; cbn [andb orb].

Lemma long_ok k : too_long k = false <-> key_ok k.
Proof. unfold too_long, key_ok, KEY_MAX_LENGTH. rewrite N.ltb_ge. tauto. Qed.
Lemma noreply_word x : x <> txt "noreply" -> beqb x (txt "noreply") = false.
Proof. intro H. destruct (beqb_spec x (txt "noreply")); [contradiction|reflexivity]. Qed.
Lemma sized n : size_ok n -> ((n <? 0) || (2147483645 <? n))%Z%bool = false.
Proof. unfold size_ok. intro H. apply orb_false_iff. rewrite !Z.ltb_ge. lia. Qed.
Lemma num_noreply : safe_strtoul (txt "noreply") = None /\ safe_strtol (txt "noreply") = None /\ safe_strtoll (txt "noreply") = None /\ safe_strtoull (txt "noreply") = None.
Proof. repeat split; vm_compute; reflexivity. Qed.
Lemma i64_word w d : num_i64 w d -> w <> txt "noreply".
Proof. intros H ->. apply i64_ok in H. rewrite (proj1 (proj2 (proj2 num_noreply))) in H. discriminate. Qed.
Lemma i32_word w d : num_i32 w d -> w <> txt "noreply".
Proof. intros H ->. apply i32_ok in H. rewrite (proj1 (proj2 num_noreply)) in H. discriminate. Qed.
Lemma u64_word w d : num_u64 w d -> w <> txt "noreply".
Proof. intros H ->. apply u64_ok in H. rewrite (proj2 (proj2 (proj2 num_noreply))) in H. discriminate. Qed.

(* ---------- documented lines ---------- *)
Ltac nums := repeat match goal with
  | H : num_u32 _ _ |- _ => apply u32_ok in H; rewrite H
  | H : num_u64 _ _ |- _ => apply u64_ok in H; rewrite H
  | H : num_i64 _ _ |- _ => apply i64_ok in H; rewrite H
  | H : num_i32 _ _ |- _ => apply i32_ok in H; rewrite H
  end.
Lemma store_len toks w kind : store_word w kind -> word toks 0 = w -> List.length toks = 5 \/ List.length toks = 6 -> parse toks = update_cmd toks kind false.
Proof.
  intros W E L. unfold parse. rewrite E.
  assert (Q : (Nat.eqb (S (List.length toks)) 6 || Nat.eqb (S (List.length toks)) 7)%bool = true) by (destruct L as [-> | ->]; reflexivity).
  rewrite Q. destruct W; lits; rewrite ?andb_false_r; reflexivity.
Qed.
Lemma cas_len toks : word toks 0 = txt "cas" -> List.length toks = 6 \/ List.length toks = 7 -> parse toks = update_cmd toks KvModel.KCas true.
Proof.
  intros E L. unfold parse. rewrite E. change (store_kind_of (txt "cas")) with (@None KvModel.store_kind).
  lits. rewrite ?andb_false_r. destruct L as [-> | ->]; reflexivity.
Qed.
Lemma arith_len toks w incr : arith_word w incr -> word toks 0 = w ->
  List.length toks = 3 \/ List.length toks = 4 \/ List.length toks = 6 \/ List.length toks = 7 -> parse toks = arith_cmd toks incr.
Proof.
  intros W E L. unfold parse. rewrite E. destruct W.
  - change (store_kind_of (txt "incr")) with (@None KvModel.store_kind). lits. rewrite ?andb_false_r. destruct L as [->|[->|[->| ->]]]; reflexivity.
  - change (store_kind_of (txt "decr")) with (@None KvModel.store_kind). lits. rewrite ?andb_false_r. destruct L as [->|[->|[->| ->]]]; reflexivity.
Qed.
Lemma delete_len toks : word toks 0 = txt "delete" -> 2 <= List.length toks <= 4 -> parse toks = delete_cmd toks.
Proof.
  intros E L. unfold parse. rewrite E. change (store_kind_of (txt "delete")) with (@None KvModel.store_kind). lits. rewrite ?andb_false_r.
  assert (Q : List.length toks = 2 \/ List.length toks = 3 \/ List.length toks = 4) by lia. destruct Q as [->|[->| ->]]; reflexivity.
Qed.
Lemma flush_len toks : word toks 0 = txt "flush_all" -> 1 <= List.length toks <= 3 -> parse toks = flush_cmd toks true.
Proof.
  intros E L. unfold parse. rewrite E. change (store_kind_of (txt "flush_all")) with (@None KvModel.store_kind). lits. rewrite ?andb_false_r.
  assert (Q : List.length toks = 1 \/ List.length toks = 2 \/ List.length toks = 3) by lia. destruct Q as [->|[->| ->]]; reflexivity.
Qed.
Lemma prefix_cmd_len toks : word toks 0 = txt "flush_prefix" -> 2 <= List.length toks <= 4 -> parse toks = flush_cmd toks false.
Proof.
  intros E L. unfold parse. rewrite E. change (store_kind_of (txt "flush_prefix")) with (@None KvModel.store_kind). lits. rewrite ?andb_false_r.
  assert (Q : List.length toks = 2 \/ List.length toks = 3 \/ List.length toks = 4) by lia. destruct Q as [->|[->| ->]]; reflexivity.
Qed.
Lemma touch_len toks : word toks 0 = txt "touch" -> 3 <= List.length toks <= 4 -> parse toks = touch_cmd toks.
Proof.
  intros E L. unfold parse. rewrite E. change (store_kind_of (txt "touch")) with (@None KvModel.store_kind). lits. rewrite ?andb_false_r.
  assert (Q : List.length toks = 3 \/ List.length toks = 4) by lia. destruct Q as [->| ->]; reflexivity.
Qed.
Lemma get_len toks w cas : get_word w cas -> word toks 0 = w -> 2 <= List.length toks -> parse toks = get_cmd toks cas.
Proof.
  intros W E L. unfold parse. rewrite E. assert (Q : Nat.leb 3 (S (List.length toks)) = true) by (apply Nat.leb_le; lia). rewrite Q.
  destruct W; lits; reflexivity.
Qed.

Definition silly (toks : list bytes) : Prop := toks = [txt "flush_prefix"; txt "noreply"].
Lemma says_parsed toks r b : says toks r b -> ~ silly toks -> parse toks = Ask r b.
Proof.
  intros S NS. destruct S as [w cas k keys W K|w kind k f fl e ex n len q b W K F E N SZ Q|k f fl e ex n len c cn q b K F E N SZ C Q
    |w incr k d dn q b W K D Q|w incr k d dn f fl e ex i iv q b W K D F E I Q|k z q b K Z Q|k e ex q b K E Q|w d q b D Q|p po w d q b P D Q].
  - rewrite (get_len _ w cas W); [|reflexivity|cbn; lia]. unfold get_cmd. cbn [tl].
    assert (X : existsb too_long (k :: keys) = false).
    { clear - K. induction K as [|x l H K IH]; [reflexivity|]. cbn [existsb]. rewrite IH, (proj2 (long_ok x) H). reflexivity. }
    rewrite X. reflexivity.
  - rewrite (store_len _ w kind W); [|reflexivity|destruct Q; cbn; lia]. unfold update_cmd. cbn [word nth]. rewrite (proj2 (long_ok k) K).
    assert (X : noreply (w :: k :: f :: e :: n :: q) = b).
    { unfold noreply. destruct Q; cbn [last]; [apply noreply_word; eapply i32_word; eassumption|apply beqb_refl]. }
    rewrite X. nums. rewrite (sized len SZ). reflexivity.
  - rewrite (cas_len _); [|reflexivity|destruct Q; cbn; lia]. unfold update_cmd. cbn [word nth]. rewrite (proj2 (long_ok k) K).
    assert (X : noreply (txt "cas" :: k :: f :: e :: n :: c :: q) = b).
    { unfold noreply. destruct Q; cbn [last]; [apply noreply_word; eapply u64_word; eassumption|apply beqb_refl]. }
    rewrite X. nums. rewrite (sized len SZ). reflexivity.
  - rewrite (arith_len _ w incr W); [|reflexivity|destruct Q; cbn; lia]. unfold arith_cmd. cbn [word nth]. rewrite (proj2 (long_ok k) K).
    assert (X : noreply (w :: k :: d :: q) = b).
    { unfold noreply. destruct Q; cbn [last]; [apply noreply_word; eapply u64_word; eassumption|apply beqb_refl]. }
    rewrite X. nums. destruct Q; reflexivity.
  - rewrite (arith_len _ w incr W); [|reflexivity|destruct Q; cbn; lia]. unfold arith_cmd. cbn [word nth]. rewrite (proj2 (long_ok k) K).
    assert (X : noreply (w :: k :: d :: f :: e :: i :: q) = b).
    { unfold noreply. destruct Q; cbn [last]; [apply noreply_word; eapply u64_word; eassumption|apply beqb_refl]. }
    rewrite X. nums. destruct Q; reflexivity.
  - rewrite (delete_len _); [|reflexivity|destruct Z, Q; cbn; lia]. unfold delete_cmd. cbn [word nth]. rewrite (proj2 (long_ok k) K).
    destruct Z, Q; cbn [app word nth List.length]; unfold noreply; cbn [last]; lits; reflexivity.
  - rewrite (touch_len _); [|reflexivity|destruct Q; cbn; lia]. unfold touch_cmd. cbn [word nth]. rewrite (proj2 (long_ok k) K).
    assert (X : noreply (txt "touch" :: k :: e :: q) = b).
    { unfold noreply. destruct Q; cbn [last]; [apply noreply_word; eapply i64_word; eassumption|apply beqb_refl]. }
    rewrite X. nums. reflexivity.
  - rewrite (flush_len _); [|reflexivity|destruct D, Q; cbn; lia]. unfold flush_cmd. cbn [negb andb]. cbv zeta.
    destruct D as [|w d D DP], Q; cbn [app List.length word nth]; unfold noreply; cbn [last]; lits; try reflexivity.
    + rewrite (noreply_word w) by (eapply i64_word; eassumption). cbn [Nat.eqb]. nums. rewrite (proj2 (Z.ltb_ge _ _) DP). reflexivity.
    + cbn [Nat.eqb]. nums. rewrite (proj2 (Z.ltb_ge _ _) DP). reflexivity.
  - rewrite (prefix_cmd_len _); [|reflexivity|destruct D, Q; cbn; lia]. unfold flush_cmd. cbn [negb andb word nth]. cbv zeta.
    assert (L : N.ltb PREFIX_MAX (N.of_nat (List.length p)) = false) by (destruct P; [reflexivity|apply N.ltb_ge; assumption]). rewrite L.
    assert (X : (if beqb p (txt "<null>") then None else Some p) = po).
    { destruct P as [|p NP _]; [reflexivity|]. destruct (beqb_spec p (txt "<null>")); [contradiction|reflexivity]. }
    rewrite X. destruct D as [|w d D DP], Q; cbn [app List.length word nth]; unfold noreply; cbn [last].
    + assert (NP : p <> txt "noreply") by (intros ->; apply NS; reflexivity). rewrite (noreply_word p NP). reflexivity.
    + lits. reflexivity.
    + rewrite (noreply_word w) by (eapply i64_word; eassumption). cbn [Nat.eqb]. nums. rewrite (proj2 (Z.ltb_ge _ _) DP). reflexivity.
    + lits. cbn [Nat.eqb]. nums. rewrite (proj2 (Z.ltb_ge _ _) DP). reflexivity.
Qed.
Lemma prefix_parsed p po : prefix_arg p po -> N.ltb PREFIX_MAX (N.of_nat (List.length p)) = false /\ (if beqb p (txt "<null>") then None else Some p) = po.
Proof.
  intros [|q NP L]; [split; reflexivity|]. split; [apply N.ltb_ge; exact L|]. destruct (beqb_spec q (txt "<null>")); [contradiction|reflexivity].
Qed.
Lemma ignores_parsed toks r b : ignores toks r b -> parse toks = Ask r b.
Proof.
  intros [t r0 x S O X|a x X|p po a x P X|].
  - inversion S as [w cas k keys W K|w kind k f fl e ex n len q b0 W K F E N SZ Q|k f fl e ex n len c cn q b0 K F E N SZ C Q
    |w incr k d dn q b0 W K D Q|w incr k d dn f fl e ex i iv q b0 W K D F E I Q|k z q b0 K Z Q|k e ex q b0 K E Q|w d q b0 D Q|p po w d q b0 P D Q]; subst; try contradiction;
    inversion Q; subst; cbn [app].
    + rewrite (store_len _ w kind W); [|reflexivity|cbn; lia]. unfold update_cmd, noreply. cbn [word nth last]. rewrite (proj2 (long_ok k) K), (noreply_word x X). nums.
      rewrite (sized len SZ). reflexivity.
    + rewrite (cas_len _); [|reflexivity|cbn; lia]. unfold update_cmd, noreply. cbn [word nth last]. rewrite (proj2 (long_ok k) K), (noreply_word x X). nums.
      rewrite (sized len SZ). reflexivity.
    + rewrite (arith_len _ w incr W); [|reflexivity|cbn; lia]. unfold arith_cmd, noreply. cbn [word nth last]. rewrite (proj2 (long_ok k) K), (noreply_word x X). nums. reflexivity.
    + rewrite (arith_len _ w incr W); [|reflexivity|cbn; lia]. unfold arith_cmd, noreply. cbn [word nth last]. rewrite (proj2 (long_ok k) K), (noreply_word x X). nums. reflexivity.
    + rewrite (touch_len _); [|reflexivity|cbn; lia]. unfold touch_cmd, noreply. cbn [word nth last]. rewrite (proj2 (long_ok k) K), (noreply_word x X). nums. reflexivity.
  - rewrite (flush_len _); [|reflexivity|cbn; lia]. unfold flush_cmd, noreply. cbn [last List.length]. rewrite (noreply_word x X). reflexivity.
  - rewrite (prefix_cmd_len _); [|reflexivity|cbn; lia]. unfold flush_cmd, noreply. cbn [last List.length word nth]. rewrite (noreply_word x X).
    destruct (prefix_parsed p po P) as [-> ->]. reflexivity.
  - vm_compute. reflexivity.
Qed.

(* ---------- nothing else ---------- *)
Lemma ns w l : beqb w (txt "flush_prefix") = false -> ~ silly (w :: l).
Proof. intros H S. unfold silly in S. injection S as -> _. now rewrite beqb_refl in H. Qed.
Lemma ns_len l : List.length l <> 2 -> ~ silly l.
Proof. intros H ->. now apply H. Qed.
Lemma ask_inj r q r' q' : Ask r q = Ask r' q' -> r = r' /\ q = q'.
Proof. intro H. inversion H. now split. Qed.
Lemma quiet_last x : quiet_opt [x] (beqb x (txt "noreply")) \/ x <> txt "noreply".
Proof. destruct (beqb_spec x (txt "noreply")) as [->|]; [left; constructor|now right]. Qed.
Ltac dif H := match type of H with context[if ?c then _ else _] => let E := fresh "E" in destruct c eqn:E end; try discriminate H.
Lemma update_sound toks kind cas r q : update_cmd toks kind cas = Ask r q ->
  exists f e n, key_ok (word toks 1) /\ num_u32 (word toks 2) f /\ num_i64 (word toks 3) e /\ num_i32 (word toks 4) n /\ size_ok n /\ q = noreply toks /\
    if cas then exists c, num_u64 (word toks 5) c /\ r = RStore kind (word toks 1) f e n c else r = RStore kind (word toks 1) f e n 0.
Proof.
  unfold update_cmd. cbv zeta. intro H. dif H. apply long_ok in E.
  destruct (safe_strtoul _) as [f|] eqn:F; [|discriminate]. destruct (safe_strtoll _) as [e|] eqn:X; [|discriminate]. destruct (safe_strtol _) as [n|] eqn:Y; [|discriminate].
  dif H. apply orb_false_iff in E0. destruct E0 as [A B]. apply Z.ltb_ge in A, B.
  exists f, e, n. apply u32_ok in F. apply i64_ok in X. apply i32_ok in Y. destruct cas.
  - destruct (safe_strtoull _) as [c|] eqn:C; [|discriminate]. apply ask_inj in H; destruct H as [<- <-]. apply u64_ok in C. unfold size_ok. eauto 12.
  - apply ask_inj in H; destruct H as [<- <-]. unfold size_ok. eauto 12.
Qed.
Lemma parsed_says toks r q : parse toks = Ask r q -> (says toks r q /\ ~ silly toks) \/ ignores toks r q.
Proof.
  assert (LEN : forall n, List.length toks = n -> toks = map (word toks) (seq 0 n)).
  { intros n <-. clear. unfold word. induction toks as [|x t IH]; [reflexivity|]. cbn [List.length seq map nth]. f_equal. rewrite <- seq_shift, map_map. exact IH. }
  unfold parse. intro H.
  destruct (Nat.leb 3 (S (List.length toks)) && beqb (word toks 0) (txt "get"))%bool eqn:G1.
  { apply andb_prop in G1. destruct G1 as [L W]. apply Nat.leb_le in L. apply beqb_eq in W. unfold get_cmd in H. dif H. apply ask_inj in H; destruct H as [<- <-].
    destruct toks as [|w [|k keys]]; cbn in L; try lia. cbn [word nth] in W. subst w. left. split; [|apply ns; reflexivity].
    constructor; [constructor|]. cbn [tl] in E. clear - E. revert E. generalize (k :: keys). induction l as [|x l IH]; intro E; [constructor|].
    cbn [existsb] in E. apply orb_false_iff in E. destruct E. constructor; [now apply long_ok|auto]. }
  clear G1. destruct (Nat.leb 3 (S (List.length toks)) && beqb (word toks 0) (txt "gets"))%bool eqn:G1.
  { apply andb_prop in G1. destruct G1 as [L W]. apply Nat.leb_le in L. apply beqb_eq in W. unfold get_cmd in H. dif H. apply ask_inj in H; destruct H as [<- <-].
    destruct toks as [|w [|k keys]]; cbn in L; try lia. cbn [word nth] in W. subst w. left. split; [|apply ns; reflexivity].
    constructor; [constructor|]. cbn [tl] in E. clear - E. revert E. generalize (k :: keys). induction l as [|x l IH]; intro E; [constructor|].
    cbn [existsb] in E. apply orb_false_iff in E. destruct E. constructor; [now apply long_ok|auto]. }
  clear G1.
  destruct (if (_ || _)%bool then store_kind_of (word toks 0) else None) as [kind|] eqn:K.
  { match type of K with (if ?c then _ else _) = _ => destruct c eqn:L end; [|discriminate]. apply orb_prop in L.
    assert (W : store_word (word toks 0) kind).
    { clear - K. unfold store_kind_of in K. repeat match type of K with context[beqb ?a ?b] => destruct (beqb_spec a b) as [X|]; [rewrite X; injection K as <-; constructor|] end. discriminate. }
    apply update_sound in H. destruct H as (f & e & n & A & B & C & D & E & -> & ->). destruct L as [L|L]; apply Nat.eqb_eq in L; injection L as L; apply LEN in L; cbn [seq map] in L;
      set (w0 := word toks 0) in *; set (w1 := word toks 1) in *; set (w2 := word toks 2) in *; set (w3 := word toks 3) in *; set (w4 := word toks 4) in *; try set (w5 := word toks 5) in *; rewrite L;
      unfold noreply; cbn [last].
    - left. split; [|apply ns_len; cbn; lia]. rewrite (noreply_word w4) by (eapply i32_word; eassumption). econstructor; eauto. constructor.
    - destruct (beqb_spec w5 (txt "noreply")) as [->|N].
      + left. split; [|apply ns_len; cbn; lia]. econstructor; eauto. constructor.
      + right. apply (i_word [w0; w1; w2; w3; w4]); [econstructor; eauto; constructor|exact I|exact N]. }
  clear K.
  dif H.
  { apply andb_prop in E. destruct E as [L W]. apply beqb_eq in W. apply orb_prop in L.
    apply update_sound in H. destruct H as (f & e & n & A & B & C & D & E & -> & c & F & ->). destruct L as [L|L]; apply Nat.eqb_eq in L; injection L as L; apply LEN in L; cbn [seq map] in L; rewrite W in L;
      set (w1 := word toks 1) in *; set (w2 := word toks 2) in *; set (w3 := word toks 3) in *; set (w4 := word toks 4) in *; set (w5 := word toks 5) in *; try set (w6 := word toks 6) in *; rewrite L;
      unfold noreply; cbn [last].
    - left. split; [|apply ns_len; cbn; lia]. rewrite (noreply_word w5) by (eapply u64_word; eassumption). econstructor; eauto. constructor.
    - destruct (beqb_spec w6 (txt "noreply")) as [->|N].
      + left. split; [|apply ns_len; cbn; lia]. econstructor; eauto. constructor.
      + right. apply (i_word [txt "cas"; w1; w2; w3; w4; w5]); [econstructor; eauto; constructor|exact I|exact N]. }
  clear E.
  assert (AR : forall incr w, arith_word w incr -> word toks 0 = w ->
     (Nat.eqb (S (List.length toks)) 4 || Nat.eqb (S (List.length toks)) 5 || Nat.eqb (S (List.length toks)) 7 || Nat.eqb (S (List.length toks)) 8)%bool = true ->
     arith_cmd toks incr = Ask r q -> (says toks r q /\ ~ silly toks) \/ ignores toks r q).
  { clear H. intros incr w W E0 L H. unfold arith_cmd in H. cbv zeta in H. dif H. apply long_ok in E.
    destruct (safe_strtoull (word toks 2)) as [d|] eqn:D; [|discriminate]. apply u64_ok in D.
    assert (Q : List.length toks = 3 \/ List.length toks = 4 \/ List.length toks = 6 \/ List.length toks = 7).
    { rewrite !orb_true_iff, !Nat.eqb_eq in L. lia. }
    assert (NS : ~ silly toks) by (intros ->; cbn in Q; lia).
    destruct Q as [L1|[L1|[L1|L1]]]; rewrite L1 in H; cbn [Nat.leb] in H; pose proof (LEN _ L1) as T; cbn [seq map] in T; rewrite E0 in T; clear LEN L L1 E0;
      set (w1 := word toks 1) in *; set (w2 := word toks 2) in *; try set (w3 := word toks 3) in *; try set (w4 := word toks 4) in *; try set (w5 := word toks 5) in *; try set (w6 := word toks 6) in *;
      clearbody w1 w2; try clearbody w3; try clearbody w4; try clearbody w5; try clearbody w6; subst toks; unfold noreply in H; cbn [last] in H.
    - apply ask_inj in H; destruct H as [<- <-]. left. split; [|exact NS]. rewrite (noreply_word w2) by (eapply u64_word; eassumption). econstructor; eauto. constructor.
    - apply ask_inj in H; destruct H as [<- <-]. destruct (beqb_spec w3 (txt "noreply")) as [->|N].
      + left. split; [|exact NS]. econstructor; eauto. constructor.
      + right. apply (i_word [w; w1; w2]); [econstructor; eauto; constructor|exact I|exact N].
    - destruct (safe_strtoul w3) as [f|] eqn:F; [|discriminate]. destruct (safe_strtoll w4) as [e|] eqn:X; [|discriminate]. destruct (safe_strtoull w5) as [i|] eqn:Y; [|discriminate].
      apply u32_ok in F. apply i64_ok in X. apply u64_ok in Y. apply ask_inj in H; destruct H as [<- <-]. left. split; [|exact NS].
      rewrite (noreply_word w5) by (eapply u64_word; eassumption). econstructor; eauto. constructor.
    - destruct (safe_strtoul w3) as [f|] eqn:F; [|discriminate]. destruct (safe_strtoll w4) as [e|] eqn:X; [|discriminate]. destruct (safe_strtoull w5) as [i|] eqn:Y; [|discriminate].
      apply u32_ok in F. apply i64_ok in X. apply u64_ok in Y. apply ask_inj in H; destruct H as [<- <-].
      destruct (beqb_spec w6 (txt "noreply")) as [->|N].
      + left. split; [|exact NS]. econstructor; eauto. constructor.
      + right. apply (i_word [w; w1; w2; w3; w4; w5]); [econstructor; eauto; constructor|exact I|exact N]. }
  dif H.
  { apply andb_prop in E. destruct E as [L W]. apply beqb_eq in W. apply (AR _ _ w_incr W L H). }
  dif H.
  { apply andb_prop in E0. destruct E0 as [L W]. apply beqb_eq in W. apply (AR _ _ w_decr W L H). }
  clear AR E E0. dif H.
  { apply andb_prop in E. destruct E as [L W]. apply beqb_eq in W. apply andb_prop in L. destruct L as [L1 L2]. apply Nat.leb_le in L1, L2.
    destruct toks as [|w [|k [|z [|y [|? ?]]]]]; cbn [List.length] in L1, L2; try lia; cbn [word nth] in W; subst w; left; (split; [|apply ns; reflexivity]);
    unfold delete_cmd in H; cbn [word nth List.length Nat.ltb Nat.leb Nat.eqb andb orb] in H; unfold noreply in H; cbn [last] in H.
    - repeat (dif H). apply ask_inj in H; destruct H as [<- <-]. apply (s_delete k [] []); [apply long_ok; assumption|constructor|constructor].
    - destruct (beqb_spec z (txt "0")) as [->|NZ].
      + change (beqb (txt "0") (txt "noreply")) with false in H. cbn [negb andb] in H. repeat (dif H). apply ask_inj in H; destruct H as [<- <-]. apply (s_delete k [txt "0"] []); [apply long_ok; assumption|constructor|constructor].
      + destruct (beqb_spec z (txt "noreply")) as [->|NR]; cbn [negb andb] in H; [|discriminate]. repeat (dif H). apply ask_inj in H; destruct H as [<- <-].
        apply (s_delete k [] [txt "noreply"]); [apply long_ok; assumption|constructor|constructor].
    - destruct (beqb_spec z (txt "0")) as [->|NZ]; cbn [negb andb orb] in H; [|discriminate].
      destruct (beqb_spec y (txt "noreply")) as [->|NR]; cbn [negb andb] in H; [|discriminate]. repeat (dif H). apply ask_inj in H; destruct H as [<- <-].
      apply (s_delete k [txt "0"] [txt "noreply"]); [apply long_ok; assumption|constructor|constructor]. }
  clear E. dif H.
  { apply andb_prop in E. destruct E as [L W]. apply beqb_eq in W. apply andb_prop in L. destruct L as [L1 L2]. apply Nat.leb_le in L1, L2.
    destruct toks as [|w [|z [|y [|? ?]]]]; cbn [List.length] in L1, L2; try lia; cbn [word nth] in W; subst w;
    unfold flush_cmd in H; cbn [word nth List.length Nat.ltb Nat.leb andb orb negb] in H; unfold noreply in H; cbn [last] in H; cbv zeta in H.
    - change (beqb (txt "flush_all") (txt "noreply")) with false in H. cbn [Nat.eqb] in H. apply ask_inj in H; destruct H as [<- <-]. left. split; [|apply ns; reflexivity]. apply (s_flush [] 0 []); constructor.
    - left. split; [|apply ns; reflexivity]. destruct (beqb_spec z (txt "noreply")) as [->|NR]; cbn [Nat.eqb] in H.
      + apply ask_inj in H; destruct H as [<- <-]. apply (s_flush [] 0 [txt "noreply"]); constructor.
      + destruct (safe_strtoll z) as [d|] eqn:D; [|discriminate]. dif H. apply ask_inj in H; destruct H as [<- <-]. apply Z.ltb_ge in E. apply i64_ok in D.
        apply (s_flush [z] d []); constructor; assumption.
    - destruct (beqb_spec y (txt "noreply")) as [->|NR]; cbn [Nat.eqb] in H.
      + destruct (safe_strtoll z) as [d|] eqn:D; [|discriminate]. dif H. apply ask_inj in H; destruct H as [<- <-]. apply Z.ltb_ge in E. apply i64_ok in D.
        left. split; [|apply ns; reflexivity]. apply (s_flush [z] d [txt "noreply"]); constructor; assumption.
      + apply ask_inj in H; destruct H as [<- <-]. right. constructor. exact NR. }
  clear E. dif H.
  { apply andb_prop in E. destruct E as [L W]. apply beqb_eq in W. apply andb_prop in L. destruct L as [L1 L2]. apply Nat.leb_le in L1, L2.
    unfold flush_cmd in H. cbn [negb andb] in H. dif H. apply N.ltb_ge in E. unfold PREFIX_MAX in E. cbv zeta in H.
    assert (P : prefix_arg (word toks 1) (if beqb (word toks 1) (txt "<null>") then None else Some (word toks 1))).
    { destruct (beqb_spec (word toks 1) (txt "<null>")) as [->|N]; constructor; assumption. }
    set (po := if beqb (word toks 1) (txt "<null>") then None else Some (word toks 1)) in *.
    destruct toks as [|w [|p [|z [|y [|? ?]]]]]; cbn [List.length] in L1, L2; try lia; cbn [word nth] in W; subst w;
    cbn [word nth List.length] in H, P, po; unfold noreply in H; cbn [last] in H.
    - destruct (beqb_spec p (txt "noreply")) as [X|NR]; cbn [Nat.eqb] in H.
      + apply ask_inj in H; destruct H as [<- <-]. right. subst po. rewrite X. constructor.
      + apply ask_inj in H; destruct H as [<- <-]. left. split; [|unfold silly; intro S; injection S as S; contradiction]. apply (s_prefix p po [] 0 []); [exact P|constructor|constructor].
    - left. split; [|apply ns_len; cbn; lia]. destruct (beqb_spec z (txt "noreply")) as [->|NR]; cbn [Nat.eqb] in H.
      + apply ask_inj in H; destruct H as [<- <-]. apply (s_prefix p po [] 0 [txt "noreply"]); [exact P|constructor|constructor].
      + destruct (safe_strtoll z) as [d|] eqn:D; [|discriminate]. dif H. apply ask_inj in H; destruct H as [<- <-]. apply Z.ltb_ge in E0. apply i64_ok in D.
        apply (s_prefix p po [z] d []); [exact P| |]; constructor; assumption.
    - destruct (beqb_spec y (txt "noreply")) as [->|NR]; cbn [Nat.eqb] in H.
      + destruct (safe_strtoll z) as [d|] eqn:D; [|discriminate]. dif H. apply ask_inj in H; destruct H as [<- <-]. apply Z.ltb_ge in E0. apply i64_ok in D.
        left. split; [|apply ns_len; cbn; lia]. apply (s_prefix p po [z] d [txt "noreply"]); [exact P| |]; constructor; assumption.
      + apply ask_inj in H; destruct H as [<- <-]. right. constructor; assumption. }
  clear E. dif H.
  apply andb_prop in E. destruct E as [L W]. apply beqb_eq in W. apply andb_prop in L. destruct L as [L1 L2]. apply Nat.leb_le in L1, L2.
  unfold touch_cmd in H. dif H. apply long_ok in E. cbv zeta in H. destruct (safe_strtoll (word toks 2)) as [e|] eqn:X; [|discriminate]. apply i64_ok in X. apply ask_inj in H; destruct H as [<- <-].
  destruct toks as [|w [|k [|z [|y [|? ?]]]]]; cbn [List.length] in L1, L2; try lia; cbn [word nth] in W, E, X |- *; subst w; unfold noreply; cbn [last].
  - left. split; [|apply ns_len; cbn; lia]. rewrite (noreply_word z) by (eapply i64_word; eassumption). apply (s_touch k z e []); [assumption|assumption|constructor].
  - destruct (beqb_spec y (txt "noreply")) as [->|N].
    + left. split; [|apply ns_len; cbn; lia]. apply (s_touch k z e [txt "noreply"]); [assumption|assumption|constructor].
    + right. apply (i_word [txt "touch"; k; z]); [apply (s_touch k z e []); [assumption|assumption|constructor]|exact I|exact N].
Qed.

Lemma says_one toks r b r' b' : says toks r b -> says toks r' b' -> r = r' /\ b = b'.
Proof.
  intros A B. assert (D : silly toks \/ ~ silly toks).
  { unfold silly. destruct (list_eq_dec (list_eq_dec N.eq_dec) toks [txt "flush_prefix"; txt "noreply"]); auto. }
  destruct D as [D|D].
  - unfold silly in D. subst toks.
    assert (U : forall x y, says [txt "flush_prefix"; txt "noreply"] x y -> x = RFlushPrefix (Some (txt "noreply")) 0 /\ y = false).
    { clear. intros x y S. inversion S as [w cas k keys W K| | |w incr k d dn q b W K D Q| |k z q b K Z Q|k e ex q b K E Q|w d q b D Q|p po w d q b P D Q]; subst; try discriminate.
      - inversion W.
      - inversion D; subst; [|discriminate]. inversion Q; subst; [|discriminate]. inversion P; subst. now split. }
    destruct (U _ _ A) as [-> ->], (U _ _ B) as [-> ->]. now split.
  - pose proof (says_parsed _ _ _ A D) as P. rewrite (says_parsed _ _ _ B D) in P. injection P as -> ->. now split.
Qed.
