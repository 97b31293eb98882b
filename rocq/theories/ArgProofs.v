(* Proofs about ArgModel.v: the single arguments. *)
From Coq Require Import String Ascii.
From Verif Require Import Base UtilModel UtilSpec UtilProofs ArgTypes ArgModel ArgSpec.
From Coq Require Import List ZArith NArith Lia.
Local Open Scope nat_scope.
Local Open Scope list_scope.

(* ---- numbers ---- *)
Lemma u64_ok s v : safe_strtoull s = Some v <-> num_u64 s v.
Proof. rewrite safe_strtoull_char. unfold num_u64, no_number. tauto. Qed.
Lemma u32_ok s v : safe_strtoul s = Some v <-> num_u32 s v.
Proof. rewrite safe_strtoul_char. unfold num_u32, no_number. tauto. Qed.
Lemma i64_ok s v : safe_strtoll s = Some v <-> num_i64 s v.
Proof. rewrite safe_strtoll_char. unfold num_i64, no_number. tauto. Qed.
Lemma i32_ok s v : safe_strtol s = Some v <-> num_i32 s v.
Proof. rewrite safe_strtol_char. unfold num_i32, no_number. tauto. Qed.

(* ---- hexadecimal ---- *)
Lemma is0x_iff s : is0x s = true <-> exists t, s = 48%N :: 120%N :: t.
Proof.
  destruct s as [|a [|b t]]; cbn.
  - split; [discriminate|]. intros [t E]; discriminate.
  - split; [discriminate|]. intros [t E]; discriminate.
  - rewrite Bool.andb_true_iff, !N.eqb_eq. split.
    + intros [-> ->]. now exists t.
    + intros [u E]. injection E as -> -> _. auto.
Qed.
Lemma hex31 t b : safe_strtohexa t 31 = Some b <-> t <> [] /\ hex_text t b /\ List.length b <= 31.
Proof.
  rewrite strtohexa_char. split.
  - intros (A & B & C). repeat split; auto. lia.
  - intros (A & B & C). repeat split; auto. lia.
Qed.
Lemma eflag_ok s b : get_eflag_from_str s = Some b <-> hex_arg s b.
Proof.
  unfold get_eflag_from_str, hex_arg. destruct (is0x s) eqn:E.
  - apply is0x_iff in E as [t ->]. cbn [drop2 skipn]. unfold MAX_EFLAG_LENG. rewrite hex31. split.
    + intros (A & B & C). exists t. auto.
    + intros (u & E & A). injection E as <-. auto.
  - split; [discriminate|]. intros (t & -> & _). cbn in E. discriminate.
Qed.
Lemma u64_not0x s v : num_u64 s v -> is0x s = false.
Proof.
  intros H. apply u64_ok in H. destruct (is0x s) eqn:E; [|reflexivity].
  apply is0x_iff in E as [t ->]. cbn in H. discriminate.
Qed.
Lemma u32_not0x s v : num_u32 s v -> is0x s = false.
Proof.
  intros H. apply u32_ok in H. destruct (is0x s) eqn:E; [|reflexivity].
  apply is0x_iff in E as [t ->]. cbn in H. discriminate.
Qed.
Lemma i32_not0x s v : num_i32 s v -> is0x s = false.
Proof.
  intros H. apply i32_ok in H. destruct (is0x s) eqn:E; [|reflexivity].
  apply is0x_iff in E as [t ->]. cbn in H. discriminate.
Qed.
Lemma hex_is0x s b : hex_arg s b -> is0x s = true.
Proof. intros (t & -> & _). reflexivity. Qed.
Lemma hex_fun s b b' : hex_arg s b -> hex_arg s b' -> b = b'.
Proof. intros A B. apply eflag_ok in A. apply eflag_ok in B. congruence. Qed.
Lemma hex_len s b : hex_arg s b -> List.length b <= 31.
Proof. now intros (t & _ & _ & _ & L). Qed.
Lemma hex_pos s b : hex_arg s b -> 1 <= List.length b.
Proof. intros (t & _ & T & H & _). destruct H; [easy|cbn; lia]. Qed.
Lemma hex_text_len t b : hex_text t b -> List.length t = 2 * List.length b.
Proof. induction 1; cbn; lia. Qed.
Lemma hex_chars s b : hex_arg s b -> List.length s = 2 + 2 * List.length b.
Proof. intros (t & -> & _ & H & _). cbn. rewrite (hex_text_len _ _ H). lia. Qed.

Lemma bkey_ok s k : get_bkey_from_str s = Some k <-> bkey_arg s k.
Proof.
  unfold get_bkey_from_str. split.
  - destruct (is0x s) eqn:E.
    + destruct (safe_strtohexa (drop2 s) MAX_BKEY_LENG) eqn:H; [|discriminate].
      intros J; injection J as <-. constructor. apply eflag_ok. unfold get_eflag_from_str.
      rewrite E. exact H.
    + destruct (safe_strtoull s) eqn:H; [|discriminate]. intros J; injection J as <-.
      constructor. now apply u64_ok.
  - intros H; destruct H as [s b H|s n H].
    + rewrite (hex_is0x _ _ H). apply eflag_ok in H as J. unfold get_eflag_from_str in J.
      rewrite (hex_is0x _ _ H) in J. change MAX_BKEY_LENG with MAX_EFLAG_LENG. now rewrite J.
    + rewrite (u64_not0x _ _ H). apply u64_ok in H. now rewrite H.
Qed.

(* ---- ".." ---- *)
Lemma cut_dots_step c s : cut_dots (c :: s) =
  match s with
  | d :: s'' =>
      if N.eqb c 46 && N.eqb d 46 then Some ([], s'')
      else match cut_dots s with Some (a, b) => Some (c :: a, b) | None => None end
  | [] => None
  end.
Proof. destruct s; reflexivity. Qed.
Lemma cut_none s : cut_dots s = None <-> no_dots s.
Proof.
  unfold no_dots. induction s as [|c s IH].
  - split; [|reflexivity]. intros _ [|? ?] y; discriminate.
  - rewrite cut_dots_step. destruct s as [|d s''].
    + split; [|reflexivity]. intros _ x y E.
      destruct x as [|? [|? ?]]; cbn in E; discriminate.
    + destruct (N.eqb c 46 && N.eqb d 46) eqn:B.
      * split; [discriminate|]. intros H. apply andb_prop in B as [B1 B2].
        apply N.eqb_eq in B1, B2. subst. exfalso. exact (H [] s'' eq_refl).
      * split.
        -- intros E x y X. destruct x as [|c' x].
           ++ cbn in X. injection X as -> -> _. cbn in B. discriminate.
           ++ injection X as _ X. destruct (cut_dots (d :: s'')) as [[? ?]|]; [discriminate|].
              exact (proj1 IH eq_refl x y X).
        -- intros H. destruct (cut_dots (d :: s'')) as [[u v]|] eqn:C; [|reflexivity].
           exfalso. assert (N : @None (bytes * bytes) = None) by reflexivity.
           assert (Z : Some (u, v) = None); [|discriminate].
           apply IH. intros x y X. apply (H (c :: x) y). cbn. now rewrite X.
Qed.
Lemma cut_some s a b : cut_dots s = Some (a, b) -> first_dots s a b.
Proof.
  revert a b. induction s as [|c s IH]; intros a b E; [discriminate|].
  rewrite cut_dots_step in E. destruct s as [|d s'']; [discriminate|].
  destruct (N.eqb c 46 && N.eqb d 46) eqn:B.
  - injection E as <- <-. apply andb_prop in B as [B1 B2]. apply N.eqb_eq in B1, B2. subst.
    split; [reflexivity|]. intros. cbn. lia.
  - destruct (cut_dots (d :: s'')) as [[u v]|] eqn:C; [|discriminate]. injection E as <- <-.
    destruct (IH _ _ eq_refl) as [J K]. split; [cbn; now rewrite J|].
    intros x y X. destruct x as [|c' x].
    + exfalso. cbn in X. injection X as -> -> _. cbn in B. discriminate.
    + injection X as _ X. apply K in X. cbn. lia.
Qed.
Lemma first_dots_fun s a b a' b' : first_dots s a b -> first_dots s a' b' -> a = a' /\ b = b'.
Proof.
  intros [E M] [E' M'].
  assert (L : List.length a = List.length a').
  { pose proof (M _ _ E'). pose proof (M' _ _ E). lia. }
  assert (J : a ++ 46%N :: 46%N :: b = a' ++ 46%N :: 46%N :: b') by congruence.
  clear - J L. revert a' J L. induction a as [|c a IH]; intros [|c' a'] J L; cbn in L; try lia.
  - cbn in J. injection J as ->. auto.
  - cbn in J. injection J as -> J. destruct (IH _ J) as [-> ->]; [lia|]. auto.
Qed.
Lemma first_cut s a b : first_dots s a b -> cut_dots s = Some (a, b).
Proof.
  intros H. destruct (cut_dots s) as [[u v]|] eqn:E.
  - apply cut_some in E. destruct (first_dots_fun _ _ _ _ _ H E) as [-> ->]. reflexivity.
  - apply cut_none in E. destruct H as [J _]. exfalso. exact (E _ _ J).
Qed.

Lemma range_ok s r : get_bkey_range_from_str s = Some r <-> range_arg s r.
Proof.
  unfold get_bkey_range_from_str. split.
  - destruct (cut_dots s) as [[x y]|] eqn:C.
    + apply cut_some in C. destruct (is0x x && is0x y) eqn:B.
      * apply andb_prop in B as [B1 B2].
        destruct (safe_strtohexa (drop2 x) MAX_BKEY_LENG) eqn:E1; [|discriminate].
        destruct (safe_strtohexa (drop2 y) MAX_BKEY_LENG) eqn:E2; [|discriminate].
        intros J; injection J as <-. apply (ra_hex s x y); auto; apply eflag_ok;
          unfold get_eflag_from_str; [rewrite B1|rewrite B2]; assumption.
      * destruct (safe_strtoull x) eqn:E1; [|discriminate].
        destruct (safe_strtoull y) eqn:E2; [|discriminate].
        intros J; injection J as <-. apply (ra_int s x y); auto; now apply u64_ok.
    + apply cut_none in C. intros H.
      assert (K : exists k, r = Single k /\ get_bkey_from_str s = Some k).
      { unfold get_bkey_from_str. destruct (is0x s).
        - destruct (safe_strtohexa (drop2 s) MAX_BKEY_LENG); [|discriminate].
          injection H as <-. eauto.
        - destruct (safe_strtoull s); [|discriminate]. injection H as <-. eauto. }
      destruct K as (k & -> & K). apply ra_one; auto. now apply bkey_ok.
  - intros H; destruct H as [s x y a b C X Y|s x y a b C X Y|s k C K].
    + rewrite (first_cut _ _ _ C), (hex_is0x _ _ X), (hex_is0x _ _ Y). cbn [andb].
      apply eflag_ok in X as X'. apply eflag_ok in Y as Y'. unfold get_eflag_from_str in X', Y'.
      rewrite (hex_is0x _ _ X) in X'. rewrite (hex_is0x _ _ Y) in Y'.
      change MAX_BKEY_LENG with MAX_EFLAG_LENG. now rewrite X', Y'.
    + rewrite (first_cut _ _ _ C), (u64_not0x _ _ X). cbn [andb].
      apply u64_ok in X, Y. now rewrite X, Y.
    + apply cut_none in C. rewrite C. apply bkey_ok in K. unfold get_bkey_from_str in K.
      destruct (is0x s).
      * destruct (safe_strtohexa (drop2 s) MAX_BKEY_LENG); [|discriminate]. now injection K as <-.
      * destruct (safe_strtoull s); [|discriminate]. now injection K as <-.
Qed.
Lemma pos_ok s p : get_position_range_from_str s = Some p <-> pos_arg s p.
Proof.
  unfold get_position_range_from_str. split.
  - destruct (cut_dots s) as [[x y]|] eqn:C.
    + apply cut_some in C. destruct (safe_strtoul x) eqn:E1; [|discriminate].
      destruct (safe_strtoul y) eqn:E2; [|discriminate].
      intros J; injection J as <-. apply (pa_two s x y); auto; now apply u32_ok.
    + apply cut_none in C. destruct (safe_strtoul s) eqn:E; [|discriminate].
      intros J; injection J as <-. apply pa_one; auto. now apply u32_ok.
  - intros H; destruct H as [s x y a b C X Y|s a C X].
    + rewrite (first_cut _ _ _ C). apply u32_ok in X, Y. now rewrite X, Y.
    + apply cut_none in C. rewrite C. apply u32_ok in X. now rewrite X.
Qed.
Lemma index_ok s p : get_list_range_from_str s = Some p <-> index_arg s p.
Proof.
  unfold get_list_range_from_str. split.
  - destruct (cut_dots s) as [[x y]|] eqn:C.
    + apply cut_some in C. destruct (safe_strtol x) eqn:E1; [|discriminate].
      destruct (safe_strtol y) eqn:E2; [|discriminate].
      intros J; injection J as <-. apply (ia_two s x y); auto; now apply i32_ok.
    + apply cut_none in C. destruct (safe_strtol s) eqn:E; [|discriminate].
      intros J; injection J as <-. apply ia_one; auto. now apply i32_ok.
  - intros H; destruct H as [s x y a b C X Y|s a C X].
    + rewrite (first_cut _ _ _ C). apply i32_ok in X, Y. now rewrite X, Y.
    + apply cut_none in C. rewrite C. apply i32_ok in X. now rewrite X.
Qed.

(* ---- operations ---- *)
Lemma cmp_ok s c : get_compare_op_from_str s = c /\ c <> 6%N <-> cmp_arg s c.
Proof.
  split.
  - intros [H NE]. destruct s as [|a [|b [|? ?]]]; cbn in H; try congruence.
    repeat match type of H with
    | (if ?x then _ else _) = _ => destruct x eqn:?
    end; try congruence; subst c;
    repeat match goal with
    | E : (_ && _)%bool = true |- _ => apply andb_prop in E as [? ?]
    | E : N.eqb _ _ = true |- _ => apply N.eqb_eq in E
    end; subst; constructor.
  - intros H; destruct H; split; (reflexivity || discriminate).
Qed.
Lemma cmp_code s : get_compare_op_from_str s <> 6%N -> (get_compare_op_from_str s < 6)%N.
Proof.
  intros H. assert (C : cmp_arg s (get_compare_op_from_str s)) by (apply cmp_ok; auto).
  destruct C; cbn; lia.
Qed.
Lemma bitw_ok s c : get_bitwise_op_from_str s = c /\ c <> 3%N <-> bitw_arg s c.
Proof.
  split.
  - intros [H NE]. destruct s as [|a [|? ?]]; cbn in H; try congruence.
    repeat match type of H with
    | (if ?x then _ else _) = _ => destruct x eqn:?
    end; try congruence; subst c;
    repeat match goal with
    | E : N.eqb _ _ = true |- _ => apply N.eqb_eq in E
    end; subst; constructor.
  - intros H; destruct H; split; (reflexivity || discriminate).
Qed.

(* ---- lists of values ---- *)
Lemma pieces_from_word cur s : ~ In 44%N s ->
  pieces_from cur s = match rev cur ++ s with [] => [] | p => [p] end.
Proof.
  revert cur. induction s as [|c s IH]; intros cur H; cbn.
  - rewrite app_nil_r. destruct cur as [|x cur]; [reflexivity|].
    destruct (rev (x :: cur)) eqn:E; [|reflexivity].
    apply (f_equal (@List.length _)) in E. rewrite rev_length in E. discriminate.
  - destruct (N.eqb c 44) eqn:E.
    + exfalso. apply H. left. now apply N.eqb_eq in E.
    + rewrite IH; [|firstorder]. cbn. now rewrite <- app_assoc.
Qed.
Lemma pieces_from_cut cur s t : ~ In 44%N s ->
  pieces_from cur (s ++ 44%N :: t) =
  match rev cur ++ s with [] => pieces_from [] t | p => p :: pieces_from [] t end.
Proof.
  revert cur. induction s as [|c s IH]; intros cur H; cbn.
  - rewrite app_nil_r. destruct cur as [|x cur]; [reflexivity|].
    destruct (rev (x :: cur)) eqn:E; [|reflexivity].
    apply (f_equal (@List.length _)) in E. rewrite rev_length in E. discriminate.
  - destruct (N.eqb c 44) eqn:E.
    + exfalso. apply H. left. now apply N.eqb_eq in E.
    + rewrite IH; [|firstorder]. cbn. now rewrite <- app_assoc.
Qed.
Lemma commas_pieces s ps : commas s ps -> pieces s = ps.
Proof.
  unfold pieces. induction 1 as [|s l H IH|p A B|p s l A B H IH].
  - reflexivity.
  - cbn. exact IH.
  - rewrite pieces_from_word by assumption. cbn. now destruct p.
  - rewrite pieces_from_cut by assumption. cbn. rewrite IH. now destruct p.
Qed.
Lemma split44 s : (~ In 44%N s) \/ exists p t, s = p ++ 44%N :: t /\ ~ In 44%N p.
Proof.
  induction s as [|c s IH]; [left; auto|].
  destruct (N.eq_dec c 44) as [->|E].
  - right. exists [], s. auto.
  - destruct IH as [H|(p & t & -> & H)].
    + left. cbn. intros [J|J]; [congruence|auto].
    + right. exists (c :: p), t. split; [reflexivity|]. cbn. intros [J|J]; [congruence|auto].
Qed.
Lemma pieces_commas s : commas s (pieces s).
Proof.
  remember (List.length s) as n eqn:E. revert s E.
  induction n as [n IH] using lt_wf_ind. intros s ->.
  destruct (split44 s) as [H|(p & t & -> & H)].
  - unfold pieces. rewrite pieces_from_word by assumption. cbn.
    destruct s; [constructor|]. constructor; [discriminate|assumption].
  - unfold pieces. rewrite pieces_from_cut by assumption. cbn [rev app].
    assert (K : commas t (pieces_from [] t)).
    { apply (IH (List.length t)); [rewrite app_length; cbn; lia|reflexivity]. }
    destruct p as [|c p].
    + cbn. now constructor.
    + apply cm_piece; [discriminate|assumption|exact K].
Qed.
Lemma pieces_ok s ps : pieces s = ps <-> commas s ps.
Proof. split; [intros <-; apply pieces_commas|apply commas_pieces]. Qed.
