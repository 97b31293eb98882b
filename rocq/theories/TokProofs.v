(* Proofs about the command line tokenizer. *)
From Verif Require Import Base TokModel TokSpec.
Open Scope nat_scope.

Lemma fields_cons d s : exists w l, fields d s = w :: l.
Proof.
  destruct s as [|x r]; cbn [fields]; [eauto|].
  destruct (N.eqb x d); [eauto|]. destruct (fields d r); eauto.
Qed.

Lemma fields_app d a b :
  exists l o h t, fields d a = l ++ [o] /\ fields d b = h :: t /\
                  fields d (a ++ b) = l ++ (o ++ h) :: t.
Proof.
  destruct (fields_cons d b) as (h & t & Eb).
  induction a as [|x a IH].
  - exists [], [], h, t. cbn. auto.
  - destruct IH as (l & o & h' & t' & Ea & Eb' & Eab).
    rewrite Eb in Eb'. injection Eb' as <- <-. cbn [fields app].
    destruct (N.eqb x d).
    + exists ([] :: l), o, h, t. rewrite Ea, Eab. auto.
    + rewrite Ea, Eab. destruct l as [|w l]; cbn [app].
      * exists [], (x :: o), h, t. auto.
      * exists ((x :: w) :: l), o, h, t. auto.
Qed.

(* cut after a delimiter *)
Lemma fields_cut d a b : fields d (a ++ d :: b) = fields d a ++ fields d b.
Proof.
  induction a as [|x a IH]; cbn [app fields].
  - rewrite N.eqb_refl. reflexivity.
  - destruct (N.eqb x d); [rewrite IH; reflexivity|].
    rewrite IH. destruct (fields_cons d a) as (w & l & ->). reflexivity.
Qed.

Lemma fields_nod d w : ~ In d w -> fields d w = [w].
Proof.
  induction w as [|x w IH]; cbn [fields]; [reflexivity|]. intros H.
  destruct (N.eqb_spec x d) as [->|]; [exfalso; apply H; left; reflexivity|].
  rewrite IH; [reflexivity|]. intro; apply H; right; assumption.
Qed.

Lemma words_nil : words [] = [].
Proof. reflexivity. Qed.

Lemma words_sp r : words (SP :: r) = words r.
Proof. reflexivity. Qed.

Lemma words_app a b : words (a ++ SP :: b) = words a ++ words b.
Proof. unfold words. rewrite (fields_cut 32%N), filter_app. reflexivity. Qed.

Lemma words_one w : w <> [] -> ~ In SP w -> words w = [w].
Proof.
  intros Hn Hi. unfold words. rewrite fields_nod by exact Hi.
  destruct w; [congruence|reflexivity].
Qed.

(* ------------------------------------------------------------------ memchr, wr *)
Lemma memchr_from_some w r s n :
  ~ In SP w -> length w < n -> memchr_from (w ++ SP :: r) s n SP = Some (s + length w).
Proof.
  revert s n. induction w as [|x w IH]; intros s n Hi Hn; destruct n as [|n]; cbn [length] in *; try lia.
  - cbn [app memchr_from]. rewrite N.eqb_refl. f_equal. lia.
  - cbn [app memchr_from]. destruct (N.eqb_spec x SP) as [E|E]; [exfalso; apply Hi; left; exact E|].
    rewrite IH; [f_equal; lia| |lia]. intro; apply Hi; right; assumption.
Qed.

Lemma memchr_from_none l r s n : ~ In SP l -> n = length l -> memchr_from (l ++ r) s n SP = None.
Proof.
  intros Hi ->. revert s. induction l as [|x l IH]; intros s; cbn [length app memchr_from].
  - destruct r; reflexivity.
  - destruct (N.eqb_spec x SP) as [E|E]; [exfalso; apply Hi; left; exact E|].
    apply IH. intro; apply Hi; right; assumption.
Qed.

Lemma skipn_pre {A} (p l : list A) : skipn (length p) (p ++ l) = l.
Proof. induction p; cbn; auto. Qed.

Lemma firstn_pre {A} (p l : list A) : firstn (length p) (p ++ l) = p.
Proof. induction p; cbn; [destruct l; auto|]. f_equal. assumption. Qed.

Lemma wr_mid p x y r : wr (p ++ x :: r) (length p) y = p ++ y :: r.
Proof.
  unfold wr. rewrite firstn_pre. f_equal. f_equal.
  replace (S (length p)) with (length (p ++ [x])) by (rewrite app_length; cbn; lia).
  replace (p ++ x :: r) with ((p ++ [x]) ++ r) by (rewrite <- app_assoc; reflexivity).
  apply skipn_pre.
Qed.

Lemma first_blank (l : bytes) : (exists w r, l = w ++ SP :: r /\ ~ In SP w) \/ ~ In SP l.
Proof.
  induction l as [|x l IH]; [right; auto|].
  destruct (N.eq_dec x SP) as [->|N0].
  - left. exists [], l. auto.
  - destruct IH as [(w & r & -> & Hi)|Hi].
    + left. exists (x :: w), r. split; [reflexivity|]. intros [E|E]; [congruence|auto].
    + right. intros [E|E]; [congruence|auto].
Qed.

(* ------------------------------------------------------------------ the loop *)
(* used' is used with some blanks replaced by NUL *)
Definition blanked (u u' : bytes) : Prop :=
  Forall2 (fun x y => y = x \/ (x = SP /\ y = NUL)) u u'.

Definition term_ok (b : bytes) (t : token) : Prop :=
  exists o, tval t = Some o /\ nth_error b (o + tlen t) = Some NUL /\ 0 < tlen t.

Lemma blanked_refl u : blanked u u.
Proof. induction u; constructor; auto. Qed.

Lemma tok_mid p w r n : n = length w -> tok_bytes (p ++ w ++ r) (mkTok (Some (length p)) n) = w.
Proof. intros ->. unfold tok_bytes. cbn. rewrite skipn_pre, firstn_pre. reflexivity. Qed.

Lemma nth_mid {A} (p : list A) x r i : i = length p -> nth_error (p ++ x :: r) i = Some x.
Proof. intros ->. rewrite nth_error_app2 by lia. rewrite Nat.sub_diag. reflexivity. Qed.

Definition rest_words (k : nat) (line used rest : bytes) : Prop :=
  rest = [] \/ words rest = skipn k (words line).

Lemma tc_loop_ok max base cmdlen post : forall fuel line pre toks,
  length line + 1 < fuel ->
  base <= length pre -> base + cmdlen = length pre + length line ->
  length toks <= max - 1 ->
  exists used used' rest ts,
    line = used ++ rest /\ blanked used used' /\
    tc_loop fuel (pre ++ line ++ NUL :: post) base cmdlen max toks (length pre) (length pre)
      = Some (pre ++ used' ++ rest ++ NUL :: post, toks ++ ts, length pre + length used) /\
    (let b' := pre ++ used' ++ rest ++ NUL :: post in
     let k := max - 1 - length toks in
     map (tok_bytes b') ts = firstn k (words line) /\
     Forall (term_ok b') ts /\
     (rest <> [] -> length ts = k /\ words rest = skipn k (words line)) /\
     (rest = [] -> length (words line) <= k)).
Proof.
  induction fuel as [|f IH]; intros line pre toks Hf Hb Hc Ht; [lia|].
  cbn [tc_loop].
  destruct (Nat.ltb_spec (length toks) (max - 1)) as [Hlt|Hge].
  2:{ exists [], [], line, []. cbn [app length]. rewrite app_nil_r.
      replace (max - 1 - length toks) with 0 by lia. cbn [firstn map skipn].
      split; [reflexivity|]. split; [constructor|]. split; [f_equal; f_equal; lia|].
      split; [reflexivity|]. split; [constructor|]. split; [auto|].
      intros ->. cbn. lia. }
  unfold memchr. rewrite skipn_pre.
  assert (En : cmdlen - (length pre - base) = length line) by lia. rewrite En.
  destruct (first_blank line) as [(w & r & El & Hi)|Hi].
  - rewrite El. rewrite <- app_assoc. cbn [app].
    rewrite memchr_from_some; [|exact Hi|rewrite app_length; cbn; lia].
    assert (Hlen : length line = length w + 1 + length r) by (rewrite El, app_length; cbn; lia).
    destruct (Nat.eqb_spec (length pre) (length pre + length w)) as [Ew|Ew].
    + destruct w; [|cbn in Ew; lia]. cbn [app].
      set (pre1 := pre ++ [SP]).
      assert (L1 : length pre1 = S (length pre)) by (unfold pre1; rewrite app_length; cbn; lia).
      replace (pre ++ SP :: r ++ NUL :: post) with (pre1 ++ r ++ NUL :: post)
        by (unfold pre1; rewrite <- app_assoc; reflexivity).
      cbn [length] in Hlen. replace (S (length pre + length (@nil N))) with (length pre1) by (cbn; lia).
      destruct (IH r pre1 toks) as (used & used' & rest & ts & E1 & E2 & E3 & E4); try lia.
      cbn zeta in E4. destruct E4 as (A1 & A2 & A3 & A4).
      exists (SP :: used), (SP :: used'), rest, ts.
      assert (Eb : pre1 ++ used' ++ rest ++ NUL :: post = pre ++ (SP :: used') ++ rest ++ NUL :: post)
        by (unfold pre1; rewrite <- app_assoc; reflexivity).
      rewrite Eb in *. cbn [length].
      replace (words ((SP :: r))) with (words r) by reflexivity.
      split; [rewrite E1; reflexivity|]. split; [constructor; auto|].
      split; [rewrite E3; do 2 f_equal; lia|]. cbn zeta. auto.
    + assert (Wn : w <> []) by (intros ->; cbn in Ew; lia).
      set (pre1 := pre ++ w ++ [NUL]).
      assert (L1 : length pre1 = length pre + length w + 1)
        by (unfold pre1; rewrite !app_length; cbn; lia).
      replace (wr (pre ++ w ++ SP :: r ++ NUL :: post) (length pre + length w) NUL)
        with (pre1 ++ r ++ NUL :: post).
      2:{ rewrite <- app_length. rewrite (app_assoc pre w). rewrite wr_mid. unfold pre1.
          rewrite <- !app_assoc. reflexivity. }
      replace (S (length pre + length w)) with (length pre1) by lia.
      set (t0 := mkTok (Some (length pre)) (length pre + length w - length pre)).
      destruct (IH r pre1 (toks ++ [t0])) as (used & used' & rest & ts & E1 & E2 & E3 & E4);
        try lia; [rewrite app_length; cbn; lia|].
      cbn zeta in E4. destruct E4 as (A1 & A2 & A3 & A4).
      rewrite app_length in A1, A3, A4. cbn [length] in A1, A3, A4.
      exists (w ++ SP :: used), (w ++ NUL :: used'), rest, (t0 :: ts).
      assert (Eb : pre1 ++ used' ++ rest ++ NUL :: post = pre ++ (w ++ NUL :: used') ++ rest ++ NUL :: post)
        by (unfold pre1; rewrite <- !app_assoc; reflexivity).
      rewrite Eb in *. clear Eb.
      assert (Ek : max - 1 - length toks = S (max - 1 - (length toks + 1))) by lia.
      replace (words (w ++ SP :: r)) with (w :: words r)
        by (rewrite words_app, (words_one w) by assumption; reflexivity).
      split; [rewrite E1, <- app_assoc; reflexivity|].
      split; [apply Forall2_app; [apply blanked_refl|constructor; auto]|].
      split.
      { rewrite E3. rewrite <- (app_assoc toks). cbn [app]. f_equal. f_equal.
        rewrite app_length. cbn [length]. lia. }
      cbn zeta. rewrite Ek. cbn [firstn skipn map length].
      split; [rewrite A1; f_equal|].
      { unfold t0. rewrite <- app_assoc. apply tok_mid. lia. }
      split; [constructor; [|exact A2]|].
      { exists (length pre). unfold t0; cbn [tval tlen]. split; [reflexivity|].
        split; [|destruct w; [congruence|cbn; lia]].
        rewrite <- app_assoc. rewrite (app_assoc pre w). apply nth_mid. rewrite app_length. lia. }
      split; [intro R; destruct (A3 R) as [B1 B2]; split; [lia|exact B2]|].
      intro R. specialize (A4 R). lia.
  - rewrite memchr_from_none by (auto).
    assert (Ebc : base + cmdlen = length pre + length line) by lia. rewrite Ebc.
    destruct (Nat.eqb_spec (length pre) (length pre + length line)) as [Ew|Ew].
    + destruct line; [|cbn in Ew; lia]. exists [], [], [], [].
      cbn [app length]. rewrite app_nil_r. split; [reflexivity|]. split; [constructor|].
      split; [reflexivity|]. cbn zeta. cbn [map words fields filter nonempty].
      rewrite firstn_nil. split; [reflexivity|]. split; [constructor|].
      split; [congruence|intros _; cbn; lia].
    + assert (Wn : line <> []) by (intros ->; cbn in Ew; lia).
      exists line, line, [], [mkTok (Some (length pre)) (length pre + length line - length pre)].
      rewrite app_nil_r. split; [reflexivity|]. split; [apply blanked_refl|].
      split; [reflexivity|]. cbn zeta. rewrite (words_one line) by assumption.
      assert (Ek : max - 1 - length toks = S (max - 2 - length toks)) by lia. rewrite Ek.
      cbn [firstn map app length]. rewrite firstn_nil.
      split; [f_equal; apply tok_mid; lia|].
      split.
      { constructor; [|constructor]. exists (length pre). cbn [tval tlen].
        split; [reflexivity|]. split; [|destruct line; [congruence|cbn; lia]].
        rewrite app_assoc. apply nth_mid. rewrite app_length. lia. }
      split; [congruence|intros _; cbn; lia].
Qed.

(* the first byte of the rest is not NUL: the rest is reported *)
Definition nul_next (rest : bytes) : bool :=
  match rest with [] => true | c :: _ => N.eqb c NUL end.

Lemma tokenize_ok max pre line post :
  2 <= max ->
  exists used used' rest ts,
    line = used ++ rest /\ blanked used used' /\
    (let b' := pre ++ used' ++ rest ++ NUL :: post in
     tokenize_command (pre ++ line ++ NUL :: post) (length pre) (length line) max
     = Some (b', ts ++ (if nul_next rest then [mkTok None 0]
                        else [mkTok (Some (length pre + length used)) 0;
                              mkTok None (length rest)]), S (length ts)) /\
     map (tok_bytes b') ts = firstn (max - 1) (words line) /\
     Forall (term_ok b') ts /\
     (rest <> [] -> length ts = max - 1 /\ words rest = skipn (max - 1) (words line)) /\
     (rest = [] -> length (words line) <= max - 1)).
Proof.
  intros Hm.
  destruct (tc_loop_ok max (length pre) (length line) post (S (S (length line))) line pre [])
    as (used & used' & rest & ts & E1 & E2 & E3 & E4); cbn [length]; try lia.
  cbn zeta in E4. cbn [length] in E4. rewrite Nat.sub_0_r in E4. cbn [app] in E3.
  destruct E4 as (A1 & A2 & A3 & A4).
  exists used, used', rest, ts. split; [exact E1|]. split; [exact E2|].
  cbn zeta. split; [|auto]. unfold tokenize_command. rewrite E3.
  assert (Lu : length used' = length used)
    by (clear - E2; induction E2; cbn [length]; congruence).
  assert (Er : rd (pre ++ used' ++ rest ++ NUL :: post) (length pre + length used)
               = nth_error (rest ++ NUL :: post) 0).
  { unfold rd. rewrite nth_error_app2 by lia. rewrite nth_error_app2 by lia. f_equal. lia. }
  rewrite Er. destruct rest as [|c rest]; cbn [app nth_error nul_next].
  - rewrite N.eqb_refl. reflexivity.
  - destruct (N.eqb c NUL); [reflexivity|].
    destruct (A3 ltac:(discriminate)) as [Lt _].
    rewrite Lt, Nat.eqb_refl.
    replace (length line - (length pre + length used - length pre)) with (length (c :: rest));
      [reflexivity|]. rewrite E1, app_length. lia.
Qed.

(* ------------------------------------------------------------------ keys of get *)
Lemma tok_bytes_len b t o : tval t = Some o -> o + tlen t <= length b -> length (tok_bytes b t) = tlen t.
Proof.
  intros E H. unfold tok_bytes. rewrite E. rewrite firstn_length, skipn_length. lia.
Qed.

Lemma term_len b t : term_ok b t -> length (tok_bytes b t) = tlen t.
Proof.
  intros (o & E & H & _). apply (tok_bytes_len b t o E).
  assert (nth_error b (o + tlen t) <> None) by congruence. apply nth_error_Some in H0. lia.
Qed.

Lemma get_words_ok maxk b ts t r :
  Forall (term_ok b) ts -> tlen t = 0 ->
  get_words maxk b (ts ++ t :: r)
  = (fitting maxk (map (tok_bytes b) ts),
     if forallb (fun w => length w <=? maxk) (map (tok_bytes b) ts) then Some (Some (t, r)) else None).
Proof.
  intros F Ht. induction F as [|t0 ts H0 F IH]; cbn [app get_words map fitting forallb].
  - rewrite Ht. reflexivity.
  - rewrite (term_len b t0 H0). destruct H0 as (o & E & _ & Hp).
    destruct (Nat.eqb_spec (tlen t0) 0) as [X|_]; [lia|].
    destruct (Nat.ltb_spec maxk (tlen t0)), (Nat.leb_spec (tlen t0) maxk); try lia; cbn [andb].
    + reflexivity.
    + rewrite IH. reflexivity.
Qed.

Lemma fitting_app maxk a b :
  fitting maxk (a ++ b) = fitting maxk a ++
    (if forallb (fun w => length w <=? maxk) a then fitting maxk b else []).
Proof.
  induction a as [|w a IH]; cbn [app fitting forallb]; [reflexivity|].
  destruct (length w <=? maxk); cbn [andb app]; [rewrite IH|]; reflexivity.
Qed.

Lemma fitting_all maxk a : forallb (fun w => length w <=? maxk) a = true -> fitting maxk a = a.
Proof.
  induction a as [|w a IH]; cbn [fitting forallb]; [reflexivity|].
  intro H. apply andb_true_iff in H as [-> H]. rewrite IH by exact H. reflexivity.
Qed.

Definition get_answer (maxk : nat) (ks : list bytes) : getres :=
  if forallb (fun w => length w <=? maxk) ks then GKeys ks else GTooLong (fitting maxk ks).

Definition addk (acc : list bytes) (g : getres) : getres :=
  match g with
  | GKeys k => GKeys (acc ++ k) | GTooLong k => GTooLong (acc ++ k) | GBroken => GBroken
  end.

Lemma nul_next_no rest : ~ In NUL rest -> rest <> [] -> nul_next rest = false.
Proof.
  destruct rest as [|c r]; [congruence|]. intros H _. cbn.
  destruct (N.eqb_spec c NUL) as [->|]; [exfalso; apply H; left; reflexivity|reflexivity].
Qed.

(* one turn, starting after a call of tokenize_command that left the words ks (after the
   command word) and the rest of the line *)
Lemma get_loop_ok maxk max post : 2 <= max ->
  forall fuel rest pre b ts acc,
  length rest < fuel -> ~ In NUL rest ->
  b = pre ++ rest ++ NUL :: post ->
  Forall (term_ok b) ts ->
  get_loop fuel maxk max b
     (ts ++ (if nul_next rest then [mkTok None 0]
             else [mkTok (Some (length pre)) 0; mkTok None (length rest)])) acc
  = addk acc (get_answer maxk (map (tok_bytes b) ts ++ words rest)).
Proof.
  intros Hm. induction fuel as [|f IH]; intros rest pre b ts acc Hf Hn Eb Ft; [lia|].
  cbn [get_loop].
  destruct rest as [|c0 r0]; [|destruct (nul_next (c0 :: r0)) eqn:En;
    [rewrite nul_next_no in En by (auto; discriminate); discriminate|]].
  - cbn [nul_next]. rewrite (get_words_ok maxk b ts (mkTok None 0) []) by auto.
    rewrite words_nil, app_nil_r. unfold get_answer.
    destruct (forallb _ _) eqn:Ef; cbn [addk tval]; [rewrite fitting_all by exact Ef|]; reflexivity.
  - set (rest := c0 :: r0) in *.
    rewrite (get_words_ok maxk b ts (mkTok (Some (length pre)) 0) [mkTok None (length rest)]) by auto.
    unfold get_answer. rewrite forallb_app, fitting_app.
    destruct (forallb _ (map _ ts)) eqn:Ef; [|cbn [addk andb]; rewrite app_nil_r; reflexivity].
    rewrite (fitting_all maxk (map (tok_bytes b) ts)) by exact Ef.
    cbn [tval tlen andb].
    destruct (tokenize_ok max pre rest post Hm) as (used & used' & rest2 & ts2 & E1 & E2 & E3).
    cbn zeta in E3. destruct E3 as (E3 & A1 & A2 & A3 & A4).
    rewrite Eb at 1. rewrite E3.
    set (b' := pre ++ used' ++ rest2 ++ NUL :: post) in *.
    assert (Lu : length used' = length used)
      by (clear - E2; induction E2; cbn [length]; congruence).
    assert (Hw : words rest = map (tok_bytes b') ts2 ++ words rest2).
    { rewrite A1. destruct rest2 as [|c2 r2].
      - specialize (A4 eq_refl). rewrite firstn_all2 by lia. rewrite words_nil, app_nil_r. reflexivity.
      - destruct (A3 ltac:(discriminate)) as [_ ->]. rewrite firstn_skipn. reflexivity. }
    assert (Hn2 : ~ In NUL rest2) by (intro X; apply Hn; rewrite E1; apply in_or_app; auto).
    destruct ts2 as [|t2 ts2].
    + (* no word at all *)
      destruct rest2 as [|c2 r2]; [|destruct (A3 ltac:(discriminate)) as [L _]; cbn in L; lia].
      cbn [nul_next app tval]. rewrite Hw. cbn [map words fields filter nonempty app].
      rewrite app_nil_r. reflexivity.
    + cbn [app]. pose proof (Forall_inv A2) as Ht2. pose proof (Forall_inv_tail A2) as A2'.
      destruct Ht2 as (o & Eo & Ho). rewrite Eo.
      assert (Hl2 : length rest2 < f).
      { assert (length rest = length used + length rest2) by (rewrite E1; apply app_length).
        assert (used <> []).
        { intros ->. destruct used'; [|cbn in Lu; lia].
          cbn [app] in *. subst b'.
          (* ts2 non empty but nothing used: the token would lie in the rest *)
          destruct rest2 as [|c2 r2]; [cbn in E1; unfold rest in E1; discriminate|].
          destruct (A3 ltac:(discriminate)) as [L W]. rewrite <- E1 in W. rewrite Hw in W.
          apply (f_equal (@length _)) in W. rewrite app_length, map_length, skipn_length in W.
          assert (length (words rest) = length (words (c2 :: r2))) by (rewrite E1; reflexivity).
          rewrite Hw, app_length, map_length in H0. cbn [length] in *. lia. }
        destruct used; [congruence|]. cbn [length] in *. lia. }
      change (t2 :: ts2 ++ ?x) with ((t2 :: ts2) ++ x).
      specialize (IH rest2 (pre ++ used') b' (t2 :: ts2) (acc ++ map (tok_bytes b) ts) Hl2 Hn2).
      rewrite app_length, Lu in IH. rewrite IH.
      * rewrite <- Hw. unfold get_answer.
        destruct (forallb _ (words rest)) eqn:EE; unfold bytes in *; rewrite ?EE; cbn [addk];
          rewrite <- app_assoc; reflexivity.
      * unfold b'. rewrite <- app_assoc. reflexivity.
      * constructor; [exists o; auto|exact A2'].
Qed.

Lemma skipn_map {A B} (f : A -> B) n l : skipn n (map f l) = map f (skipn n l).
Proof. revert l; induction n; intros [|x l]; cbn; auto. Qed.

Lemma skipn_app_le {A} n (a b : list A) : n <= length a -> skipn n (a ++ b) = skipn n a ++ b.
Proof.
  intro H. rewrite skipn_app. replace (n - length a) with 0 by lia. reflexivity.
Qed.

Lemma forall_skipn {A} (P : A -> Prop) n l : Forall P l -> Forall P (skipn n l).
Proof.
  revert l; induction n; intros l H; [exact H|]. destruct l; [exact H|].
  inversion H; subst. apply IHn. assumption.
Qed.

Lemma get_command_ok maxk max skip line post :
  skip + 2 <= max -> ~ In NUL line -> skip + 1 <= length (words line) ->
  get_command maxk max skip (line ++ NUL :: post) (length line)
  = get_answer maxk (skipn skip (words line)).
Proof.
  intros Hm Hn Hw. unfold get_command.
  destruct (tokenize_ok max [] line post ltac:(lia)) as (used & used' & rest & ts & E1 & E2 & E3).
  cbn [app length] in E3. cbn zeta in E3. destruct E3 as (E3 & A1 & A2 & A3 & A4).
  rewrite E3.
  set (b' := used' ++ rest ++ NUL :: post) in *.
  assert (Lu : length used' = length used)
    by (clear - E2; induction E2; cbn [length]; congruence).
  assert (Lt : length ts = Nat.min (max - 1) (length (words line)))
    by (rewrite <- firstn_length, <- A1, map_length; reflexivity).
  destruct (Nat.leb_spec (skip + 2) (S (length ts))); [|lia].
  rewrite skipn_app_le by lia.
  assert (Hn2 : ~ In NUL rest) by (intro X; apply Hn; rewrite E1; apply in_or_app; auto).
  assert (Hl : length rest < S (length line)).
  { rewrite E1, app_length. lia. }
  pose proof (get_loop_ok maxk max post ltac:(lia) (S (length line)) rest used' b' (skipn skip ts) []
                Hl Hn2 eq_refl (forall_skipn _ _ _ A2)) as G.
  rewrite Lu in G. cbn [plus]. rewrite G.
  rewrite <- skipn_map, A1.
  replace (skipn skip (firstn (max - 1) (words line)) ++ words rest) with (skipn skip (words line)).
  { unfold get_answer. destruct (forallb _ _); reflexivity. }
  destruct rest as [|c2 r2].
  - specialize (A4 eq_refl). rewrite firstn_all2 by lia. rewrite words_nil, app_nil_r. reflexivity.
  - destruct (A3 ltac:(discriminate)) as [L ->].
    rewrite <- (firstn_skipn (max - 1) (words line)) at 1.
    rewrite skipn_app_le; [reflexivity|]. rewrite firstn_length. lia.
Qed.

(* ------------------------------------------------------------------ detokenize *)
Lemma detok_body_words ws :
  Forall (fun w => w <> [] /\ ~ In SP w) ws -> words (detok_body ws) = ws.
Proof.
  induction 1 as [|w ws [H1 H2] F IH]; cbn [detok_body]; [reflexivity|].
  rewrite words_app, (words_one w) by assumption. rewrite IH. reflexivity.
Qed.

Lemma detok_body_len ws : forall a,
  fold_left (fun a w => a + length w) ws a + length ws = a + length (detok_body ws).
Proof.
  induction ws as [|w ws IH]; intros a; cbn [fold_left length detok_body]; [lia|].
  specialize (IH (a + length w)). rewrite app_length. cbn [length]. lia.
Qed.

Lemma detok_body_last ws : ws <> [] -> exists t, detok_body ws = t ++ [SP] /\ words t = words (detok_body ws).
Proof.
  induction ws as [|w ws IH]; [congruence|]. intros _. destruct ws as [|w2 ws].
  - exists w. cbn [detok_body]. split; [reflexivity|]. rewrite words_app, words_nil, app_nil_r. reflexivity.
  - destruct IH as (t & E & W); [discriminate|]. exists (w ++ SP :: t).
    change (detok_body (w :: w2 :: ws)) with (w ++ SP :: detok_body (w2 :: ws)).
    rewrite !words_app, <- W. split; [|reflexivity]. rewrite E. rewrite <- app_assoc. reflexivity.
Qed.

Lemma detokenize_ok ws len :
  ws <> [] -> Forall (fun w => w <> [] /\ ~ In SP w) ws ->
  length (detok_body ws) <= len ->
  exists t, detokenize ws len = Some (t ++ [NUL]) /\ words t = ws /\ length t + 1 = length (detok_body ws).
Proof.
  intros Hn F Hl. destruct (detok_body_last ws Hn) as (t & E & W). exists t.
  rewrite detok_body_words in W by exact F.
  pose proof (detok_body_len ws 0) as L. unfold detokenize.
  replace (length ws + _) with (length (detok_body ws)) by lia.
  destruct (Nat.ltb_spec len (length (detok_body ws))); [lia|].
  rewrite E in *. rewrite app_length in *. cbn [length] in *.
  destruct (length t + 1) eqn:En; [lia|]. rewrite <- En.
  replace (length t + 1 - 1) with (length t) by lia.
  rewrite wr_mid. split; [reflexivity|]. split; [exact W|reflexivity].
Qed.

Lemma detokenize_none ws len :
  len < length (detok_body ws) -> detokenize ws len = None.
Proof.
  intros Hl. pose proof (detok_body_len ws 0) as L. unfold detokenize.
  cbn [plus] in L. rewrite Nat.add_comm. unfold bytes in *. rewrite L.
  rewrite (proj2 (Nat.ltb_lt _ _) Hl). reflexivity.
Qed.
