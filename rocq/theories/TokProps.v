(* C36: command lines and the keys of get.  C37: key lists over memory blocks. *)
From Verif Require Import Base TokModel TokSpec TokProofs TokBlkProofs TokLoopProofs TokPassProofs.
Open Scope nat_scope.

(* ------------------------------------------------------------------ C36 *)
(* For every line (any bytes) at any place of the buffer and every limit: the tokens are the
   first max-1 words of the line, unchanged, each followed by NUL; nothing outside of the
   blanks of the line is written; what is left of the line holds exactly the other words, and
   is handed on with its length unless its first byte is NUL. *)
Theorem C36_line_partial max pre line post : 2 <= max ->
  exists b' toks n used used' rest,
    tokenize_command (pre ++ line ++ [NUL] ++ post) (length pre) (length line) max = Some (b', toks, n) /\
    line = used ++ rest /\ b' = pre ++ used' ++ rest ++ [NUL] ++ post /\
    length used' = length used /\
    (forall i, nth_error used' i = nth_error used i \/
               (nth_error used i = Some SP /\ nth_error used' i = Some NUL)) /\
    n = S (Nat.min (max - 1) (length (words line))) /\
    map (tok_bytes b') (firstn (n - 1) toks) = firstn (max - 1) (words line) /\
    (forall t, In t (firstn (n - 1) toks) ->
       exists o, tval t = Some o /\ nth_error b' (o + tlen t) = Some NUL) /\
    (rest = [] -> length (words line) <= max - 1 /\ skipn (n - 1) toks = [mkTok None 0]) /\
    (rest <> [] -> words rest = skipn (max - 1) (words line)) /\
    (rest <> [] -> hd NUL rest <> NUL ->
       skipn (n - 1) toks = [mkTok (Some (length pre + length used)) 0; mkTok None (length rest)]).
Proof.
  intro Hm. destruct (tokenize_ok max pre line post Hm) as (used & used' & rest & ts & E1 & E2 & E3).
  cbn zeta in E3. destruct E3 as (E3 & A1 & A2 & A3 & A4).
  eexists _, _, _, used, used', rest. split; [exact E3|]. split; [exact E1|]. split; [reflexivity|].
  split; [clear - E2; induction E2; cbn [length]; congruence|].
  assert (Lt : length ts = Nat.min (max - 1) (length (words line)))
    by (rewrite <- firstn_length, <- A1, map_length; reflexivity).
  replace (S (length ts) - 1) with (length ts) by lia.
  rewrite firstn_pre, skipn_pre.
  split.
  { intro i. clear - E2. revert i. induction E2 as [|x y u u' H E2 IH]; intro i; [left; destruct i; reflexivity|].
    destruct i as [|i]; [|apply IH]. cbn. destruct H as [->|[-> ->]]; auto. }
  split; [congruence|]. split; [exact A1|]. split.
  { intros t Ht. rewrite Forall_forall in A2. destruct (A2 t Ht) as (o & B1 & B2 & _). eauto. }
  split; [intros ->; split; [auto|reflexivity]|]. split; [intro R; apply (A3 R)|].
  intros R Hh. destruct rest as [|c r]; [congruence|]. cbn [nul_next hd] in *.
  destruct (N.eqb_spec c NUL); [contradiction|reflexivity].
Qed.

Definition str (l : list nat) : bytes := map N.of_nat l.
(* "get a b  c" with room for two words *)
Example C36_line_example :
  tokenize_command (str [103;101;116;32;97;32;98;32;32;99;0]) 0 10 3
  = Some (str [103;101;116;0;97;0;98;32;32;99;0],
          [mkTok (Some 0) 3; mkTok (Some 4) 1; mkTok (Some 6) 0; mkTok None 4], 3).
Proof. vm_compute. reflexivity. Qed.

(* The keys looked up by a get command are all words of the line after the command, in order,
   however many there are; the first key that is too long ends the command with an error. *)
Theorem C36_get_keys line post : ~ In NUL line -> 2 <= length (words line) ->
  let keys := skipn 1 (words line) in
  (Forall (fun k => length k <= KEY_MAX_LENGTH) keys ->
     get_command KEY_MAX_LENGTH MAX_TOKENS 1 (line ++ [NUL] ++ post) (length line) = GKeys keys) /\
  (~ Forall (fun k => length k <= KEY_MAX_LENGTH) keys ->
     get_command KEY_MAX_LENGTH MAX_TOKENS 1 (line ++ [NUL] ++ post) (length line)
     = GTooLong (fitting KEY_MAX_LENGTH keys)).
Proof.
  intros Hn Hw keys. generalize KEY_MAX_LENGTH. intro maxk.
  assert (E : get_command maxk MAX_TOKENS 1 (line ++ [NUL] ++ post) (length line) = get_answer maxk keys).
  { apply get_command_ok; [unfold MAX_TOKENS; lia|exact Hn|lia]. }
  rewrite E. unfold get_answer. split; intro H.
  - replace (forallb _ keys) with true; [reflexivity|]. symmetry. apply forallb_forall.
    intros w Hin. rewrite Forall_forall in H. apply Nat.leb_le. apply H. exact Hin.
  - destruct (forallb (fun w => length w <=? maxk) keys) eqn:Ef; [|reflexivity]. exfalso. apply H.
    apply Forall_forall. intros w Hin. rewrite forallb_forall in Ef. apply Nat.leb_le. apply Ef. exact Hin.
Qed.

(* forty one-letter keys need two rounds of the tokenizer *)
Definition forty : bytes := [103;101;116]%N ++ concat (repeat [32;107]%N 40).
Example C36_get_example :
  ~ In NUL forty /\ length (words forty) = 41 /\
  get_command 16 MAX_TOKENS 1 (forty ++ [NUL]) (length forty) = GKeys (repeat [107]%N 40).
Proof.
  split; [|split; vm_compute; reflexivity].
  intro H. enough (X : existsb (N.eqb NUL) forty = true) by (vm_compute in X; discriminate X).
  apply existsb_exists. exists NUL. split; [exact H|reflexivity].
Qed.

(* The claim for all lines fails: a NUL byte that stands first in the untokenized rest makes
   the rest of the line disappear, and the client is answered as if it had not been sent. *)
Definition nul_line : bytes :=
  [103;101;116]%N ++ concat (repeat [32;107]%N 28) ++ [32;0;32;120;32;121]%N.
Theorem C36_nul_refuted :
  length (words nul_line) = 32 /\
  get_command 16 MAX_TOKENS 1 (nul_line ++ [NUL]) (length nul_line) = GKeys (repeat [107]%N 28).
Proof. split; vm_compute; reflexivity. Qed.

(* detokenize gives back a text with the same words, or nothing when it does not fit *)
Theorem C36_detokenize ws len : ws <> [] ->
  Forall (fun w => w <> [] /\ ~ In SP w) ws ->
  let total := fold_right (fun w a => length w + 1 + a) 0 ws in
  (total <= len -> exists t, detokenize ws len = Some (t ++ [NUL]) /\ words t = ws /\ length t + 1 = total) /\
  (len < total -> detokenize ws len = None).
Proof.
  intros Hn F total.
  assert (Et : total = length (detok_body ws)).
  { unfold total. clear. induction ws as [|w ws IH]; cbn [fold_right detok_body]; [reflexivity|].
    rewrite app_length. cbn [length]. rewrite <- IH. lia. }
  split; intro H.
  - destruct (detokenize_ok ws len Hn F ltac:(lia)) as (t & E1 & E2 & E3). exists t.
    split; [exact E1|]. split; [exact E2|]. lia.
  - apply detokenize_none. lia.
Qed.
Example C36_detokenize_example :
  detokenize [str [97;98]; str [99]] 5 = Some (str [97;98;32;99;0]) /\ detokenize [str [97;98]; str [99]] 4 = None.
Proof. split; reflexivity. Qed.

(* ------------------------------------------------------------------ C37 *)
(* a key list in one piece *)
Theorem C37_one_piece d text cnt keys :
  tokenize_keys text cnt d = Some keys <->
  fields d text = keys /\ length keys = cnt /\ Forall (fun w => w <> [] /\ ~ In 32%N w) keys.
Proof. apply tokenize_keys_iff. Qed.

Definition mem_ok : nat -> list bytes -> bool := fun _ _ => true.

(* the list was taken as the keys of the text or of a part that ends at a block boundary *)
Definition taken (d : N) (B cnt maxk : nat) (text : bytes) (keys : list bytes) : Prop :=
  exists q, (q = text \/ boundary_part d B text q) /\ key_list d cnt maxk q keys.

(* the text is a list of fewer keys, cut so that its final delimiter is alone in a block *)
Definition lone_delimiter (d : N) (B cnt : nat) (text : bytes) : Prop :=
  exists q, text = q ++ [d] /\ length q mod B = 0 /\ q <> [] /\ length (fields d q) < cnt /\
            Forall (fun w => w <> [] /\ ~ In 32%N w) (fields d q).

Section BLOCKS.
Variables (B cnt maxk : nat) (text junk : bytes) (blks : list bytes).
Hypothesis HB : maxk + 2 < B.
Hypothesis Hcnt : 0 < cnt.
Hypothesis Htext : text <> [].
Hypothesis Hblks : Forall (fun b => length b = B) blks.
Hypothesis Hmem : concat blks = text ++ junk.

Lemma view_facts : shape B (view B (length text) blks) /\ concat (view B (length text) blks) = text.
Proof. apply (view_ok B ltac:(lia) blks text junk Hblks Hmem Htext). Qed.

Lemma guards : (length text =? 0) || (cnt =? 0) || (B - 2 <=? maxk) = false.
Proof.
  destruct text; [congruence|]. cbn [length Nat.eqb orb].
  destruct (Nat.eqb_spec cnt 0); [lia|]. destruct (Nat.leb_spec (B - 2) maxk); [lia|reflexivity].
Qed.

(* Exactly which texts are accepted, with which keys, for every block length *)
Theorem C37_blocks_exact_partial keys :
  tokenize_mblocks mem_ok B (length text) cnt maxk false blks = TOk keys <->
  taken SP B cnt maxk text keys.
Proof.
  destruct view_facts as [S1 S2]. unfold tokenize_mblocks. rewrite guards.
  split.
  - destruct (tm_pass mem_ok B maxk cnt SP _) as [fl r] eqn:Ep. intro H.
    pose proof (pass_sound mem_ok B maxk cnt SP HB Hcnt _ _ _ _ S1 S2 Ep) as P.
    destruct fl, r; try discriminate; injection H as ->; exact P.
  - intro H. destruct (pass_complete mem_ok B maxk cnt SP HB Hcnt _ _ _ S1 S2 H) as [[fl E]|[_ (n & t & E)]];
      [|discriminate]. rewrite E. destruct fl; reflexivity.
Qed.

(* every other text is refused, or (lone delimiter) stops the server *)
Theorem C37_blocks_else_partial :
  (forall keys, ~ taken SP B cnt maxk text keys) ->
  tokenize_mblocks mem_ok B (length text) cnt maxk false blks = TBad \/
  (tokenize_mblocks mem_ok B (length text) cnt maxk false blks = TAbort /\ lone_delimiter SP B cnt text).
Proof.
  intro Hno. destruct view_facts as [S1 S2]. unfold tokenize_mblocks. rewrite guards.
  destruct (tm_pass mem_ok B maxk cnt SP _) as [fl r] eqn:Ep.
  pose proof (pass_sound mem_ok B maxk cnt SP HB Hcnt _ _ _ _ S1 S2 Ep) as P.
  destruct r as [keys| | |].
  - exfalso. apply (Hno keys). exact P.
  - destruct fl; auto.
  - exfalso. apply (pass_mem mem_ok B maxk cnt SP _ _ (fun _ _ => eq_refl) Ep).
  - right. destruct P as (q & A1 & A2 & A3 & A4 & A5).
    destruct fl; (split; [reflexivity|]); exists q; repeat split; assumption.
Qed.

(* A proper key list is accepted with its keys: with blanks, or where allowed with commas *)
Theorem C37_good_list keys compat :
  key_list SP cnt maxk text keys ->
  tokenize_mblocks mem_ok B (length text) cnt maxk compat blks = TOk keys.
Proof.
  intro HK. destruct view_facts as [S1 S2]. unfold tokenize_mblocks. rewrite guards.
  assert (HA : accepted B maxk cnt SP text keys) by (exists text; auto).
  destruct (pass_complete mem_ok B maxk cnt SP HB Hcnt _ _ _ S1 S2 HA) as [[fl E]|[_ (n & t & E)]];
    [|discriminate]. rewrite E. destruct fl; reflexivity.
Qed.

Theorem C37_good_comma_list keys :
  key_list COMMA cnt maxk text keys -> 
  tokenize_mblocks mem_ok B (length text) cnt maxk true blks = TOk keys.
Proof.
  intro HK. destruct view_facts as [S1 S2].
  assert (NoSP : ~ In SP text).
  { destruct HK as (E & _ & F). destruct (fields_cons COMMA text) as (w & l & E'). rewrite E' in E. subst keys.
    inversion F as [|? ? (_ & A & _) F']; subst. apply (key_no_sp COMMA text w l E' A); [|discriminate].
    eapply Forall_impl; [|exact F']. intros a (_ & X & _). exact X. }
  destruct (Nat.eq_dec cnt 1) as [H1|H1].
  - apply C37_good_list. destruct HK as (E & L & F).
    assert (Ek : keys = [text]).
    { destruct keys as [|k [|? ?]]; cbn in L; try lia. f_equal.
      rewrite <- (fields_join1 COMMA text k E). reflexivity. }
    split; [|split; [exact L|exact F]]. rewrite fields_nod by exact NoSP. auto.
  - unfold tokenize_mblocks. rewrite guards.
    destruct (tm_pass mem_ok B maxk cnt SP _) as [fl r] eqn:Ep.
    pose proof (pass_sound mem_ok B maxk cnt SP HB Hcnt _ _ _ _ S1 S2 Ep) as P.
    assert (Hq : forall q, (q = text \/ boundary_part SP B text q) -> fields SP q = [text]).
    { intros q [->|(r0 & Et & _)]; [apply fields_nod; exact NoSP|].
      exfalso. apply NoSP. rewrite Et. apply in_or_app. right. left. reflexivity. }
    assert (HA : accepted B maxk cnt COMMA text keys) by (exists text; auto).
    destruct (pass_complete mem_ok B maxk cnt COMMA HB Hcnt _ _ _ S1 S2 HA) as [[fl2 E]|[_ (n & t & E)]];
      [|discriminate].
    destruct r as [ks| | |].
    + exfalso. destruct P as (q & Hq1 & E1 & L1 & _). rewrite (Hq q Hq1) in E1. subst ks. cbn in L1. lia.
    + destruct fl; [rewrite E; reflexivity|].
      exfalso. destruct (P eq_refl) as (q & Hq1 & L1). rewrite (Hq q Hq1) in L1. cbn in L1. lia.
    + exfalso. apply (pass_mem mem_ok B maxk cnt SP _ _ (fun _ _ => eq_refl) Ep).
    + exfalso. destruct P as (q & A1 & _). apply NoSP. rewrite A1. apply in_or_app. right. left. reflexivity.
Qed.
End BLOCKS.

(* Where no delimiter stands at a block boundary the answer is exactly right. *)
Theorem C37_no_boundary B cnt maxk text junk blks :
  maxk + 2 < B -> 0 < cnt -> text <> [] ->
  Forall (fun b => length b = B) blks -> concat blks = text ++ junk ->
  (forall q r, text = q ++ SP :: r -> q <> [] -> length q mod B <> 0 /\ (length q + 1) mod B <> 0) ->
  (forall keys, key_list SP cnt maxk text keys ->
     tokenize_mblocks mem_ok B (length text) cnt maxk false blks = TOk keys) /\
  ((forall keys, ~ key_list SP cnt maxk text keys) ->
     tokenize_mblocks mem_ok B (length text) cnt maxk false blks = TBad).
Proof.
  intros HB Hc Ht Hb Hm Hno. split.
  - intros keys HK. apply (C37_good_list B cnt maxk text junk); assumption.
  - intro HN. destruct (C37_blocks_else_partial B cnt maxk text junk blks HB Hc Ht Hb Hm) as [E|[E (q & Et & Hq & Hn & _)]].
    + intros keys (q & [->|(r & Et & Hr)] & HK); [apply (HN keys HK)|].
      destruct (list_eq_dec N.eq_dec q []) as [->|Hn].
      * destruct Hr as [[_ X]|[X Y]]; [congruence|].
        destruct HK as (E & _ & F). cbn in E. subst keys. inversion F as [|? ? (X1 & _) _]. congruence.
      * destruct (Hno q r Et Hn) as [H1 H2]. destruct Hr as [[X _]|[X _]]; contradiction.
    + exact E.
    + exfalso. destruct (Hno q [] Et Hn) as [H1 _]. contradiction.
Qed.

(* The text of an ascii request ends with the line end, which may itself be split *)
Theorem C37_line_end B blks text c1 c2 cnt maxk compat :
  2 <= B -> text <> [] -> holds B blks (text ++ [c1; c2]) ->
  tokenize_sblocks mem_ok B (length (text ++ [c1; c2])) cnt maxk compat blks =
  if ((c1 =? CR) && (c2 =? LF))%N%bool
  then tokenize_mblocks mem_ok B (length text) cnt maxk compat blks else TBad.
Proof.
  intros HB Ht Hh. unfold tokenize_sblocks. rewrite (check_tail_ok B blks text c1 c2 HB Hh).
  assert (L : length (text ++ [c1; c2]) = length text + 2) by (rewrite app_length; reflexivity).
  assert (0 < length text) by (destruct text; [congruence|cbn; lia]).
  destruct (Nat.leb_spec (length (text ++ [c1; c2])) 2); [lia|].
  rewrite L. replace (length text + 2 - 2) with (length text) by lia.
  destruct ((c1 =? CR)%N && (c2 =? LF)%N)%bool; reflexivity.
Qed.

(* together: a request of exactly the announced keys is understood whatever the block length *)
Theorem C37_request B blks text cnt maxk keys :
  maxk + 2 < B -> 0 < cnt -> text <> [] -> holds B blks (text ++ [CR; LF]) ->
  key_list SP cnt maxk text keys ->
  tokenize_sblocks mem_ok B (length (text ++ [CR; LF])) cnt maxk false blks = TOk keys.
Proof.
  intros HB Hc Ht Hh HK. rewrite C37_line_end by (auto; lia).
  destruct Hh as (F & _ & junk & E). rewrite <- app_assoc in E. cbn [N.eqb CR LF Pos.eqb andb].
  apply (C37_good_list B cnt maxk text ([CR; LF] ++ junk)); assumption.
Qed.

(* "abc abc d" over blocks of 6: the second key is split, the line end too *)
Example C37_request_example :
  let text := str [97;98;99;32;97;98;99;32;100;100;100] in
  let blks := [str [97;98;99;32;97;98]; str [99;32;100;100;100;13]; str [10;0;0;0;0;0]] in
  holds 6 blks (text ++ [CR; LF]) /\
  key_list SP 3 3 text [str [97;98;99]; str [97;98;99]; str [100;100;100]] /\
  tokenize_sblocks mem_ok 6 13 3 3 false blks = TOk [str [97;98;99]; str [97;98;99]; str [100;100;100]].
Proof.
  cbn zeta. split; [|split].
  - split; [repeat constructor|]. split; [reflexivity|]. exists (str [0;0;0;0;0]). reflexivity.
  - split; [reflexivity|]. split; [reflexivity|].
    repeat constructor; try discriminate; cbn; intuition discriminate.
  - vm_compute. reflexivity.
Qed.

(* The full claim fails at block boundaries.  Three keys fill the first block exactly. *)
Definition A (n : nat) : bytes := repeat 97%N n.
Definition three (maxk m : nat) : bytes := A maxk ++ SP :: A maxk ++ SP :: A m.

Lemma A_no n : ~ In SP (A n).
Proof. intro H. apply repeat_spec in H. discriminate. Qed.

Lemma three_fields maxk m : fields SP (three maxk m) = [A maxk; A maxk; A m].
Proof.
  unfold three. rewrite !fields_cut, !fields_nod by apply A_no. reflexivity.
Qed.

Lemma A_key maxk n : 1 <= n <= maxk -> key_ok maxk (A n).
Proof.
  intro H. split; [destruct n; [lia|discriminate]|]. split; [apply A_no|].
  unfold A. rewrite repeat_length. lia.
Qed.

Lemma three_keys maxk m : 1 <= m <= maxk -> key_list SP 3 maxk (three maxk m) [A maxk; A maxk; A m].
Proof.
  intro H. split; [apply three_fields|]. split; [reflexivity|].
  repeat constructor; try apply A_no; try (unfold A; rewrite repeat_length; lia);
    intro X; apply (f_equal (@length _)) in X; unfold A in X; rewrite repeat_length in X; cbn in X; lia.
Qed.

Lemma three_len maxk m : length (three maxk m) = 2 * maxk + 2 + m.
Proof. unfold three, A. rewrite app_length. cbn [length]. rewrite app_length. cbn [length]. rewrite !repeat_length. lia. Qed.

(* a list of more keys than announced (or any other text) is taken as the announced three *)
Theorem C37_extra_refuted maxk m extra junk blks : 1 <= m <= maxk ->
  let B := 2 * maxk + 2 + m in let text := three maxk m ++ SP :: extra in
  Forall (fun b => length b = B) blks -> concat blks = text ++ junk ->
  (forall keys, ~ key_list SP 3 maxk text keys) /\
  tokenize_mblocks mem_ok B (length text) 3 maxk false blks = TOk [A maxk; A maxk; A m].
Proof.
  intros Hm B text Hb Hc. split.
  - intros keys (E & L & _). unfold text in E. rewrite fields_cut, three_fields in E.
    destruct (fields_cons SP extra) as (w & l & X). rewrite X in E. subst keys. cbn in L. lia.
  - apply (C37_blocks_exact_partial B 3 maxk text junk blks); auto; try (unfold B; lia).
    + unfold text. destruct (three maxk m); discriminate.
    + exists (three maxk m). split; [right|apply three_keys; exact Hm].
      exists extra. split; [reflexivity|]. left. rewrite three_len. split.
      * apply Nat.mod_same. unfold B. lia.
      * intro X. apply (f_equal (@length _)) in X. rewrite three_len in X. cbn in X. lia.
Qed.

(* a list of three keys and a final blank, announced as four keys, stops the server *)
Theorem C37_abort_refuted maxk m junk blks : 1 <= m <= maxk ->
  let B := 2 * maxk + 2 + m in let text := three maxk m ++ [SP] in
  Forall (fun b => length b = B) blks -> concat blks = text ++ junk ->
  tokenize_mblocks mem_ok B (length text) 4 maxk false blks = TAbort.
Proof.
  intros Hm B text Hb Hc.
  assert (Ht : text <> []) by (unfold text; destruct (three maxk m); discriminate).
  assert (HB : maxk + 2 < B) by (unfold B; lia).
  destruct (view_ok B ltac:(lia) blks text junk Hb Hc Ht) as [S1 S2].
  unfold tokenize_mblocks. rewrite (guards B 4 maxk text junk blks HB ltac:(lia) Ht Hc).
  destruct (pass_abort mem_ok B maxk 4 SP HB ltac:(lia) _ _ (three maxk m) 3 [A maxk; A maxk; A m] S1 S2 eq_refl)
    as [E|[_ (n & t & E)]].
  - rewrite three_len. apply Nat.mod_same. lia.
  - intro X. apply (f_equal (@length _)) in X. rewrite three_len in X. cbn in X. lia.
  - lia.
  - apply three_keys. exact Hm.
  - rewrite E. reflexivity.
  - discriminate.
Qed.

(* The sizes of the server: blocks of 32*1024 - 8 bytes (thread.c 270, mc_util.h), keys of up
   to 16000 bytes, m = 758; the announcements pass the checks of mget. *)
Example C37_server_sizes :
  (2 * 16000 + 2 + 758 = 32 * 1024 - 8)%N /\
  mget_admits (32760 + 1) 4 = true /\ mget_admits (32760 + 1 + 10) 3 = true.
Proof. vm_compute. auto. Qed.
(* and a run with small ones: "a a a b" announced as three keys, "a a a " as four *)
Example C37_refuted_example :
  three 1 1 = str [97;32;97;32;97] /\
  tokenize_mblocks mem_ok 5 7 3 1 false [three 1 1; str [32;98;0;0;0]] = TOk [A 1; A 1; A 1] /\
  tokenize_mblocks mem_ok 5 6 4 1 false [three 1 1; str [32;13;10;0;0]] = TAbort.
Proof. vm_compute. auto. Qed.

(* The checks of mget let every proper list of at most 10000 keys through *)
Definition jlen (l : list bytes) : nat := fold_right (fun w a => length w + 1 + a) 0 l.
Lemma fields_len d s : length s + 1 = jlen (fields d s).
Proof.
  unfold jlen. induction s as [|x r IH]; [reflexivity|]. cbn [fields].
  destruct (N.eqb x d); [cbn [fold_right length]; lia|].
  destruct (fields d r) as [|w l]; cbn [fold_right length] in *; lia.
Qed.

Theorem C37_admits d cnt text keys :
  key_list d cnt KEY_MAX_LENGTH text keys -> 1 <= cnt -> (N.of_nat cnt <= 10000)%N ->
  mget_admits (N.of_nat (length text)) (N.of_nat cnt) = true.
Proof.
  intros (E & L & F) H1 H2.
  pose proof (fields_len d text) as HL. rewrite E in HL.
  assert (HB : (2 * N.of_nat (length keys) <= N.of_nat (jlen keys)
                <= 16001 * N.of_nat (length keys))%N).
  { clear -F. unfold jlen. induction F as [|w l (A & _ & B) F IH]; [cbn; lia|].
    assert (length w <> 0) by (destruct w; [congruence|cbn; lia]).
    assert (B' : (N.of_nat (length w) <= 16000)%N).
    { assert (K : N.of_nat KEY_MAX_LENGTH = 16000%N) by (vm_compute; reflexivity). lia. }
    cbn [fold_right length]. lia. }
  rewrite L, <- HL in HB. clear - HB H1 H2. unfold mget_admits.
  set (c := N.of_nat cnt) in *. set (n := N.of_nat (length text)).
  assert (A : (2 * c <= n + 1 <= 16001 * c /\ 1 <= c)%N) by lia.
  clearbody c n. clear HB H1.
  pose proof (N.div_mod n 2 ltac:(lia)). pose proof (N.mod_lt n 2 ltac:(lia)).
  apply negb_true_iff. repeat (apply orb_false_iff; split);
    try (apply N.ltb_ge; lia); apply N.eqb_neq; lia.
Qed.
Example C37_admits_example :
  key_list SP 2 KEY_MAX_LENGTH (str [97;32;98]) [str [97]; str [98]] /\ mget_admits 3 2 = true.
Proof.
  assert (K : forall x, x <> 32%N -> key_ok KEY_MAX_LENGTH [x]).
  { intros x Hx. split; [discriminate|]. split; [cbn; intuition congruence|].
    apply Nat.leb_le. vm_compute. reflexivity. }
  split; [|reflexivity]. split; [reflexivity|]. split; [reflexivity|].
  constructor; [apply K; discriminate|]. constructor; [apply K; discriminate|]. constructor.
Qed.

Print Assumptions C36_line_partial.
Print Assumptions C36_get_keys.
Print Assumptions C36_detokenize.
Print Assumptions C36_nul_refuted.
Print Assumptions C37_one_piece.
Print Assumptions C37_blocks_exact_partial.
Print Assumptions C37_blocks_else_partial.
Print Assumptions C37_good_list.
Print Assumptions C37_good_comma_list.
Print Assumptions C37_no_boundary.
Print Assumptions C37_line_end.
Print Assumptions C37_request.
Print Assumptions C37_extra_refuted.
Print Assumptions C37_abort_refuted.
Print Assumptions C37_admits.
