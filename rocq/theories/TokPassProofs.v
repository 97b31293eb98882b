(* From the loop to the functions: the view of the memory blocks, one pass, the tail check. *)
From Verif Require Import Base TokModel TokSpec TokProofs TokBlkProofs TokLoopProofs.
Open Scope nat_scope.

(* ------------------------------------------------------------------ the view *)
Fixpoint shape (B : nat) (v : list bytes) : Prop :=
  match v with
  | [] => False
  | b :: r => match r with
              | [] => 1 <= length b <= B
              | _ => length b = B /\ shape B r
              end
  end.

Lemma shape_tails B b r : shape B (b :: r) -> tails B r.
Proof.
  revert b. induction r as [|c r IH]; intros b H; [exact I|].
  cbn [shape] in H. destruct H as [_ H]. cbn [tails]. split; [|exact (IH c H)].
  destruct r; [exact H|]. destruct H as [H _]. exact H.
Qed.

Lemma numblks_pos B n : 1 <= numblks B n.
Proof. unfold numblks. generalize ((n - 1) / B). intro m. lia. Qed.

Lemma numblks_small B n : 0 < n -> n <= B -> numblks B n = 1.
Proof. intros H1 H2. unfold numblks. rewrite Nat.div_small by lia. reflexivity. Qed.

Lemma lastlen_small B n : 0 < n -> n <= B -> lastlen B n = n.
Proof.
  intros H1 H2. unfold lastlen. destruct (Nat.eq_dec n B) as [->|Hne].
  - rewrite Nat.mod_same by lia. reflexivity.
  - rewrite Nat.mod_small by lia. destruct (Nat.ltb_spec 0 n); lia.
Qed.

Lemma numblks_step B n : 0 < B -> 0 < n -> numblks B (B + n) = S (numblks B n).
Proof.
  intros HB Hn. unfold numblks. replace (B + n - 1) with (n - 1 + 1 * B) by lia.
  rewrite Nat.div_add by lia. lia.
Qed.

Lemma lastlen_step B n : 0 < B -> lastlen B (B + n) = lastlen B n.
Proof.
  intros HB. unfold lastlen. replace (B + n) with (n + 1 * B) by lia.
  rewrite Nat.mod_add by lia. reflexivity.
Qed.

Lemma view_ok B : 0 < B -> forall blks text junk,
  Forall (fun b => length b = B) blks -> concat blks = text ++ junk -> text <> [] ->
  shape B (view B (length text) blks) /\ concat (view B (length text) blks) = text.
Proof.
  intros HB. induction blks as [|b blks IH]; intros text junk F E Hn.
  { destruct text; [congruence|discriminate]. }
  inversion F as [|? ? Lb F']; subst. cbn [concat] in E.
  assert (Lp : 0 < length text) by (destruct text; [congruence|cbn; lia]).
  destruct (le_lt_dec (length text) (length b)) as [Hs|Hl].
  - symmetry in E. destruct (app_split_le _ _ _ _ E Hs) as (x & Eb & _).
    unfold view. rewrite numblks_small, lastlen_small by assumption.
    cbn [Nat.sub firstn app nth]. rewrite Eb, firstn_pre. cbn [concat shape].
    rewrite app_nil_r. split; [|reflexivity]. rewrite app_length. lia.
  - destruct (app_split_le _ _ _ _ E ltac:(lia)) as (t' & Et & E').
    assert (Hn' : t' <> []).
    { intros ->. rewrite app_nil_r in Et. subst. lia. }
    assert (Lt : length text = length b + length t') by (rewrite Et; apply app_length).
    assert (Lp' : 0 < length t') by (destruct t'; [congruence|cbn; lia]).
    assert (Ev : view (length b) (length text) (b :: blks) = b :: view (length b) (length t') blks).
    { unfold view. rewrite Lt, numblks_step, lastlen_step by assumption.
      assert (1 <= numblks (length b) (length t')) by (apply numblks_pos).
      destruct (numblks (length b) (length t')) as [|m] eqn:Em; [lia|].
      replace (S (S m) - 1) with (S m) by lia. replace (S m - 1) with m by lia. reflexivity. }
    rewrite Ev. destruct (IH t' junk F' E' Hn') as [S1 S2].
    cbn [concat]. rewrite S2. split; [|symmetry; exact Et].
    cbn [shape]. destruct (view (length b) (length t') blks) as [|c r]; [destruct S1|].
    split; [reflexivity|exact S1].
Qed.

(* ------------------------------------------------------------------ one pass *)
Section PASS.
Variables (mem : nat -> list bytes -> bool) (B maxk cnt : nat) (d : N).
Hypothesis HB : maxk + 2 < B.
Hypothesis Hcnt : 0 < cnt.

Definition accepted (text : bytes) (keys : list bytes) : Prop :=
  exists q, (q = text \/ boundary_part d B text q) /\ key_list d cnt maxk q keys.

Lemma inv_start b rest : shape B (b :: rest) -> Inv B maxk cnt d [] b rest [] [].
Proof.
  intro H. apply (InvA B maxk cnt d [] b rest [] [] 0).
  - split; [left; reflexivity|]. split; [|exact (shape_tails B b rest H)].
    cbn [length]. cbn [shape] in H. destruct rest; lia.
  - split; [constructor|]. split; constructor.
  - constructor.
  - cbn; lia.
  - reflexivity.
  - left; reflexivity.
  - intros _ ->. cbn [shape] in H. destruct rest; cbn in H; lia.
Qed.

Lemma forall_le T : Forall (gp maxk) T -> Forall (fun w => length w <= maxk) T.
Proof. intro H. eapply Forall_impl; [|exact H]. intros w (_ & _ & X). exact X. Qed.

Lemma keys_of T G q : common maxk T G -> fields d q = vmap 0 G T -> length T = cnt ->
  Forall (fun w => length w <= maxk) (vmap 0 G T) -> key_list d cnt maxk q (vmap 0 G T).
Proof.
  intros C E L F. split; [exact E|]. split; [rewrite vmap_len; exact L|].
  pose proof (vmap_pieces maxk T G C) as P.
  rewrite Forall_forall in *. intros w Hw. destruct (P w Hw) as [P1 P2].
  split; [exact P1|split; [exact P2|apply F; exact Hw]].
Qed.

Lemma pass_sound v text fl r : shape B v -> concat v = text ->
  tm_pass mem B maxk cnt d v = (fl, r) ->
  match r with
  | TOk keys => accepted text keys
  | TAbort => aborts B cnt d text
  | TBad => fl = false -> exists q, (q = text \/ boundary_part d B text q) /\ length (fields d q) = cnt
  | TNoMem => True
  end.
Proof.
  intros Hs Ht Hp. destruct v as [|b rest]; [destruct Hs|]. unfold tm_pass in Hp.
  pose proof (sound mem B maxk cnt d HB Hcnt rest [] b [] [] (inv_start b rest Hs)) as HS.
  cbn [app] in HS. change (b ++ concat rest) with (concat (b :: rest)) in HS. rewrite Ht in HS.
  destruct (mloop mem B maxk cnt d rest b [] []) as [T G| | |].
  - destruct HS as (q & Hq & Ef & LT & C & Lt).
    destruct C as (C1 & C2 & C3). pose proof (conj C1 (conj C2 C3) : common maxk T G) as C.
    assert (Hlen : length (fields d q) = cnt) by (rewrite Ef, vmap_len; exact LT).
    destruct (concat_ok mem B maxk T G ltac:(lia) C1 Lt (forall_le T C2)) as [nb Ec].
    destruct G as [|g G].
    + injection Hp as <- <-. exists q. split; [exact Hq|].
      rewrite <- (vmap_nil T 0). apply keys_of; auto. rewrite vmap_nil. apply forall_le. exact C2.
    + rewrite Ec in Hp. destruct (forallb _ _) eqn:Ea.
      * destruct (mem nb T); injection Hp as <- <-; [|exact I].
        exists q. split; [exact Hq|]. apply keys_of; auto.
        apply Forall_forall. intros w Hw. rewrite forallb_forall in Ea.
        apply Nat.leb_le. apply Ea. exact Hw.
      * injection Hp as <- <-. intros _. exists q. auto.
  - injection Hp as <- <-. discriminate.
  - injection Hp as <- <-. exact I.
  - injection Hp as <- <-. exact HS.
Qed.

Lemma pass_complete v text keys : shape B v -> concat v = text -> accepted text keys ->
  (exists fl, tm_pass mem B maxk cnt d v = (fl, TOk keys)) \/
  (tm_pass mem B maxk cnt d v = (false, TNoMem) /\ exists n t, mem n t = false).
Proof.
  intros Hs Ht (q & Hq & HK). destruct v as [|b rest]; [destruct Hs|].
  assert (HZ : exists z, text = q ++ z /\ target B cnt d cnt q z).
  { destruct Hq as [->|(r & Et & Hr)].
    - exists []. rewrite app_nil_r. split; [reflexivity|]. left. auto.
    - exists (d :: r). split; [exact Et|]. left. split; [reflexivity|]. right. exists r. auto. }
  destruct HZ as (z & Ez & HT).
  pose proof (complete mem B maxk cnt d HB Hcnt rest [] b [] [] q z cnt keys (inv_start b rest Hs)) as HC.
  cbn [app] in HC. change (b ++ concat rest) with (concat (b :: rest)) in HC. rewrite Ht in HC.
  specialize (HC Ez HK HT). unfold tm_pass.
  destruct (mloop mem B maxk cnt d rest b [] []) as [T G| | |]; cbn [outcome] in HC.
  - destruct HC as (_ & EK & C & Lt). destruct C as (C1 & C2 & C3).
    destruct (concat_ok mem B maxk T G ltac:(lia) C1 Lt (forall_le T C2)) as [nb Ec].
    destruct G as [|g G].
    + rewrite vmap_nil in EK. subst keys. left. eauto.
    + rewrite Ec. rewrite EK.
      replace (forallb _ keys) with true.
      2:{ symmetry. apply forallb_forall. intros w Hw. destruct HK as (_ & _ & F).
          rewrite Forall_forall in F. destruct (F w Hw) as (_ & _ & X). apply Nat.leb_le. exact X. }
      destruct (mem nb T) eqn:Em; [left; eauto|right]. split; [reflexivity|eauto].
  - destruct HC.
  - right. split; [reflexivity|exact HC].
  - lia.
Qed.

(* the lone delimiter in the last block *)
Lemma pass_abort v text q n K : shape B v -> concat v = text ->
  text = q ++ [d] -> length q mod B = 0 -> q <> [] -> n < cnt -> key_list d n maxk q K ->
  tm_pass mem B maxk cnt d v = (false, TAbort) \/
  (tm_pass mem B maxk cnt d v = (false, TNoMem) /\ exists n t, mem n t = false).
Proof.
  intros Hs Ht Ez Hm Hq Hn HK. destruct v as [|b rest]; [destruct Hs|].
  pose proof (complete mem B maxk cnt d HB Hcnt rest [] b [] [] q [d] n K (inv_start b rest Hs)) as HC.
  cbn [app] in HC. change (b ++ concat rest) with (concat (b :: rest)) in HC. rewrite Ht in HC.
  specialize (HC Ez HK). assert (HT : target B cnt d n q [d]) by (right; auto).
  specialize (HC HT). unfold tm_pass.
  destruct (mloop mem B maxk cnt d rest b [] []) as [T G| | |]; cbn [outcome] in HC.
  - lia.
  - destruct HC.
  - right. auto.
  - left. reflexivity.
Qed.

(* with enough memory the answer is never that memory is exhausted *)
Lemma concat_mem T G : (forall n t, mem n t = true) -> concat_segs mem B maxk T G <> TNoMem.
Proof.
  intro H. unfold concat_segs. destruct (cc_count _ _ _ _ _ _); [|discriminate].
  rewrite H. destruct (cc_build _ _ _ _ _); discriminate.
Qed.

Lemma mloop_mem : (forall n t, mem n t = true) -> forall rest cur T G,
  mloop mem B maxk cnt d rest cur T G <> LNoMem.
Proof.
  intro H. induction rest as [|nb rest' IH]; intros cur T G; cbn [mloop].
  - destruct (length T <? cnt); [|discriminate]. destruct cur; [discriminate|].
    destruct (tokenize_mblck _ _ _); [|discriminate]. destruct (existsb _ _); [discriminate|].
    destruct (_ =? cnt); discriminate.
  - destruct (length T <? cnt); [|discriminate].
    match goal with |- context [match ?x with [] => LAbort | _ :: _ => _ end] => destruct x; [discriminate|] end.
    destruct (tokenize_mblck _ _ _) as [ws|]; [|discriminate]. destruct (existsb _ _); [discriminate|].
    destruct (negb _); [|apply IH]. destruct nb; [discriminate|]. destruct (N.eqb _ d); [apply IH|].
    destruct (SEGTOK_ARRAY_SIZE <=? length G); [|apply IH].
    pose proof (concat_mem (T ++ ws) G H) as X. destruct (concat_segs _ _ _ _ _); try discriminate.
    + apply IH.
    + congruence.
Qed.

Lemma pass_mem v fl : (forall n t, mem n t = true) -> tm_pass mem B maxk cnt d v <> (fl, TNoMem).
Proof.
  intros H E. unfold tm_pass in E. destruct v as [|b rest]; [discriminate|].
  pose proof (mloop_mem H rest b [] []) as X.
  destruct (mloop mem B maxk cnt d rest b [] []) as [T G| | |]; try discriminate; [|congruence].
  destruct G; [discriminate|]. pose proof (concat_mem T (s :: G) H) as Y.
  injection E as _ E. congruence.
Qed.
End PASS.

(* ------------------------------------------------------------------ tail check *)
Lemma nth_concat B : forall (blks : list bytes) i j, Forall (fun b => length b = B) blks ->
  i < length blks -> j < B -> nth_error (concat blks) (i * B + j) = nth_error (nth i blks []) j.
Proof.
  induction blks as [|b blks IH]; intros i j F Hi Hj; [cbn in Hi; lia|].
  inversion F as [|? ? Lb F']; subst. cbn [concat]. destruct i as [|i].
  - cbn [nth]. rewrite nth_error_app1 by lia. reflexivity.
  - cbn [nth]. rewrite nth_error_app2 by lia. cbn [length] in Hi.
    rewrite <- (IH i j F' ltac:(lia) Hj). f_equal. lia.
Qed.

Lemma last_nth' {A} (l : list A) x : last l x = nth (length l - 1) l x.
Proof.
  induction l as [|a l IH]; [reflexivity|]. destruct l as [|b l]; [reflexivity|].
  change (last (a :: b :: l) x) with (last (b :: l) x). rewrite IH.
  cbn [length]. replace (S (S (length l)) - 1) with (S (length l)) by lia.
  replace (S (length l) - 1) with (length l) by lia. reflexivity.
Qed.

Lemma place_len B n : 0 < B -> 0 < n -> (numblks B n - 1) * B + lastlen B n = n /\ 1 <= lastlen B n <= B.
Proof.
  intros HB Hn. unfold numblks, lastlen. rewrite Nat.add_sub.
  pose proof (Nat.div_mod n B ltac:(lia)) as D. pose proof (Nat.mod_upper_bound n B ltac:(lia)) as U.
  set (m := n / B) in *. set (r := n mod B) in *. clearbody m r.
  assert (E : (n - 1) / B = if 0 <? r then m else m - 1).
  { destruct (Nat.ltb_spec 0 r) as [H|H].
    - symmetry. apply (Nat.div_unique (n - 1) B m (r - 1)); lia.
    - assert (Hq : 1 <= m) by (destruct m; [rewrite Nat.mul_0_r in D; lia|lia]).
      symmetry. apply (Nat.div_unique (n - 1) B (m - 1) (B - 1)); [lia|].
      rewrite Nat.mul_sub_distr_l. nia. }
  rewrite E. clear E. destruct (Nat.ltb_spec 0 r) as [H|H].
  - split; [lia|lia].
  - assert (Hq : 1 <= m) by (destruct m; [rewrite Nat.mul_0_r in D; lia|lia]).
    split; [nia|lia].
Qed.

Lemma check_tail_ok B blks t c1 c2 : 2 <= B -> holds B blks (t ++ [c1; c2]) -> 
  check_tail B (length (t ++ [c1; c2])) blks = Some ((c1 =? CR)%N && (c2 =? LF)%N).
Proof.
  intros HB (F & L & junk & E). set (text := t ++ [c1; c2]) in *.
  assert (Lt : length text = length t + 2) by (unfold text; rewrite app_length; reflexivity).
  destruct (place_len B (length text) ltac:(lia) ltac:(lia)) as (P1 & P2).
  change (length blks = numblks B (length text)) in L.
  assert (N1 : 1 <= numblks B (length text)) by (apply numblks_pos).
  assert (R2 : rd (last blks []) (lastlen B (length text) - 1) = Some c2).
  { unfold rd. rewrite last_nth', <- (nth_concat B) by (auto; lia). rewrite E, L.
    replace ((numblks B (length text) - 1) * B + (lastlen B (length text) - 1)) with (length t + 1) by lia.
    unfold text. rewrite <- app_assoc. rewrite nth_error_app2 by lia.
    replace (length t + 1 - length t) with 1 by lia. reflexivity. }
  unfold check_tail. rewrite R2.
  destruct (N.eqb_spec c2 LF) as [->|Hc2]; cbn [negb]; [|rewrite andb_false_r; reflexivity].
  rewrite andb_true_r.
  destruct (Nat.eqb_spec (lastlen B (length text) - 1) 0) as [H1|H1].
  - assert (R1 : rd (nth (length blks - 2) blks []) (B - 1) = Some c1).
    { unfold rd.
      assert (2 <= numblks B (length text)).
      { destruct (numblks B (length text)) as [|[|m]]; [lia| |lia]. cbn in P1. lia. }
      rewrite <- (nth_concat B) by (auto; lia). rewrite E, L.
      replace ((numblks B (length text) - 2) * B + (B - 1)) with (length t).
      - unfold text. rewrite <- app_assoc. rewrite nth_error_app2 by lia. rewrite Nat.sub_diag. reflexivity.
      - destruct (numblks B (length text)) as [|[|m]]; [lia|lia|].
        replace (S (S m) - 1) with (S m) in P1 by lia. replace (S (S m) - 2) with m by lia.
        cbn [Nat.mul] in P1. lia. }
    rewrite R1. reflexivity.
  - assert (R1 : rd (last blks []) (lastlen B (length text) - 1 - 1) = Some c1).
    { unfold rd. rewrite last_nth', <- (nth_concat B) by (auto; lia). rewrite E, L.
      replace ((numblks B (length text) - 1) * B + (lastlen B (length text) - 1 - 1)) with (length t) by lia.
      unfold text. rewrite <- app_assoc. rewrite nth_error_app2 by lia. rewrite Nat.sub_diag. reflexivity. }
    rewrite R1. reflexivity.
Qed.

Lemma key_no_sp d : forall s w l, fields d s = w :: l -> ~ In SP w -> Forall (fun a => ~ In SP a) l ->
  d <> SP -> ~ In SP s.
Proof.
  induction s as [|x s IH]; intros w l E Hw F Hd H; [destruct H|]. cbn [fields] in E.
  destruct (fields_cons d s) as (w' & l' & E'). rewrite E' in E.
  destruct (N.eqb_spec x d) as [->|Hx].
  - injection E as <- <-. inversion F; subst. destruct H as [H|H]; [congruence|].
    apply (IH w' l'); auto.
  - injection E as <- <-. destruct H as [H|H]; [apply Hw; left; exact H|].
    apply (IH w' l'); auto. intro X; apply Hw; right; exact X.
Qed.

Lemma fields_join1 d : forall s k, fields d s = [k] -> s = k.
Proof.
  induction s as [|x s IH]; intros k E; cbn [fields] in E; [congruence|].
  destruct (fields_cons d s) as (w' & l' & E'). rewrite E' in E.
  destruct (N.eqb x d); [discriminate|]. injection E as <- ->. rewrite <- (IH w' E'). reflexivity.
Qed.
