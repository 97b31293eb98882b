(* The loop over the blocks of a key list: invariant, soundness, completeness, abort. *)
From Verif Require Import Base TokModel TokSpec TokProofs TokBlkProofs.
Open Scope nat_scope.

Lemma nodup_snoc {A} (l : list A) x : NoDup l -> ~ In x l -> NoDup (l ++ [x]).
Proof.
  intros N H. apply (Permutation_NoDup (Permutation_cons_append l x)). constructor; assumption.
Qed.

Lemma app_split_le {A} : forall (a b c e : list A), a ++ b = c ++ e -> length a <= length c ->
  exists x, c = a ++ x /\ b = x ++ e.
Proof.
  induction a as [|u a IH]; intros b c e H L; cbn [app length] in *.
  - exists c. auto.
  - destruct c as [|v c]; cbn [app length] in *; [lia|]. injection H as -> H.
    destruct (IH b c e H ltac:(lia)) as (x & -> & ->). exists x. auto.
Qed.

Section LOOP.
Variables (mem : nat -> list bytes -> bool) (B maxk cnt : nat) (d : N).
Hypothesis HB : maxk + 2 < B.
Hypothesis Hcnt : 0 < cnt.

Definition gp (w : bytes) : Prop := key_ok maxk w.

(* the blocks after the current one *)
Fixpoint tails (rest : list bytes) : Prop :=
  match rest with
  | [] => True
  | b :: r => match r with
              | [] => 1 <= length b <= B
              | _ => length b = B
              end /\ tails r
  end.

Definition place (k : nat) (p cur : bytes) (rest : list bytes) : Prop :=
  (length p = k * B \/ length p = k * B + 1) /\
  match rest with
  | [] => length p + length cur <= (k + 1) * B
  | _ => length p + length cur = (k + 1) * B
  end /\ tails rest.

Definition common (toks : list bytes) (segs : list segtok) : Prop :=
  NoDup (map snd segs) /\ Forall gp toks /\ Forall gp (map fst segs).

Definition lt_all (n : nat) (segs : list segtok) : Prop := Forall (fun j => j < n) (map snd segs).

Inductive Inv (p cur : bytes) (rest : list bytes) (toks : list bytes) (segs : list segtok) : Prop :=
| InvA : forall k, place k p cur rest -> common toks segs -> lt_all (length toks) segs ->
    length toks <= cnt ->
    fields d p = vmap 0 segs toks ++ [[]] ->
    (p = [] \/ exists q, p = q ++ [d] /\ q <> [] /\
        ((length p = k * B /\ cur <> []) \/ length p = k * B + 1)) ->
    (p = [] -> cur <> []) ->
    Inv p cur rest toks segs
| InvB : forall k sg o x c, place k p cur rest -> common toks segs ->
    segs = sg ++ [(o, length toks)] -> lt_all (length toks) sg ->
    length toks < cnt ->
    fields d p = vmap 0 sg toks ++ [o] -> o <> [] ->
    length p = k * B -> cur = x :: c -> x <> d ->
    Inv p cur rest toks segs.

Lemma Inv_common p cur rest toks segs : Inv p cur rest toks segs -> common toks segs.
Proof. destruct 1; assumption. Qed.

Lemma Inv_le p cur rest toks segs : Inv p cur rest toks segs ->
  Forall (fun j => j <= length toks) (map snd segs).
Proof.
  destruct 1 as [k _ _ L|k sg o x c _ _ E L].
  - eapply Forall_impl; [|exact L]. cbn. intros; lia.
  - subst segs. rewrite map_app. apply Forall_app. split; [|repeat constructor].
    eapply Forall_impl; [|exact L]. cbn. intros; lia.
Qed.

Lemma Inv_count p cur rest toks segs : Inv p cur rest toks segs ->
  length (fields d p) = length toks + 1.
Proof.
  destruct 1 as [k _ _ L _ E|k sg o x c _ _ _ L _ E]; rewrite E, app_length, vmap_len; reflexivity.
Qed.

(* after a parse *)
Lemma Inv_parse p cur rest toks segs data ws : Inv p cur rest toks segs ->
  fields d data = ws ->
  fields d (p ++ data) = vmap 0 segs (toks ++ ws) /\ lt_all (length (toks ++ ws)) segs.
Proof.
  intros HI Hw. destruct (fields_app d p data) as (l & o' & h & t & E1 & E2 & E3).
  rewrite Hw in E2. split.
  2:{ pose proof (Inv_le _ _ _ _ _ HI) as L. unfold lt_all. eapply Forall_impl; [|exact L].
      cbn. intros a Ha. rewrite app_length, E2. cbn. lia. }
  rewrite E3. rewrite vmap_app. cbn [plus].
  destruct HI as [k _ _ L _ E _|k sg o x c _ _ Es L _ E _ _ _].
  - rewrite E in E1. apply app_inj_tail in E1 as [<- <-]. cbn [app].
    rewrite E2. f_equal. symmetry. apply (vmap_out segs (length toks) L). lia.
  - rewrite E in E1. apply app_inj_tail in E1 as [<- <-]. rewrite E2, Es.
    rewrite vmap_app_other by (cbn; lia). f_equal. cbn [vmap]. rewrite look_app_new by exact L.
    f_equal. symmetry. apply (vmap_out _ (S (length toks))); [|lia].
    rewrite map_app. apply Forall_app. split; [|repeat constructor].
    eapply Forall_impl; [|exact L]. cbn. intros; lia.
Qed.

Lemma fields_end_d p : fields d (p ++ [d]) = fields d p ++ [[]].
Proof. apply fields_cut. Qed.

Lemma removelast_last_eq {A} (l : list A) x : l <> [] -> l = removelast l ++ [last l x].
Proof. apply app_removelast_last. Qed.

Lemma common_app toks segs ws : common toks segs -> Forall gp ws -> common (toks ++ ws) segs.
Proof.
  intros (A & C & D) F. split; [exact A|]. split; [|exact D]. apply Forall_app. auto.
Qed.

(* the words found in a block are pieces *)
Definition parsed (data : bytes) (toks ws : list bytes) : Prop :=
  fields d data = ws /\ Forall gp ws /\ length toks + length ws <= cnt.

Lemma place_next k p cur nb rest' :
  place k p cur (nb :: rest') -> place (k + 1) (p ++ cur) nb rest' /\ nb <> [] /\
  length (p ++ cur) = (k + 1) * B.
Proof.
  intros (_ & H & T). rewrite app_length. cbn [tails] in T. destruct T as [T1 T2].
  assert (nb <> []) by (intros ->; destruct rest'; cbn in T1; lia).
  split; [|split; [assumption|lia]].
  split; [left; rewrite app_length; lia|]. split; [|exact T2].
  rewrite app_length. destruct rest'; lia.
Qed.

Lemma place_next1 k p cur x nb' rest' :
  place k p cur ((x :: nb') :: rest') -> place (k + 1) (p ++ cur ++ [x]) nb' rest'.
Proof.
  intros H. destruct (place_next _ _ _ _ _ H) as ((_ & H2 & T2) & _ & L).
  rewrite app_length in L. cbn [length] in H2. rewrite app_length in H2.
  split; [right; rewrite !app_length; cbn; lia|]. split; [|exact T2].
  rewrite !app_length. cbn [length]. destruct rest'; lia.
Qed.

Lemma Inv_place p cur rest toks segs : Inv p cur rest toks segs -> exists k, place k p cur rest.
Proof. destruct 1; eauto. Qed.

(* dropped delimiter at the end of the block *)
Lemma next_dropped p c0 nb rest' toks segs ws :
  Inv p (c0 ++ [d]) (nb :: rest') toks segs -> parsed c0 toks ws -> c0 <> [] ->
  Inv (p ++ c0 ++ [d]) nb rest' (toks ++ ws) segs.
Proof.
  intros HI (E & G & L) Hc. destruct (Inv_place _ _ _ _ _ HI) as [k Hp].
  destruct (place_next _ _ _ _ _ Hp) as (Hp2 & Hnb & Hl).
  destruct (Inv_parse _ _ _ _ _ c0 ws HI E) as (Ef & Lt).
  apply (InvA _ _ _ _ _ (k + 1)); auto.
  - apply common_app; [eapply Inv_common; eauto|exact G].
  - rewrite app_length. lia.
  - rewrite app_assoc, fields_end_d, Ef. reflexivity.
  - right. exists (p ++ c0). split; [rewrite app_assoc; reflexivity|].
    split; [intro X; apply app_eq_nil in X as [_ X]; contradiction|]. left. auto.
Qed.

Lemma next_lead p cur nb' rest' toks segs ws :
  Inv p cur ((d :: nb') :: rest') toks segs -> parsed cur toks ws -> cur <> [] ->
  Inv (p ++ cur ++ [d]) nb' rest' (toks ++ ws) segs.
Proof.
  intros HI (E & G & L) Hc. destruct (Inv_place _ _ _ _ _ HI) as [k Hp].
  pose proof (place_next1 _ _ _ _ _ _ Hp) as Hp2.
  destruct (place_next _ _ _ _ _ Hp) as (_ & _ & Hl). rewrite app_length in Hl.
  destruct (Inv_parse _ _ _ _ _ cur ws HI E) as (Ef & Lt).
  apply (InvA _ _ _ _ _ (k + 1)); auto.
  - apply common_app; [eapply Inv_common; eauto|exact G].
  - rewrite app_length. lia.
  - rewrite app_assoc, fields_end_d, Ef. reflexivity.
  - right. exists (p ++ cur). split; [rewrite app_assoc; reflexivity|].
    split; [intro X; apply app_eq_nil in X as [_ X]; contradiction|]. right.
    rewrite !app_length. cbn [length]. lia.
  - intros X. apply app_eq_nil in X as [_ X]. apply app_eq_nil in X as [_ X]. discriminate.
Qed.

(* at least two words in a block that is not the last *)
Lemma two_words p cur nb rest' toks segs ws :
  Inv p cur (nb :: rest') toks segs -> fields d cur = ws -> Forall gp ws -> 2 <= length ws.
Proof.
  intros HI E G. destruct (Inv_place _ _ _ _ _ HI) as (k & H0 & H1 & _).
  destruct (fields_cons d cur) as (h & t & Eh). subst ws. rewrite Eh in *.
  destruct t as [|h2 t]; [|cbn; lia].
  exfalso. inversion G as [|? ? G0 _]; subst. destruct G0 as (_ & _ & G1).
  assert (length cur = length h).
  { clear - Eh. revert h Eh. induction cur as [|x cur IH]; intros h Eh; cbn [fields] in Eh.
    - injection Eh as <-. reflexivity.
    - destruct (N.eqb x d).
      + destruct (fields_cons d cur) as (a & l & Ea). rewrite Ea in Eh. discriminate.
      + destruct (fields_cons d cur) as (a & l & Ea). rewrite Ea in Eh.
        injection Eh as <- ->. cbn. f_equal. apply IH. exact Ea. }
  nia.
Qed.

Lemma vmap_snoc n segs l x : lt_all n segs -> length l = n ->
  vmap 0 segs (l ++ [x]) = vmap 0 segs l ++ [x].
Proof.
  intros F E. rewrite vmap_app. cbn [plus]. f_equal. rewrite E. apply (vmap_out segs n F). lia.
Qed.

Lemma next_seg p cur x nb' rest' toks segs ws :
  Inv p cur ((x :: nb') :: rest') toks segs -> parsed cur toks ws -> x <> d ->
  Inv (p ++ cur) (x :: nb') rest' (removelast (toks ++ ws))
      (segs ++ [(last (toks ++ ws) [], length (toks ++ ws) - 1)]).
Proof.
  intros HI (E & G & L) Hx. pose proof (two_words _ _ _ _ _ _ _ HI E G) as L2.
  destruct (Inv_place _ _ _ _ _ HI) as [k Hp].
  destruct (place_next _ _ _ _ _ Hp) as (Hp2 & Hnb & Hl).
  destruct (Inv_parse _ _ _ _ _ cur ws HI E) as (Ef & Lt).
  pose proof (Inv_le _ _ _ _ _ HI) as Le. pose proof (Inv_common _ _ _ _ _ HI) as C.
  set (T := toks ++ ws) in *.
  assert (LT : length T = length toks + length ws) by (unfold T; apply app_length).
  assert (Tn : T <> []) by (intro X; rewrite X in LT; cbn in LT; lia).
  pose proof (removelast_last_eq T [] Tn) as ET.
  set (T1 := removelast T) in *. set (y := last T []) in *.
  assert (L1 : length T1 = length T - 1) by (rewrite ET, app_length; cbn; lia).
  assert (GT : Forall gp T) by (apply Forall_app; split; [apply C|exact G]).
  rewrite ET in GT. apply Forall_app in GT as [GT1 Gy]. inversion Gy as [|? ? Gy' _]; subst.
  assert (LtA : lt_all (length T1) segs).
  { unfold lt_all. eapply Forall_impl; [|exact Le]. cbn. intros a Ha. lia. }
  apply (InvB _ _ _ _ _ (k + 1) segs y x nb'); auto; try lia.
  - destruct C as (C1 & C2 & C3). split; [|split; [exact GT1|]].
    + rewrite map_app. cbn [map snd]. apply nodup_snoc.
      * exact C1.
      * intro X. unfold lt_all in LtA. rewrite Forall_forall in LtA. specialize (LtA _ X). lia.
    + rewrite map_app. apply Forall_app. split; [exact C3|]. constructor; [exact Gy'|constructor].
  - do 3 f_equal. lia.
  - rewrite Ef. rewrite ET. apply (vmap_snoc (length T1)); auto.
  - apply Gy'.
Qed.

Lemma vmap_nil l : forall k, vmap k [] l = l.
Proof. induction l as [|w l IH]; intro k; cbn [vmap look app]; [reflexivity|]. rewrite IH. reflexivity. Qed.

(* the same with the pieces joined on the way *)
Lemma next_seg_join p cur x nb' rest' toks segs ws t :
  Inv p cur ((x :: nb') :: rest') toks segs -> parsed cur toks ws -> x <> d ->
  t = vmap 0 segs (toks ++ ws) -> Forall (fun w => length w <= maxk) t ->
  Inv (p ++ cur) (x :: nb') rest' (removelast t) [(last t [], length t - 1)].
Proof.
  intros HI HP Hx Et Ft. pose proof (next_seg _ _ _ _ _ _ _ _ HI HP Hx) as HN.
  destruct HN as [k Hp C L _ E Hd _|k sg o x0 c Hp C Es L Lc E Ho Hk Ec Hx0].
  { exfalso. unfold lt_all in L. rewrite map_app in L. apply Forall_app in L as [_ L].
    inversion L as [|? ? L0 _]; subst. cbn in L0.
    set (T := toks ++ ws) in *.
    assert (Tn : T <> []).
    { unfold T. destruct HP as (E1 & _). destruct (fields_cons d cur) as (h & t1 & Eh).
      rewrite <- E1, Eh. destruct toks; discriminate. }
    rewrite (removelast_last_eq T [] Tn) in L0 at 1. rewrite app_length in L0. cbn in L0. lia. }
  apply app_inj_tail in Es as [<- Es]. injection Es as Eo El.
  destruct HP as (E1 & G & Lcn).
  destruct (Inv_parse _ _ _ _ _ cur ws HI E1) as (Ef & Lt).
  set (T := toks ++ ws) in *.
  assert (Tn : T <> []).
  { unfold T. destruct (fields_cons d cur) as (h & t1 & Eh).
    rewrite <- E1, Eh. destruct toks; discriminate. }
  pose proof (removelast_last_eq T [] Tn) as ET.
  assert (Et2 : t = vmap 0 segs (removelast T) ++ [last T []]).
  { rewrite Et, ET at 1. apply (vmap_snoc (length (removelast T))); auto. }
  assert (R1 : removelast t = vmap 0 segs (removelast T)).
  { rewrite Et2. apply removelast_last. }
  assert (R2 : last t [] = last T []) by (rewrite Et2; apply last_last).
  assert (R3 : length t - 1 = length (removelast T)).
  { rewrite Et2, app_length, vmap_len. cbn. lia. }
  rewrite R2, R3. rewrite R1.
  apply (InvB _ _ _ _ _ k [] o x0 c); rewrite ?vmap_len; auto; [| |constructor|].
  - split; [repeat constructor; intros []|]. split.
    + (* every word is a piece *)
      apply Forall_forall. intros w Hw. split; [|split].
      * apply In_nth_error in Hw as [i Hi]. rewrite vmap_nth in Hi. unfold bytes in *.
        destruct (nth_error (removelast T) i) as [u|] eqn:Eu; [|discriminate].
        injection Hi as <-. destruct C as (_ & C2 & _). rewrite Forall_forall in C2.
        apply nth_error_In in Eu. destruct (C2 _ Eu) as (Hn & _). intro X.
        apply app_eq_nil in X as [_ X]. contradiction.
      * apply In_nth_error in Hw as [i Hi]. rewrite vmap_nth in Hi. unfold bytes in *.
        destruct (nth_error (removelast T) i) as [u|] eqn:Eu; [|discriminate].
        injection Hi as <-. destruct C as (_ & C2 & C3). rewrite Forall_forall in C2, C3.
        apply nth_error_In in Eu. destruct (C2 _ Eu) as (_ & Hs & _). intro X.
        apply in_app_or in X as [X|X]; [|contradiction].
        destruct (in_dec Nat.eq_dec i (map snd segs)) as [Hin|Hin].
        -- apply in_map_iff in Hin as [[v i'] [Ei Hin]]. cbn in Ei. subst i'.
           destruct (Inv_common _ _ _ _ _ HI) as (Nd & _ & _).
           rewrite (look_in v i segs Nd Hin) in X.
           destruct (C3 v) as (_ & Hv & _).
           ++ rewrite map_app. apply in_or_app. left. apply (in_map fst) in Hin. exact Hin.
           ++ contradiction.
        -- rewrite (look_notin i segs Hin) in X. destruct X.
      * rewrite Forall_forall in Ft. apply Ft. rewrite Et2. apply in_or_app. left. exact Hw.
    + constructor; [|constructor]. destruct C as (_ & _ & C3). rewrite map_app in C3.
      apply Forall_app in C3 as [_ C3]. inversion C3; assumption.
  - cbn [app]. rewrite <- Eo. reflexivity.
  - rewrite E, vmap_nil. reflexivity.
Qed.

Lemma vmap_pieces toks segs : common toks segs -> Forall piece_ok (vmap 0 segs toks).
Proof.
  intros (Nd & C2 & C3). rewrite Forall_forall in C2, C3.
  apply Forall_forall. intros w Hw.
  apply In_nth_error in Hw as [i Hi]. rewrite vmap_nth in Hi. unfold bytes in *.
  destruct (nth_error toks i) as [u|] eqn:Eu; [|discriminate].
  injection Hi as <-. apply nth_error_In in Eu. destruct (C2 _ Eu) as (Hn & Hs & _). split.
  - intro X. apply app_eq_nil in X as [_ X]. contradiction.
  - intro X. apply in_app_or in X as [X|X]; [|contradiction].
    destruct (in_dec Nat.eq_dec i (map snd segs)) as [Hin|Hin].
    + apply in_map_iff in Hin as [[v i'] [Ei Hin]]. cbn in Ei. subst i'.
      cbn [plus] in X. rewrite (look_in v i segs Nd Hin) in X.
      destruct (C3 v) as (_ & Hv & _); [apply (in_map fst) in Hin; exact Hin|contradiction].
    + cbn [plus] in X. rewrite (look_notin i segs Hin) in X. destruct X.
Qed.

Lemma mb_parsed data toks ws : length toks < cnt ->
  (tokenize_mblck data (cnt - length toks) d = Some ws /\
   existsb (fun w => maxk <? length w) ws = false) <-> parsed data toks ws.
Proof.
  intro Hl. rewrite mblck_iff. unfold parsed, gp, key_ok. split.
  - intros ((E & L & F) & X). split; [auto|]. split; [|lia].
    rewrite Forall_forall in *. intros w Hw. destruct (F w Hw) as [F1 F2].
    split; [exact F1|]. split; [exact F2|].
    destruct (le_lt_dec (length w) maxk) as [|Hg]; [assumption|exfalso].
    apply not_true_iff_false in X. apply X. apply existsb_exists. exists w.
    split; [exact Hw|]. apply Nat.ltb_lt. exact Hg.
  - intros (E & F & L). split; [split; [auto|split; [lia|]]|].
    + eapply Forall_impl; [|exact F]. intros w (F1 & F2 & _). split; assumption.
    + apply not_true_iff_false. intro X. apply existsb_exists in X as (w & Hw & X).
      apply Nat.ltb_lt in X. rewrite Forall_forall in F. destruct (F w Hw) as (_ & _ & F3). lia.
Qed.

(* one turn of the loop, in terms of [parsed] *)
Lemma mloop_last cur toks segs : length toks < cnt ->
  mloop mem B maxk cnt d [] cur toks segs =
  match cur with
  | [] => LAbort
  | _ => match tokenize_mblck cur (cnt - length toks) d with
         | None => LBad
         | Some ws => if existsb (fun w => maxk <? length w) ws then LBad
                      else if length (toks ++ ws) =? cnt then LOk (toks ++ ws) segs else LBad
         end
  end.
Proof. intro H. cbn [mloop]. rewrite (proj2 (Nat.ltb_lt _ _) H). reflexivity. Qed.

Lemma mloop_stop rest cur toks segs : cnt <= length toks ->
  mloop mem B maxk cnt d rest cur toks segs = LOk toks segs.
Proof.
  intro H. destruct rest; cbn [mloop]; rewrite (proj2 (Nat.ltb_ge _ _) H); reflexivity.
Qed.

Lemma mloop_drop c0 nb rest' toks segs : length toks < cnt -> c0 <> [] ->
  mloop mem B maxk cnt d (nb :: rest') (c0 ++ [d]) toks segs =
  match tokenize_mblck c0 (cnt - length toks) d with
  | None => LBad
  | Some ws => if existsb (fun w => maxk <? length w) ws then LBad
               else mloop mem B maxk cnt d rest' nb (toks ++ ws) segs
  end.
Proof.
  intros H Hc. cbn [mloop]. rewrite (proj2 (Nat.ltb_lt _ _) H).
  rewrite last_last, N.eqb_refl, removelast_last. cbn [negb].
  destruct c0; [congruence|]. reflexivity.
Qed.

Lemma mloop_keep cur x nb' rest' toks segs : length toks < cnt -> cur <> [] -> last cur SP <> d ->
  mloop mem B maxk cnt d ((x :: nb') :: rest') cur toks segs =
  match tokenize_mblck cur (cnt - length toks) d with
  | None => LBad
  | Some ws =>
      if existsb (fun w => maxk <? length w) ws then LBad
      else if N.eqb x d then mloop mem B maxk cnt d rest' nb' (toks ++ ws) segs
      else if SEGTOK_ARRAY_SIZE <=? length segs
           then match concat_segs mem B maxk (toks ++ ws) segs with
                | TOk t => mloop mem B maxk cnt d rest' (x :: nb') (removelast t)
                                 [(last t [], length t - 1)]
                | TBad => LBad
                | TNoMem => LNoMem
                | TAbort => LAbort
                end
           else mloop mem B maxk cnt d rest' (x :: nb') (removelast (toks ++ ws))
                      (segs ++ [(last (toks ++ ws) [], length (toks ++ ws) - 1)])
  end.
Proof.
  intros H Hc Hl. cbn [mloop]. rewrite (proj2 (Nat.ltb_lt _ _) H).
  destruct (N.eqb_spec (last cur SP) d) as [E|_]; [contradiction|]. cbn [negb].
  destruct cur; [congruence|]. reflexivity.
Qed.

(* the two shapes of a block that is not the last one *)
Lemma block_shape p cur nb rest' toks segs : Inv p cur (nb :: rest') toks segs ->
  exists x nb', nb = x :: nb' /\ cur <> [] /\
  ((exists c0, cur = c0 ++ [d] /\ c0 <> []) \/ last cur SP <> d).
Proof.
  intro HI. destruct (Inv_place _ _ _ _ _ HI) as (k & Hp).
  destruct (place_next _ _ _ _ _ Hp) as (_ & Hnb & Hl). rewrite app_length in Hl.
  destruct Hp as (H0 & _). destruct nb as [|x nb']; [congruence|].
  assert (Lc : 2 <= length cur) by nia.
  assert (Cn : cur <> []) by (intros ->; cbn in Lc; lia).
  exists x, nb'. split; [reflexivity|]. split; [exact Cn|].
  destruct (N.eq_dec (last cur SP) d) as [E|E]; [left|right; exact E].
  exists (removelast cur). pose proof (app_removelast_last SP Cn) as X. rewrite E in X.
  split; [exact X|]. intro Y. rewrite Y in X. rewrite X in Lc. cbn in Lc. lia.
Qed.

(* joining in the middle *)
Lemma concat_mid p cur nb rest' toks segs ws : Inv p cur (nb :: rest') toks segs ->
  parsed cur toks ws ->
  exists n, concat_segs mem B maxk (toks ++ ws) segs =
    if forallb (fun w => length w <=? maxk) (vmap 0 segs (toks ++ ws))
    then (if mem n (toks ++ ws) then TOk (vmap 0 segs (toks ++ ws)) else TNoMem) else TBad.
Proof.
  intros HI (E & G & L). destruct (Inv_parse _ _ _ _ _ cur ws HI E) as (_ & Lt).
  destruct (Inv_common _ _ _ _ _ HI) as (C1 & C2 & C3).
  apply concat_ok; [lia|exact C1|exact Lt|].
  apply Forall_app. split; eapply Forall_impl; try exact C2; try exact G; intros w (_ & _ & X); exact X.
Qed.

Definition stops (s : bytes) (T : list bytes) (G : list segtok) : Prop :=
  exists q, (q = s \/ boundary_part d B s q) /\ fields d q = vmap 0 G T /\ length T = cnt /\
            common T G /\ lt_all (length T) G.

Definition aborts (s : bytes) : Prop :=
  exists q, s = q ++ [d] /\ length q mod B = 0 /\ q <> [] /\ length (fields d q) < cnt /\
            Forall piece_ok (fields d q).

Lemma modB0 k n : n = k * B -> n mod B = 0.
Proof. intros ->. apply Nat.mod_mul. lia. Qed.

Lemma sound rest : forall p cur toks segs,
  Inv p cur rest toks segs ->
  match mloop mem B maxk cnt d rest cur toks segs with
  | LOk T G => stops (p ++ cur ++ concat rest) T G
  | LAbort => aborts (p ++ cur ++ concat rest)
  | _ => True
  end.
Proof.
  induction rest as [|nb rest' IH]; intros p cur toks segs HI.
  all: destruct (le_lt_dec cnt (length toks)) as [Hge|Hlt].
  1,3: rewrite mloop_stop by exact Hge;
    (destruct HI as [k Hp C L Lc E Hd Hc|k sg o x c Hp C Es L Lc E Ho Hk Ec Hx0]; [|lia]);
    (destruct Hd as [->|(q & Ep & Hq & Hd)];
     [cbn [fields] in E; destruct toks; [cbn in Hge; lia|];
      apply (f_equal (@length _)) in E; rewrite app_length, vmap_len in E; cbn in E; lia|]);
    exists q; rewrite Ep, fields_end_d in E; apply app_inj_tail in E as [E _];
    (split; [|split; [exact E|split; [lia|split; assumption]]]);
    right; rewrite Ep in Hd; rewrite app_length in Hd; cbn [length] in Hd;
    (eexists; split; [rewrite Ep, <- app_assoc; reflexivity|]);
    (destruct Hd as [[Hd Hc']|Hd];
     [right; split; [apply (modB0 k); exact Hd|destruct cur; [congruence|discriminate]]
     |left; split; [apply (modB0 k); lia|exact Hq]]).
  - rewrite mloop_last by exact Hlt. cbn [concat]. rewrite app_nil_r.
    destruct cur as [|c1 cur1] eqn:Ecur.
    + destruct HI as [k Hp C L Lc E Hd Hc|k sg o x c Hp C Es L Lc E Ho Hk Ec Hx0]; [|discriminate].
      destruct Hd as [->|(q & Ep & Hq & Hd)]; [exfalso; apply Hc; reflexivity|].
      rewrite app_nil_r. exists q. split; [exact Ep|].
      rewrite Ep in Hd. rewrite app_length in Hd. cbn [length] in Hd.
      destruct Hd as [[_ X]|Hd]; [congruence|].
      rewrite Ep, fields_end_d in E. apply app_inj_tail in E as [E _].
      split; [apply (modB0 k); lia|]. split; [exact Hq|].
      rewrite E, vmap_len. split; [exact Hlt|]. apply vmap_pieces. exact C.
    + rewrite <- Ecur in *. destruct (tokenize_mblck cur (cnt - length toks) d) as [ws|] eqn:Em; [|exact I].
      destruct (existsb (fun w => maxk <? length w) ws) eqn:Ex; [exact I|].
      destruct (Nat.eqb_spec (length (toks ++ ws)) cnt) as [El|El]; [|exact I].
      pose proof (proj1 (mb_parsed cur toks ws Hlt) (conj Em Ex)) as HP. destruct HP as (E & G & Lw).
      destruct (Inv_parse _ _ _ _ _ cur ws HI E) as (Ef & Lt).
      exists (p ++ cur). split; [left; reflexivity|]. split; [exact Ef|]. split; [exact El|].
      split; [|exact Lt]. apply common_app; [eapply Inv_common; eauto|exact G].
  - destruct (block_shape _ _ _ _ _ _ HI) as (x & nb' & -> & Cn & Sh).
    cbn [concat].
    destruct Sh as [(c0 & -> & Hc0)|Hlast].
    + rewrite mloop_drop by assumption.
      destruct (tokenize_mblck c0 (cnt - length toks) d) as [ws|] eqn:Em; [|exact I].
      destruct (existsb (fun w => maxk <? length w) ws) eqn:Ex; [exact I|].
      pose proof (proj1 (mb_parsed c0 toks ws Hlt) (conj Em Ex)) as HP.
      pose proof (next_dropped _ _ _ _ _ _ _ HI HP Hc0) as HN.
      specialize (IH _ _ _ _ HN). rewrite <- !app_assoc in IH. rewrite <- !app_assoc. exact IH.
    + rewrite mloop_keep by assumption.
      destruct (tokenize_mblck cur (cnt - length toks) d) as [ws|] eqn:Em; [|exact I].
      destruct (existsb (fun w => maxk <? length w) ws) eqn:Ex; [exact I|].
      pose proof (proj1 (mb_parsed cur toks ws Hlt) (conj Em Ex)) as HP.
      destruct (N.eqb_spec x d) as [->|Hx].
      * pose proof (next_lead _ _ _ _ _ _ _ HI HP Cn) as HN. specialize (IH _ _ _ _ HN).
        rewrite <- !app_assoc in IH. exact IH.
      * destruct (SEGTOK_ARRAY_SIZE <=? length segs).
        -- destruct (concat_mid _ _ _ _ _ _ _ HI HP) as [n ->].
           destruct (forallb _ _) eqn:Ef; [|exact I]. destruct (mem n (toks ++ ws)); [|exact I].
           assert (HN := next_seg_join _ _ _ _ _ _ _ _ _ HI HP Hx eq_refl).
           specialize (IH _ _ _ _ (HN ltac:(apply Forall_forall; intros w Hw;
              rewrite forallb_forall in Ef; apply Nat.leb_le; apply Ef; exact Hw))).
           rewrite <- app_assoc in IH. exact IH.
        -- pose proof (next_seg _ _ _ _ _ _ _ _ HI HP Hx) as HN. specialize (IH _ _ _ _ HN).
           rewrite <- app_assoc in IH. exact IH.
Qed.

(* ---- completeness *)
Definition ztail (q z : bytes) : Prop :=
  z = [] \/ exists r, z = d :: r /\ (length q mod B = 0 \/ ((length q + 1) mod B = 0 /\ r <> [])).

Lemma mod_mult n : n mod B = 0 -> exists m, n = m * B.
Proof. intro H. exists (n / B). rewrite (Nat.div_mod n B) at 1 by lia. lia. Qed.

Lemma between k m : k * B < m * B -> m * B < (k + 1) * B -> False.
Proof.
  intros H1 H2. apply Nat.mul_lt_mono_pos_r in H1; [|lia].
  apply Nat.mul_lt_mono_pos_r in H2; [|lia]. lia.
Qed.

Lemma not_here p cur rest toks segs n K z : Inv p cur rest toks segs ->
  key_list d n maxk p K -> cur ++ concat rest = z -> (z = [] \/ exists r, z = d :: r) -> False.
Proof.
  intros HI (E & _ & F) Ez Hz.
  destruct HI as [k Hp C L Lc Ef Hd Hc|k sg o x c Hp C Es L Lc Ef Ho Hk Ec Hx0].
  - rewrite Ef in E. subst K. apply Forall_app in F as [_ F]. inversion F as [|? ? (X & _) _].
    congruence.
  - rewrite Ec in Ez. cbn [app] in Ez. destruct Hz as [->|(r & ->)]; [discriminate|].
    injection Ez as X _. contradiction.
Qed.

Lemma fields_prefix a y n K l o :
  key_list d n maxk (a ++ y) K -> fields d a = l ++ [o] ->
  Forall gp l /\ ~ In SP o /\ length o <= maxk /\ length l + 1 <= n /\
  ((y = [] \/ exists r, y = d :: r) -> gp o).
Proof.
  intros (E & L & F) Ea. destruct (fields_app d a y) as (l' & o' & h & t & E1 & E2 & E3).
  rewrite Ea in E1. apply app_inj_tail in E1 as [<- <-]. rewrite E3 in E. subst K.
  apply Forall_app in F as [F1 F2]. inversion F2 as [|? ? (G1 & G2 & G3) _]; subst.
  rewrite app_length in G3. split; [exact F1|].
  split; [intro X; apply G2; apply in_or_app; auto|]. split; [lia|].
  rewrite app_length. cbn [length]. split; [lia|].
  intro Hy. assert (h = []).
  { destruct Hy as [->|(r & ->)]; cbn [fields] in E2; [injection E2; auto|].
    rewrite N.eqb_refl in E2. injection E2; auto. }
  subst h. rewrite app_nil_r in *. split; [exact G1|split; [exact G2|lia]].
Qed.

Lemma fields_last_nil a : forall l, fields d a = l ++ [[]] -> a = [] \/ last a SP = d.
Proof.
  induction a as [|x a IH]; intros l E; [auto|]. right. cbn [fields] in E.
  destruct a as [|y a].
  - cbn [fields] in E. cbn [last]. destruct (N.eqb_spec x d) as [->|]; [reflexivity|].
    exfalso. destruct l as [|w l]; [discriminate|]. destruct l; discriminate.
  - change (last (x :: y :: a) SP) with (last (y :: a) SP).
    destruct (N.eqb_spec x d) as [->|].
    + destruct l as [|w l]; [destruct (fields_cons d (y :: a)) as (h & t & X); rewrite X in E; discriminate|].
      injection E as <- E. destruct (IH l E) as [X|X]; [discriminate|exact X].
    + destruct (fields_cons d (y :: a)) as (h & t & X). rewrite X in E.
      destruct l as [|w l]; [discriminate|]. cbn [app] in E. injection E as E1 E2. subst t.
      destruct (IH (h :: l)) as [Y|Y]; [rewrite X; reflexivity|discriminate|exact Y].
Qed.

(* the words of a complete block of a good text *)
Lemma good_parse p cur rest toks segs data y n K :
  Inv p cur rest toks segs -> key_list d n maxk (p ++ data ++ y) K -> n <= cnt ->
  data <> [] -> (exists u, cur = data ++ u) ->
  (last data SP <> d \/ y = [] \/ exists r, y = d :: r) ->
  parsed data toks (fields d data).
Proof.
  intros HI HK Hn Dn (u & Ecur) Hy. rewrite app_assoc in HK.
  destruct (Inv_parse _ _ _ _ _ data (fields d data) HI eq_refl) as (Ef & _).
  destruct (fields_app d p data) as (l0 & o0 & h & t & E1 & E2 & E3).
  (* split off the last field *)
  assert (Hsp : exists l o, fields d (p ++ data) = l ++ [o]).
  { destruct (fields_cons d (p ++ data)) as (a & b & X).
    exists (removelast (fields d (p ++ data))), (last (fields d (p ++ data)) []).
    apply app_removelast_last. rewrite X. discriminate. }
  destruct Hsp as (l & o & El).
  destruct (fields_prefix _ _ _ _ _ _ HK El) as (Gl & So & Lo & Cl & Go).
  assert (Gp : gp o).
  { split; [|split; assumption]. destruct Hy as [Hd|Hy].
    - intros ->. destruct (fields_last_nil _ _ El) as [X|X].
      + apply app_eq_nil in X as [_ X]. contradiction.
      + apply Hd. rewrite <- X. destruct data as [|d1 data1]; [congruence|].
        rewrite (app_removelast_last SP (l := d1 :: data1)) at 2 by discriminate.
        rewrite app_assoc, last_last. reflexivity.
    - apply Go. exact Hy. }
  assert (GA : Forall gp (fields d (p ++ data))) by (rewrite El; apply Forall_app; auto).
  assert (Cn : length (fields d (p ++ data)) <= cnt) by (rewrite El, app_length; cbn; lia).
  rewrite Ef, vmap_len, app_length in Cn.
  split; [reflexivity|]. split; [|exact Cn].
  rewrite E3 in GA. apply Forall_app in GA as [_ GA]. inversion GA as [|? ? (A1 & A2 & A3) At]; subst.
  rewrite E2. constructor; [|exact At].
  rewrite app_length in A3.
  split; [|split; [intro X; apply A2; apply in_or_app; auto|lia]].
  destruct HI as [k Hp C L Lc Ep Hd Hc|k sg oo x c Hp C Es L Lc Ep Ho Hk Ec Hx0].
  - rewrite Ep in E1. apply app_inj_tail in E1 as [_ <-]. exact A1.
  - destruct data as [|d1 data1]; [congruence|]. cbn [app] in Ec. injection Ec as <- _.
    cbn [fields] in E2. destruct (N.eqb_spec d1 d); [contradiction|].
    destruct (fields d data1); injection E2 as <- _; discriminate.
Qed.

Definition target (n : nat) (q z : bytes) : Prop :=
  (n = cnt /\ (z = [] \/ exists r, z = d :: r /\
       ((length q mod B = 0 /\ q <> []) \/ ((length q + 1) mod B = 0 /\ r <> [])))) \/
  (n < cnt /\ z = [d] /\ length q mod B = 0 /\ q <> []).

Lemma target_ztail n q z : target n q z -> ztail q z.
Proof.
  intros [[_ [->|(r & -> & [[X _]|[X Y]])]]|(_ & -> & X & _)].
  - left; reflexivity.
  - right. exists r. auto.
  - right. exists r. auto.
  - right. exists []. auto.
Qed.

Lemma target_le n q z : target n q z -> n <= cnt.
Proof. intros [[-> _]|[H _]]; lia. Qed.

Definition outcome (n : nat) (K : list bytes) (r : lres) : Prop :=
  match r with
  | LOk T G => n = cnt /\ vmap 0 G T = K /\ common T G /\ lt_all (length T) G
  | LAbort => n < cnt
  | LNoMem => exists a t, mem a t = false
  | LBad => False
  end.

Lemma complete rest : forall p cur toks segs q z n K,
  Inv p cur rest toks segs -> p ++ cur ++ concat rest = q ++ z ->
  key_list d n maxk q K -> target n q z ->
  outcome n K (mloop mem B maxk cnt d rest cur toks segs).
Proof.
  induction rest as [|nb rest' IH]; intros p cur toks segs q z n K HI Es HK HT.
  all: pose proof (target_ztail _ _ _ HT) as Hz; pose proof (target_le _ _ _ HT) as Hn.
  all: destruct (le_lt_dec cnt (length toks)) as [Hge|Hlt].
  (* enough words at the top of the loop *)
  1,3: rewrite mloop_stop by exact Hge;
    (destruct HI as [k Hp C L Lc E Hd Hc|k sg o x c Hp C Eg L Lc E Ho Hk Ec Hx0]; [|lia]);
    (destruct Hd as [->|(q0 & Ep & Hq & Hd)];
     [cbn [fields] in E; destruct toks; [cbn in Hge; lia|];
      apply (f_equal (@length _)) in E; rewrite app_length, vmap_len in E; cbn in E; lia|]);
    rewrite Ep, fields_end_d in E; apply app_inj_tail in E as [E _];
    rewrite Ep in Es; rewrite <- app_assoc in Es; cbn [app] in Es;
    (assert (Eq : q = q0);
     [destruct HK as (HK1 & HK2 & HK3);
      destruct (lt_eq_lt_dec (length q) (length q0)) as [[Hl|Hl]|Hl];
      [ (* shorter *)
        symmetry in Es; destruct (app_split_le _ _ _ _ Es ltac:(lia)) as (x & Eq0 & Ez);
        destruct Hz as [->|(r & -> & _)];
        [destruct x; [rewrite app_nil_r in Eq0; subst; lia|discriminate]|];
        (destruct x as [|x0 x]; [rewrite app_nil_r in Eq0; subst; lia|]);
        injection Ez as <- Ez;
        rewrite Eq0, fields_cut in E; apply (f_equal (@length _)) in E;
        rewrite app_length, vmap_len, HK1 in E;
        destruct (fields_cons d x) as (a & b & X); rewrite X in E; cbn [length] in E;
        destruct HT as [[-> _]|(_ & HT & _)]; [lia|injection HT as ->; destruct x; discriminate]
      | symmetry in Es; destruct (app_split_le _ _ _ _ Es ltac:(lia)) as (x & Eq0 & Ez);
        destruct x; [rewrite app_nil_r in Eq0; auto|];
        rewrite Eq0, app_length in Hl; cbn in Hl; lia
      | destruct (app_split_le _ _ _ _ Es ltac:(lia)) as (x & Eq0 & Ez);
        destruct x as [|x0 x]; [rewrite app_nil_r in Eq0; subst; lia|];
        injection Ez as <- Ez; rewrite Eq0, fields_cut, E in HK1;
        apply (f_equal (@length _)) in HK1; rewrite app_length, vmap_len in HK1;
        destruct (fields_cons d x) as (a & b & X); rewrite X in HK1; cbn [length] in HK1; lia ]|]);
    subst q0; destruct HK as (HK1 & HK2 & _); rewrite E in HK1;
    assert (Hnc : n = cnt) by (rewrite <- HK2, <- HK1, vmap_len; lia);
    split; [exact Hnc|split; [exact HK1|split; assumption]].
  (* the last block *)
  - cbn [concat] in Es. rewrite app_nil_r in Es.
    destruct (le_lt_dec (length p) (length q)) as [Hle|Hgt].
    + destruct (app_split_le _ _ _ _ Es Hle) as (x & Eq & Ex).
      assert (Hpz : z = []).
      { destruct Hz as [Hz|(r & Hz & Hm)]; [exact Hz|exfalso].
        destruct (Inv_place _ _ _ _ _ HI) as (k & H0 & H1 & _).
        assert (Lq : length q = length p + length x) by (rewrite Eq; apply app_length).
        assert (Lx : length cur = length x + 1 + length r)
          by (rewrite Ex, Hz, app_length; cbn; lia).
        destruct Hm as [Hm|[Hm Hr]].
        - destruct (mod_mult _ Hm) as [m Em].
          assert (x = []).
          { destruct x; [reflexivity|]. exfalso. cbn [length] in *. apply (between k m); lia. }
          subst x. rewrite app_nil_r in Eq. subst q. cbn [app] in Ex.
          apply (not_here p cur [] toks segs n K z HI HK).
          + cbn [concat]. rewrite app_nil_r. exact Ex.
          + right; eauto.
        - destruct (mod_mult _ Hm) as [m Em].
          assert (length r <> 0) by (destruct r; [congruence|discriminate]).
          apply (between k m); lia. }
      subst z. rewrite app_nil_r in Ex. subst x.
      rewrite mloop_last by exact Hlt.
      destruct cur as [|c1 cur1] eqn:Ecur.
      { exfalso. rewrite app_nil_r in Eq. subst q.
        apply (not_here p [] [] toks segs n K [] HI HK eq_refl). left; reflexivity. }
      rewrite <- Ecur in *.
      assert (HP : parsed cur toks (fields d cur)).
      { apply (good_parse p cur [] toks segs cur [] n K HI); auto.
        - rewrite app_nil_r. rewrite <- Eq. exact HK.
        - rewrite Ecur; discriminate.
        - exists []. rewrite app_nil_r. reflexivity. }
      destruct (proj2 (mb_parsed cur toks _ Hlt) HP) as [-> ->].
      destruct (Inv_parse _ _ _ _ _ cur (fields d cur) HI eq_refl) as (Ef & Lt).
      destruct HK as (HK1 & HK2 & _). rewrite Eq, Ef in HK1.
      assert (Ln : length (toks ++ fields d cur) = n) by (rewrite <- HK2, <- HK1, vmap_len; reflexivity).
      destruct HT as [[Hnc _]|(_ & HT & _)]; [|discriminate].
      rewrite Ln, Hnc, Nat.eqb_refl. split; [reflexivity|]. split; [exact HK1|].
      split; [|exact Lt]. apply common_app; [eapply Inv_common; eauto|apply HP].
    + (* q ends before p: the lone delimiter *)
      symmetry in Es. destruct (app_split_le _ _ _ _ Es ltac:(lia)) as (x & Eq & Ex).
      destruct x as [|x0 x]; [rewrite app_nil_r in Eq; subst; lia|].
      destruct Hz as [->|(r & -> & _)]; [discriminate|]. injection Ex as <- Ex.
      destruct HK as (HK1 & HK2 & _).
      assert (Hc : length toks + 1 >= n + 1).
      { rewrite <- (Inv_count _ _ _ _ _ HI). rewrite Eq, fields_cut, app_length, HK1, HK2.
        destruct (fields_cons d x) as (a & b & ->). cbn. lia. }
      destruct HT as [[-> _]|(Hnc & HT & _)]; [lia|]. injection HT as ->.
      destruct x; [|discriminate]. destruct cur; [|discriminate].
      rewrite mloop_last by exact Hlt. exact Hnc.
  (* another block *)
  - destruct (block_shape _ _ _ _ _ _ HI) as (x0 & nb' & -> & Cn & Sh).
    destruct (le_lt_dec (length p) (length q)) as [Hle|Hgt].
    2:{ exfalso.
      symmetry in Es. destruct (app_split_le _ _ _ _ Es ltac:(lia)) as (x & Eq & Ex).
      destruct x as [|x1 x]; [rewrite app_nil_r in Eq; subst; lia|].
      destruct Hz as [->|(r & -> & _)]; [discriminate|]. injection Ex as <- Ex.
      destruct HK as (HK1 & HK2 & _).
      assert (Hc : length toks + 1 >= n + 1).
      { rewrite <- (Inv_count _ _ _ _ _ HI). rewrite Eq, fields_cut, app_length, HK1, HK2.
        destruct (fields_cons d x) as (a & b & ->). cbn. lia. }
      destruct HT as [[-> _]|(Hnc & HT & _)]; [lia|]. injection HT as ->.
      destruct x; [|discriminate]. destruct cur; [congruence|discriminate]. }
    destruct (app_split_le _ _ _ _ Es Hle) as (x & Eq & Ex).
    destruct (Inv_place _ _ _ _ _ HI) as (k & Hp). pose proof Hp as Hpl.
    destruct Hp as (H0 & H1 & _).
    assert (Lq : length q = length p + length x) by (rewrite Eq; apply app_length).
    (* q reaches the end of the block, up to a final delimiter *)
    assert (Hreach : length p + length x < (k + 1) * B -> (length q + 1 = (k + 1) * B /\ exists r, z = d :: r)).
    { intro Hs. destruct Hz as [->|(r & Hz & Hm)].
      - rewrite app_nil_r in Ex. exfalso.
        assert (X : length x = length cur + length (concat ((x0 :: nb') :: rest')))
          by (rewrite <- Ex; apply app_length). lia.
      - destruct Hm as [Hm|[Hm Hr]]; destruct (mod_mult _ Hm) as [m Em].
        + exfalso. assert (x = []).
          { destruct x; [reflexivity|]. exfalso. cbn [length] in *. apply (between k m); lia. }
          subst x. rewrite app_nil_r in Eq. subst q. cbn [app] in Ex.
          apply (not_here p cur ((x0 :: nb') :: rest') toks segs n K z HI HK Ex). right; eauto.
        + split; [|eauto]. destruct (lt_eq_lt_dec (length q + 1) ((k + 1) * B)) as [[X|X]|X]; [|exact X|lia].
          exfalso. apply (between k m); lia. }
    destruct Sh as [(c0 & Ec & Hc0)|Hlast].
    + rewrite Ec in *. rewrite app_length in H1. cbn [length] in H1.
      assert (Hx : exists y, x = c0 ++ y /\ d :: concat ((x0 :: nb') :: rest') = y ++ z).
      { rewrite <- app_assoc in Ex.
        destruct (app_split_le c0 _ x z Ex) as (y & E1 & E2).
        - destruct (le_lt_dec ((k + 1) * B) (length p + length x)) as [|Hs]; [lia|].
          destruct (Hreach Hs). lia.
        - exists y. split; [exact E1|exact E2]. }
      destruct Hx as (y & -> & Ey).
      assert (Hy : y = [] \/ exists r, y = d :: r).
      { destruct y as [|y0 y]; [left; reflexivity|right]. injection Ey as <- _. eauto. }
      assert (HP : parsed c0 toks (fields d c0)).
      { apply (good_parse p (c0 ++ [d]) ((x0 :: nb') :: rest') toks segs c0 y n K HI); auto.
        - rewrite <- Eq. exact HK.
        - exists [d]. reflexivity. }
      rewrite mloop_drop by assumption.
      destruct (proj2 (mb_parsed c0 toks _ Hlt) HP) as [-> ->].
      apply (IH (p ++ c0 ++ [d]) (x0 :: nb') _ _ q z n K).
      * apply next_dropped; assumption.
      * rewrite <- Es. cbn [concat]. rewrite <- !app_assoc. reflexivity.
      * exact HK.
      * exact HT.
    + assert (Hx : exists y, x = cur ++ y).
      { destruct (le_lt_dec ((k + 1) * B) (length p + length x)) as [Hb|Hs].
        - destruct (app_split_le _ _ _ _ Ex ltac:(lia)) as (y & E1 & _). eauto.
        - exfalso. destruct (Hreach Hs) as (Hq1 & r & ->).
          symmetry in Ex. destruct (app_split_le _ _ _ _ Ex ltac:(lia)) as (y & E1 & E2).
          assert (Ly : length y = 1).
          { apply (f_equal (@length _)) in E1. rewrite app_length in E1. lia. }
          destruct y as [|y0 [|? ?]]; cbn in Ly; try lia. injection E2 as -> _.
          apply Hlast. rewrite E1, last_last. reflexivity. }
      destruct Hx as (y & ->).
      assert (HP : parsed cur toks (fields d cur)).
      { apply (good_parse p cur ((x0 :: nb') :: rest') toks segs cur y n K HI); auto.
        - rewrite <- Eq. exact HK.
        - exists []. rewrite app_nil_r. reflexivity. }
      rewrite mloop_keep by assumption.
      destruct (proj2 (mb_parsed cur toks _ Hlt) HP) as [-> ->].
      destruct (N.eqb_spec x0 d) as [->|Hx0].
      * apply (IH (p ++ cur ++ [d]) nb' _ _ q z n K); auto.
        -- apply next_lead; assumption.
        -- rewrite <- Es. cbn [concat]. rewrite <- !app_assoc. reflexivity.
      * destruct (SEGTOK_ARRAY_SIZE <=? length segs).
        -- destruct (concat_mid _ _ _ _ _ _ _ HI HP) as [a ->].
           assert (Fa : Forall (fun w => length w <= maxk) (vmap 0 segs (toks ++ fields d cur))).
           { destruct (Inv_parse _ _ _ _ _ cur _ HI eq_refl) as (Ef & _). rewrite <- Ef.
             assert (Hsp : exists l o, fields d (p ++ cur) = l ++ [o]).
             { destruct (fields_cons d (p ++ cur)) as (a0 & b0 & X).
               exists (removelast (fields d (p ++ cur))), (last (fields d (p ++ cur)) []).
               apply app_removelast_last. rewrite X. discriminate. }
             destruct Hsp as (l & o & El). rewrite Eq, app_assoc in HK.
             destruct (fields_prefix _ _ _ _ _ _ HK El) as (Gl & _ & Lo & _).
             rewrite El. apply Forall_app. split; [|constructor; [exact Lo|constructor]].
             eapply Forall_impl; [|exact Gl]. intros w (_ & _ & X); exact X. }
           replace (forallb _ _) with true.
           2:{ symmetry. apply forallb_forall. intros w Hw. apply Nat.leb_le.
               rewrite Forall_forall in Fa. apply Fa. exact Hw. }
           destruct (mem a (toks ++ fields d cur)) eqn:Ea; [|cbn; eauto].
           apply (IH (p ++ cur) (x0 :: nb') _ _ q z n K); auto.
           ++ apply (next_seg_join _ _ _ _ _ _ _ _ _ HI HP Hx0 eq_refl Fa).
           ++ rewrite <- Es. cbn [concat]. rewrite <- !app_assoc. reflexivity.
        -- apply (IH (p ++ cur) (x0 :: nb') _ _ q z n K); auto.
           ++ apply (next_seg _ _ _ _ _ _ _ _ HI HP Hx0).
           ++ rewrite <- Es. cbn [concat]. rewrite <- !app_assoc. reflexivity.
Qed.
End LOOP.
