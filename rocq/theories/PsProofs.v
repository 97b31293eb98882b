From Coq Require Import String Ascii.
From Verif Require Import Base UtilModel UtilProofs ArgTypes PsModel PsSpec.
From Verif Require AtProofs3.
From Coq Require Import List ZArith NArith Lia Bool Permutation.
Local Open Scope nat_scope.
Local Open Scope list_scope.

Lemma same_beqb a b : same a b = beqb a b.
Proof. unfold same. destruct (list_eq_dec N.eq_dec a b), (beqb_spec a b); congruence. Qed.
Lemma op_eq a b : op_beq a b = true <-> a = b.
Proof. split; [apply internal_op_dec_bl|apply internal_op_dec_lb]. Qed.
Lemma op_sym a b : op_beq a b = op_beq b a.
Proof. destruct (op_beq a b) eqn:E; destruct (op_beq b a) eqn:F; try reflexivity; [apply op_eq in E; subst|apply op_eq in F; subst]; rewrite (proj2 (op_eq _ _) eq_refl) in *; congruence. Qed.

Lemma takes_hit_letters o : takes_hit o = existsb (fun w => match snd w with Hits x => op_beq o x | Ops _ => false end) letters.
Proof. destruct o; reflexivity. Qed.
Lemma bump_counts o hit c k : bump o hit c k = if counts k o hit then ((c k + 1) mod two64)%N else c k.
Proof.
  unfold bump, counts. rewrite <- takes_hit_letters. destruct k as [o'|o']; cbn [ctr_eqb].
  - rewrite (op_sym o' o), andb_false_r. reflexivity.
  - rewrite (op_sym o' o). destruct hit, (takes_hit o), (op_beq o o'); reflexivity.
Qed.

Section Hash.
Variable delim : N.
Variable hash : bytes -> N.
Notation slot := (slot hash).

Lemma slot_lt p : slot p < HASH_SIZE.
Proof.
  unfold PsModel.slot, HASH_SIZE. assert (H : (hash p mod 1024 < 1024)%N) by (apply N.mod_lt; discriminate). 
  change 1024 with (N.to_nat 1024). lia.
Qed.

(* ---------- the prefix ---------- *)
Definition pre (key : bytes) : bytes := firstn (prefix_len delim key) key.
Lemma find_delim_some s : forall i n, find_delim delim s i = Some n ->
  exists a b, s = a ++ delim :: b /\ ~ In delim a /\ n = i + List.length a.
Proof.
  induction s as [|x s IH]; cbn; intros i n H; [discriminate|].
  destruct (N.eqb_spec x delim) as [->|N].
  - injection H as <-. exists [], s. cbn. auto.
  - destruct (IH _ _ H) as (a & b & -> & I & ->). exists (x :: a), b. cbn. split; [reflexivity|]. split; [intros [?|?]; congruence|lia].
Qed.
Lemma find_delim_none s : forall i, find_delim delim s i = None -> ~ In delim s.
Proof.
  induction s as [|x s IH]; cbn; intros i H; [auto|].
  destruct (N.eqb_spec x delim) as [->|N]; [discriminate|]. intros [?|?]; [congruence|]. eapply IH; eauto.
Qed.
Lemma pre_ok key : prefix_of delim key (pre key).
Proof.
  unfold pre, prefix_len, prefix_of. destruct key as [|x r]; [right; cbn; auto|].
  destruct (find_delim delim r 1) as [n|] eqn:E.
  - left. apply find_delim_some in E. destruct E as (a & b & -> & I & ->). exists x, a, b.
    assert (F : firstn (1 + List.length a) (x :: a ++ delim :: b) = x :: a).
    { cbn [firstn Nat.add]. f_equal. rewrite firstn_app, Nat.sub_diag, firstn_all. cbn. apply app_nil_r. }
    rewrite F. auto.
  - right. split; [reflexivity|]. cbn. eauto using find_delim_none.
Qed.
Lemma prefix_one key p q : prefix_of delim key p -> prefix_of delim key q -> p = q.
Proof.
  assert (A : forall a b c d, a ++ delim :: b = c ++ delim :: d -> ~ In delim a -> ~ In delim c -> a = c).
  { intros a. induction a as [|x a IH]; intros b [|y c] d E I J; cbn in *.
    - reflexivity. - injection E as <- _. tauto. - injection E as -> _. tauto.
    - injection E as -> E. f_equal. eapply IH; eauto. }
  intros [(x & a & b & -> & -> & I)|(-> & I)] [(y & c & d & -> & E & J)|(-> & J)].
  - cbn in E. injection E as -> E. f_equal. eapply A; eauto.
  - exfalso. apply J. cbn. apply in_app_iff. right. now left.
  - exfalso. apply I. rewrite E. cbn. apply in_app_iff. right. now left.
  - reflexivity.
Qed.

(* ---------- chains ---------- *)
Definition names (s : state) : list bytes := map e_name (all_entries s).
Definition nsize (l : list bytes) : Z := fold_right (fun p n => name_size p + n)%Z 0%Z l.
Record inv (s : state) : Prop := {
  i_place : forall i e, In e (tab s i) -> slot (e_name e) = i;
  i_nodup : NoDup (names s);
  i_num : num s = Z.of_nat (List.length (names s));
  i_total : total s = nsize (names s)
}.
Lemma all_split (t : nat -> list entry) i : i < HASH_SIZE -> exists a b,
  forall t', (forall j, j <> i -> t' j = t j) -> flat_map t' (seq 0 HASH_SIZE) = a ++ t' i ++ b.
Proof.
  intro L. exists (flat_map t (seq 0 i)), (flat_map t (seq (S i) (HASH_SIZE - S i))). intros t' E.
  assert (Q : seq 0 HASH_SIZE = seq 0 i ++ i :: seq (S i) (HASH_SIZE - S i)).
  { replace HASH_SIZE with (i + S (HASH_SIZE - S i)) at 1 by lia. rewrite seq_app. cbn [seq Nat.add]. reflexivity. }
  rewrite Q, flat_map_app. cbn [flat_map]. f_equal; [|f_equal].
  - rewrite !flat_map_concat_map. f_equal. apply map_ext_in. intros j J. apply in_seq in J. apply E. lia.
  - rewrite !flat_map_concat_map. f_equal. apply map_ext_in. intros j J. apply in_seq in J. apply E. lia.
Qed.
Lemma set_split s i : i < HASH_SIZE -> exists a b,
  all_entries s = a ++ tab s i ++ b /\
  forall c n t d, all_entries (mkS (set_chain (tab s) i c) n t d) = a ++ c ++ b.
Proof.
  intro L. destruct (all_split (tab s) i L) as (a & b & H). exists a, b. split; [now apply H|].
  intros c n t d. unfold all_entries. cbn [tab]. rewrite H.
  - unfold set_chain. now rewrite Nat.eqb_refl.
  - intros j N. unfold set_chain. destruct (Nat.eqb_spec j i); congruence.
Qed.
Lemma in_all s e i : i < HASH_SIZE -> In e (tab s i) -> In e (all_entries s).
Proof. intros L I. apply in_flat_map. exists i. split; [apply in_seq; lia|exact I]. Qed.
Lemma all_in s e : inv s -> In e (all_entries s) -> In e (tab s (slot (e_name e))).
Proof. intros V I. apply in_flat_map in I. destruct I as (i & _ & I). now rewrite (i_place _ V _ _ I). Qed.

Lemma lookup_in c p e : lookup c p = Some e -> In e c /\ e_name e = p.
Proof.
  induction c as [|x c IH]; cbn; intro H; [discriminate|].
  destruct (beqb_spec (e_name x) p) as [E|]; [injection H as <-; auto|]. destruct (IH H). auto.
Qed.
Lemma lookup_none c p : lookup c p = None -> ~ In p (map e_name c).
Proof.
  induction c as [|x c IH]; cbn; intros H; [auto|].
  destruct (beqb_spec (e_name x) p) as [E|N]; [discriminate|]. intros [?|?]; [auto|]. now apply IH.
Qed.
Lemma find_name s p : inv s -> (lookup (tab s (slot p)) p = None <-> ~ In p (names s)).
Proof.
  intro V. split.
  - intros H I. apply in_map_iff in I. destruct I as (e & <- & I). apply lookup_none in H. apply H.
    apply in_map. now apply all_in.
  - intro H. destruct (lookup (tab s (slot p)) p) as [e|] eqn:E; [|reflexivity]. apply lookup_in in E. destruct E as [I <-].
    exfalso. apply H. apply in_map. eapply in_all; [apply slot_lt|exact I].
Qed.
(* the count stored for a name *)
Definition val (s : state) (p : bytes) : option (ctr -> N) := match lookup (tab s (slot p)) p with Some e => Some (e_cnt e) | None => None end.
Lemma val_in s e : inv s -> In e (all_entries s) -> val s (e_name e) = Some (e_cnt e).
Proof.
  intros V I. unfold val. destruct (lookup (tab s (slot (e_name e))) (e_name e)) as [x|] eqn:E.
  - apply lookup_in in E. destruct E as [J N]. apply in_all in J; [|apply slot_lt].
    assert (x = e) as ->; [|reflexivity].
    pose proof (i_nodup _ V) as D. unfold names in D. clear -D I J N.
    induction (all_entries s) as [|y l IH]; [destruct I|]. cbn in D. inversion D as [|? ? Ny Dl]; subst.
    destruct I as [->|I], J as [->|J]; auto.
    + exfalso. apply Ny. rewrite <- N. now apply in_map.
    + exfalso. apply Ny. rewrite N. now apply in_map.
  - exfalso. apply lookup_none in E. apply E. apply in_map. now apply all_in.
Qed.

(* ---------- the steps ---------- *)
Lemma bump_in_names c p o hit : map e_name (bump_in c p o hit) = map e_name c.
Proof. induction c as [|e c IH]; cbn; [reflexivity|]. destruct (beqb (e_name e) p); cbn; congruence. Qed.
Lemma bump_in_lookup c p o hit q : lookup (bump_in c p o hit) q =
  match lookup c q with Some e => Some (if beqb p q then mkE (e_name e) (bump o hit (e_cnt e)) else e) | None => None end.
Proof.
  induction c as [|e c IH]; cbn; [reflexivity|].
  destruct (beqb_spec (e_name e) p) as [<-|N]; cbn.
  - destruct (beqb_spec (e_name e) q) as [E|M]; [reflexivity|].
    destruct (lookup c q); reflexivity.
  - destruct (beqb_spec (e_name e) q) as [<-|M]; [|exact IH].
    destruct (beqb_spec p (e_name e)); [congruence|reflexivity].
Qed.
Lemma set_chain_same t i c : set_chain t i c i = c.
Proof. unfold set_chain. now rewrite Nat.eqb_refl. Qed.
Lemma set_chain_other t i c j : j <> i -> set_chain t i c j = t j.
Proof. intro N. unfold set_chain. destruct (Nat.eqb_spec j i); congruence. Qed.

Lemma count_names s p o hit : names (count_at hash s p o hit) = names s.
Proof.
  unfold names, count_at. destruct (set_split s (slot p) (slot_lt p)) as (a & b & E & F).
  rewrite F, E, !map_app, bump_in_names. reflexivity.
Qed.
Lemma count_inv s p o hit : inv s -> inv (count_at hash s p o hit).
Proof.
  intro V. constructor; rewrite ?count_names; try apply V. cbn [count_at tab].
  intros i e I. unfold set_chain in I. destruct (Nat.eqb_spec i (slot p)) as [->|]; [|now apply V].
  assert (J : In (e_name e) (map e_name (tab s (slot p)))) by (rewrite <- (bump_in_names _ p o hit); now apply in_map).
  apply in_map_iff in J. destruct J as (x & <- & J). now apply V.
Qed.
Lemma count_val s p o hit q : val (count_at hash s p o hit) q =
  match val s q with Some c => Some (if beqb p q then bump o hit c else c) | None => None end.
Proof.
  unfold val, count_at. cbn [tab]. destruct (Nat.eq_dec (slot q) (slot p)) as [E|N].
  - rewrite E, set_chain_same, bump_in_lookup. destruct (lookup (tab s (slot p)) q); [|reflexivity]. destruct (beqb p q); reflexivity.
  - rewrite set_chain_other by exact N. destruct (lookup (tab s (slot q)) q); [|reflexivity].
    destruct (beqb_spec p q); [congruence|reflexivity].
Qed.

Definition added (s : state) (p : bytes) : state :=
  mkS (set_chain (tab s) (slot p) (mkE p (fun _ => 0%N) :: tab s (slot p))) (num s + 1) (total s + name_size p) (detail s).
Lemma added_names s p : Permutation (names (added s p)) (p :: names s).
Proof.
  unfold names, added. destruct (set_split s (slot p) (slot_lt p)) as (a & b & E & F). rewrite F, E, !map_app. cbn [map app e_name].
  symmetry. apply Permutation_middle.
Qed.
Lemma nsize_perm a b : Permutation a b -> nsize a = nsize b.
Proof. unfold nsize. induction 1; cbn [fold_right]; lia. Qed.
Lemma added_inv s p : inv s -> ~ In p (names s) -> inv (added s p).
Proof.
  intros V N. pose proof (added_names s p) as P. constructor.
  - intros i e I. cbn [added tab] in I. unfold set_chain in I. destruct (Nat.eqb_spec i (slot p)) as [->|]; [|now apply V].
    destruct I as [<-|I]; [reflexivity|now apply V].
  - apply (Permutation_NoDup (Permutation_sym P)). constructor; [exact N|apply V].
  - cbn [added num]. rewrite (i_num _ V), (Permutation_length P). cbn [List.length]. lia.
  - cbn [added total]. rewrite (i_total _ V), (nsize_perm _ _ P). unfold nsize. cbn [fold_right]. lia.
Qed.
Lemma added_val s p q : val (added s p) q = if beqb p q then Some (fun _ => 0%N) else val s q.
Proof.
  unfold val, added. cbn [tab]. destruct (Nat.eq_dec (slot q) (slot p)) as [E|N].
  - rewrite E, set_chain_same. cbn [lookup e_name]. destruct (beqb p q); [reflexivity|]. reflexivity.
  - rewrite set_chain_other by exact N. destruct (beqb_spec p q); [congruence|reflexivity].
Qed.

Lemma unlink_lookup c p q : NoDup (map e_name c) -> lookup (unlink c p) q = if beqb p q then None else lookup c q.
Proof.
  induction c as [|e c IH]; cbn; intro D; [destruct (beqb p q); reflexivity|]. inversion D as [|? ? N D']; subst.
  destruct (beqb_spec (e_name e) p) as [<-|M].
  - destruct (beqb_spec (e_name e) q) as [Q|Q]; [|reflexivity].
    destruct (lookup c q) eqn:E; [|reflexivity]. apply lookup_in in E. destruct E as [I E]. exfalso. apply N. rewrite Q, <- E. now apply in_map.
  - cbn [lookup]. destruct (beqb_spec (e_name e) q) as [Q|Q].
    + destruct (beqb_spec p q); [congruence|reflexivity].
    + now apply IH.
Qed.
Lemma unlink_perm c p e : lookup c p = Some e -> Permutation c (e :: unlink c p).
Proof.
  induction c as [|x c IH]; cbn; intro H; [discriminate|].
  destruct (beqb (e_name x) p); [injection H as <-; reflexivity|].
  rewrite (IH H) at 1. apply perm_swap.
Qed.
Lemma chain_nodup s i : inv s -> i < HASH_SIZE -> NoDup (map e_name (tab s i)).
Proof.
  intros V L. destruct (set_split s i L) as (a & b & E & _). pose proof (i_nodup _ V) as D. unfold names in D. rewrite E, !map_app in D.
  assert (R : forall (l r : list bytes), NoDup (l ++ r) -> NoDup r /\ NoDup l).
  { induction l as [|x l IH]; cbn; intros r H; [split; [exact H|constructor]|]. inversion H as [|? ? N H']; subst.
    destruct (IH _ H') as [H1 H2]. split; [exact H1|]. constructor; [|exact H2]. intro I. apply N. apply in_app_iff. now left. }
  apply R in D. destruct D as [D _]. apply R in D. apply D.
Qed.
Lemma delete_inv s p : inv s -> inv (delete hash s p).
Proof.
  intro V. unfold delete. destruct (lookup (tab s (slot p)) p) as [e|] eqn:E; [|exact V].
  destruct (set_split s (slot p) (slot_lt p)) as (a & b & A & F).
  pose proof (unlink_perm _ _ _ E) as P. pose proof (lookup_in _ _ _ E) as [_ En].
  set (s' := mkS _ _ _ _).
  assert (PN : Permutation (names s) (p :: names s')).
  { unfold names, s'. rewrite F, A, !map_app. rewrite (Permutation_map e_name P). cbn [map app]. rewrite En. symmetry. apply Permutation_middle. }
  constructor.
  - intros i x I. cbn [tab] in I. unfold s', set_chain in I. cbn [tab] in I. destruct (Nat.eqb_spec i (slot p)) as [->|]; [|now apply V].
    apply V. apply (Permutation_in _ (Permutation_sym P)). now right.
  - pose proof (Permutation_NoDup PN (i_nodup _ V)) as D. now inversion D.
  - cbn [num]. unfold s' at 1. cbn [num]. rewrite (i_num _ V), (Permutation_length PN). cbn [List.length]. lia.
  - unfold s' at 1. cbn [total]. rewrite (i_total _ V), (nsize_perm _ _ PN). unfold nsize. cbn [fold_right]. lia.
Qed.
Lemma delete_val s p q : inv s -> val (delete hash s p) q = if beqb p q then None else val s q.
Proof.
  intro V. unfold delete. destruct (lookup (tab s (slot p)) p) as [e|] eqn:E.
  - unfold val. cbn [tab]. destruct (Nat.eq_dec (slot q) (slot p)) as [S|N].
    + rewrite S, set_chain_same, unlink_lookup by (apply chain_nodup; [exact V|apply slot_lt]). destruct (beqb p q); reflexivity.
    + rewrite set_chain_other by exact N. destruct (beqb_spec p q); [congruence|reflexivity].
  - destruct (beqb_spec p q) as [<-|]; [|reflexivity]. unfold val. now rewrite E.
Qed.
Lemma names_val s p : inv s -> (In p (names s) <-> val s p <> None).
Proof.
  intro V. pose proof (find_name s p V) as F. unfold val. destruct (lookup (tab s (slot p)) p) as [e|].
  - split; [discriminate|]. intros _. destruct (in_dec (list_eq_dec N.eq_dec) p (names s)) as [I|I]; [exact I|]. apply F in I. discriminate.
  - split; [|congruence]. intro I. exfalso. now apply (proj1 F eq_refl).
Qed.

(* ---------- histories ---------- *)
(* invariant without limits: every history *)
Lemma off_inv s : inv s -> inv (off s).
Proof. intros [A B C D]. constructor; assumption. Qed.
Lemma insert_cases s key n : inv s -> ~ In (firstn n key) (names s) ->
  (insert hash s key n = (off s, false) /\ (MAX_COUNT <= num s)%Z) \/
  (insert hash s key n = (s, false) /\ (num s < MAX_COUNT)%Z /\ valid_at key n = false) \/
  (insert hash s key n = (off (added s (firstn n key)), false) /\ (MAX_COUNT <= num s + 1)%Z) \/
  (insert hash s key n = (added s (firstn n key), true) /\ (num s + 1 < MAX_COUNT)%Z).
Proof.
  intros V N. unfold insert. destruct (Z.leb_spec MAX_COUNT (num s)); [auto|].
  destruct (valid_at key n); cbn [negb]; [|auto]. cbv zeta. fold (added s (firstn n key)). cbn [added num].
  destruct (Z.leb_spec MAX_COUNT (num s + 1)); auto 6.
Qed.
Lemma step_inv s e : inv s -> inv (step delim hash s e).
Proof.
  intro V. destruct e as [o hit key|t|b|]; cbn [step].
  - destruct (detail s); [|exact V]. unfold record. cbv zeta. fold (pre key).
    destruct (lookup (tab s (slot (pre key))) (pre key)) eqn:E; [now apply count_inv|].
    apply (find_name s _ V) in E.
    destruct (insert_cases s key (prefix_len delim key) V E) as [[-> _]|[(-> & _ & _)|[[-> _]|[-> _]]]].
    + now apply off_inv. + exact V. + apply off_inv. now apply added_inv. + apply count_inv. now apply added_inv.
  - destruct (detail s); [|exact V]. now apply delete_inv.
  - destruct V as [A B C D]. constructor; assumption.
  - assert (Q : names (clear s) = []) by (unfold names, all_entries, clear; cbn [tab]; induction (seq 0 HASH_SIZE); cbn; auto).
    constructor; rewrite ?Q; try reflexivity; [cbn; contradiction|constructor].
Qed.
Lemma init_inv on : inv (init on).
Proof.
  assert (Q : names (init on) = []) by (unfold names, all_entries, init; cbn [tab]; induction (seq 0 HASH_SIZE); cbn; auto).
  constructor; rewrite ?Q; try reflexivity; [cbn; contradiction|constructor].
Qed.
Lemma run_inv h : forall s, inv s -> inv (run delim hash s h).
Proof. induction h as [|e h IH]; intros s V; [exact V|]. cbn. apply IH. now apply step_inv. Qed.

(* the counts: histories with named keys and fewer than 10000 prefixes *)
Definition agrees (s : state) (p : bytes) (k : ctr) (t : bool * bool * N) : Prop :=
  let '(on, seen, n) := t in
  detail s = on /\ match val s p with
                   | Some c => seen = true /\ c k = (n mod two64)%N
                   | None => seen = false /\ n = 0%N
                   end.
Definition short_of (L : list bytes) (s : state) : Prop := incl (names s) L.
Lemma valid_named key : named_key pre key -> valid_at key (prefix_len delim key) = true.
Proof.
  intros [H F]. unfold valid_at. destruct (N.eqb_spec (hd 0%N key) 45); [contradiction|]. apply forallb_forall. intros x I.
  fold (pre key) in I. rewrite Forall_forall in F. specialize (F x I). unfold name_byte in F. unfold mc_isnamechar. lia.
Qed.
Lemma wrap_add n : (((n mod two64 + 1) mod two64) = ((n + 1) mod two64))%N.
Proof. rewrite N.add_mod_idemp_l by discriminate. reflexivity. Qed.

Lemma step_agrees L s e p k t : (Z.of_nat (List.length L) < MAX_COUNT)%Z -> inv s -> short_of L s ->
  (forall key, In key (keys_of [e]) -> named_key pre key /\ In (pre key) L) ->
  agrees s p k t -> agrees (step delim hash s e) p k (tally1 pre p k t e) /\ short_of L (step delim hash s e).
Proof.
  intros LL V S K A. destruct t as [[on seen] n]. destruct A as [A0 A].
  destruct e as [o hit key|t|b|]; cbn [step tally1].
  - destruct (K key) as [NK IL]; [cbn; auto|]. rewrite A0. destruct on; cbn [andb]; [|split; [split; assumption|exact S]].
    rewrite same_beqb. unfold record. cbv zeta. fold (pre key).
    destruct (lookup (tab s (slot (pre key))) (pre key)) as [x|] eqn:E.
    + split; [|unfold short_of; rewrite count_names; exact S].
      assert (Q : agrees (count_at hash s (pre key) o hit) p k (if beqb (pre key) p then (true, true, if counts k o hit then (n + 1)%N else n) else (true, seen, n))).
      { destruct (beqb_spec (pre key) p) as [<-|N]; (split; [exact A0|]); rewrite count_val.
        - unfold val in *. rewrite E in *. rewrite beqb_refl. split; [reflexivity|]. rewrite bump_counts. destruct A as [_ ->].
          destruct (counts k o hit); [apply wrap_add|reflexivity].
        - destruct (val s p); [|exact A]. destruct (beqb_spec (pre key) p); [contradiction|exact A]. }
      exact Q.
    + pose proof (proj1 (find_name s (pre key) V) E) as NI.
      assert (LN : (Z.of_nat (List.length (pre key :: names s)) <= Z.of_nat (List.length L))%Z).
      { apply inj_le. apply NoDup_incl_length; [constructor; [exact NI|apply V]|]. intros q [<-|I]; auto. }
      cbn [List.length] in LN. rewrite Nat2Z.inj_succ, <- (i_num _ V) in LN.
      destruct (insert_cases s key (prefix_len delim key) V NI) as [[_ X]|[(_ & _ & X)|[[_ X]|[-> _]]]]; [lia|rewrite valid_named in X by exact NK; discriminate|lia|].
      fold (pre key). split.
      * assert (Q : agrees (count_at hash (added s (pre key)) (pre key) o hit) p k (if beqb (pre key) p then (true, true, if counts k o hit then (n + 1)%N else n) else (true, seen, n))).
        { destruct (beqb_spec (pre key) p) as [<-|N]; (split; [exact A0|]); rewrite count_val, added_val.
          - rewrite beqb_refl. unfold val in A. rewrite E in A. destruct A as [_ ->]. split; [reflexivity|]. rewrite bump_counts. destruct (counts k o hit); reflexivity.
          - destruct (beqb_spec (pre key) p); [contradiction|]. destruct (val s p); exact A. }
        exact Q.
      * unfold short_of. rewrite count_names. intros q I. apply (Permutation_in _ (added_names s (pre key))) in I. destruct I as [<-|I]; auto.
  - rewrite A0. destruct on; cbn [andb]; [|split; [split; assumption|exact S]].
    rewrite !same_beqb. change (txt "<null>") with null_str. set (q := (if beqb t null_str then [] else t) : bytes).
    change (agrees (delete hash s q) p k (if beqb q p then (true, false, 0%N) else (true, seen, n)) /\ short_of L (delete hash s q)).
    clearbody q. split.
    + assert (D : detail (delete hash s q) = true) by (unfold delete; destruct (lookup _ _); exact A0).
      destruct (beqb_spec q p) as [->|N]; (split; [exact D|]); rewrite delete_val by exact V.
      * rewrite beqb_refl. auto.
      * destruct (beqb_spec q p); [contradiction|exact A].
    + intros x I. apply S. apply (names_val s x V). apply (names_val _ x (delete_inv s q V)) in I. rewrite delete_val in I by exact V.
      destruct (beqb q x); congruence.
  - split; [|exact S]. split; [reflexivity|exact A].
  - split; [split; [exact A0|unfold val; cbn; auto]|].
    assert (Q : names (clear s) = []) by (unfold names, all_entries, clear; cbn [tab]; induction (seq 0 HASH_SIZE); cbn; auto).
    unfold short_of. rewrite Q. intros x [].
Qed.
Lemma run_agrees L p k h : (Z.of_nat (List.length L) < MAX_COUNT)%Z -> forall s t, inv s -> short_of L s ->
  (forall key, In key (keys_of h) -> named_key pre key /\ In (pre key) L) ->
  agrees s p k t -> agrees (run delim hash s h) p k (fold_left (tally1 pre p k) h t).
Proof.
  intros LL. induction h as [|e h IH]; intros s t V S K A; [exact A|]. cbn [run fold_left].
  assert (KH : forall key, In key (keys_of h) -> named_key pre key /\ In (pre key) L).
  { intros key I. apply K. unfold keys_of in *. cbn [flat_map]. apply in_app_iff. now right. }
  assert (KE : forall key, In key (keys_of [e]) -> named_key pre key /\ In (pre key) L).
  { intros key I. apply K. unfold keys_of in *. cbn [flat_map] in *. rewrite app_nil_r in I. apply in_app_iff. now left. }
  destruct (step_agrees L s e p k t LL V S KE A) as [A' S']. apply IH; auto. now apply step_inv.
Qed.

End Hash.
