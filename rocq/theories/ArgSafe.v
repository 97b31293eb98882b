(* Proofs: no line makes the parser read a token that is not there, and what happens to the
   memory behind the filter. *)
From Coq Require Import String Ascii.
From Verif Require Import Base UtilModel UtilSpec ArgTypes ArgModel ArgSpec ArgProofs ArgFilter ArgCmd ArgSound.
From Coq Require Import List ZArith NArith Lia.
Local Open Scope nat_scope.
Local Open Scope list_scope.
Arguments Z.leb !x !y.
Arguments Z.ltb !x !y.
Arguments Z.eqb !x !y.

(* the number of tokens which the filter takes *)
Lemma comp_used offset m toks tc m' n : efilter_comp offset m toks tc = (m', Got n) -> n = tc + 2.
Proof.
  unfold efilter_comp, tk. destruct (nth_error toks tc); [|discriminate].
  destruct (N.eqb _ 6); [discriminate|]. destruct (nth_error toks (tc + 1)); [|discriminate].
  destruct (N.eqb _ 0 || N.eqb _ 1)%bool.
  - destruct (efilter_loop _ _ _) as [m1 ok]. destruct ok; [|discriminate]. intros E. now injection E.
  - destruct (get_eflag_from_str _); [|discriminate]. destruct (N.ltb _ _); [discriminate|].
    destruct (_ && _)%bool; [discriminate|]. intros E. now injection E.
Qed.
Lemma filter_used m L m' n : get_efilter_from_tokens m L = (m', Got n) -> n <= List.length L /\ (n = 0 \/ n = 3 \/ n = 5).
Proof.
  unfold get_efilter_from_tokens. fold (at_filter L). fold (at_bitw L).
  destruct (at_filter L) eqn:AF; [|intros E; injection E as _ <-; lia].
  destruct (tk L 0); [|discriminate]. destruct (safe_strtoul _); [|discriminate]. destruct (N.leb _ _); [discriminate|].
  apply andb_prop in AF. destruct AF as [AF _]. apply Nat.leb_le in AF.
  destruct (at_bitw L) eqn:AB.
  - apply andb_prop in AB. destruct AB as [AB _]. apply Nat.leb_le in AB.
    destruct (tk L 1); [|discriminate]. destruct (N.eqb _ 3); [discriminate|].
    destruct (tk L 2); [|discriminate]. destruct (get_eflag_from_str _); [|discriminate].
    intros E. apply comp_used in E. lia.
  - intros E. apply comp_used in E. lia.
Qed.

(* ---- no fault, by composition ---- *)
Definition nf {A} (x : res A) : Prop := x <> No Fault.
Lemma nf_got {A} (a : A) : nf (Got a). Proof. discriminate. Qed.
Lemma nf_bind {A B} (x : res A) (f : A -> res B) : nf x -> (forall a, x = Got a -> nf (f a)) -> nf (bind x f).
Proof. unfold nf. destruct x; cbn; [auto|]. intros H _ E. injection E as ->. now apply H. Qed.
Lemma nf_opt {A} (o : option A) : nf (opt o). Proof. destruct o; discriminate. Qed.
Lemma nf_guard b : nf (guard b). Proof. destruct b; discriminate. Qed.
Lemma nf_tk toks i : i < List.length toks -> nf (tk toks i).
Proof. intros L. unfold tk. destruct (nth_error toks i) eqn:E; [discriminate|]. apply nth_error_None in E. lia. Qed.
Lemma guard_true b u : guard b = Got u -> b = true.
Proof. destruct b; [reflexivity|discriminate]. Qed.

Ltac nfs := repeat (cbv beta; match goal with
  | |- nf (Got _) => apply nf_got
  | |- nf (No _) => discriminate
  | |- nf (bind (tk _ _) _) => apply nf_bind; [apply nf_tk|intros ? _]
  | |- nf (bind (opt _) _) => apply nf_bind; [apply nf_opt|intros ? _]
  | |- nf (bind (guard _) _) => apply nf_bind; [apply nf_guard|intros ? ?G; apply guard_true in G]
  | |- nf (bind (if ?c then _ else _) _) => apply nf_bind; [destruct c eqn:?|intros ? ?]
  | |- nf (bind _ _) => apply nf_bind; [|intros ? ?]
  | |- nf (opt _) => apply nf_opt
  | |- nf (guard _) => apply nf_guard
  | |- nf (tk _ _) => apply nf_tk
  | |- nf (if ?c then _ else _) => destruct c eqn:?
  | |- nf (match ?o with _ => _ end) => destruct o eqn:?
  end).
Ltac bool := repeat match goal with
  | E : andb _ _ = true |- _ => apply andb_prop in E; destruct E
  | E : orb _ _ = false |- _ => apply Bool.orb_false_elim in E; destruct E
  | E : orb _ _ = true |- _ => apply Bool.orb_prop in E; destruct E
  | E : negb _ = true |- _ => apply Bool.negb_true_iff in E
  | E : Nat.leb _ _ = true |- _ => apply Nat.leb_le in E
  | E : Nat.ltb _ _ = true |- _ => apply Nat.ltb_lt in E
  | E : Nat.ltb _ _ = false |- _ => apply Nat.ltb_ge in E
  | E : Nat.eqb _ _ = true |- _ => apply Nat.eqb_eq in E
  | E : Z.leb _ _ = true |- _ => apply Z.leb_le in E
  | E : Z.ltb _ _ = true |- _ => apply Z.ltb_lt in E
  | E : Z.ltb _ _ = false |- _ => apply Z.ltb_ge in E
  | E : Z.leb _ _ = false |- _ => apply Z.leb_gt in E
  | E : Z.eqb _ _ = true |- _ => apply Z.eqb_eq in E
  end.
Ltac bl := bool; unfold rest_of in *; repeat match goal with H : context [if ?b then 1%Z else 0%Z] |- _ => destruct b end;
  cbn [List.length] in *; lia.

Lemma attr_nf t l : nf (create_attr t l).
Proof. unfold create_attr. cbn zeta. nfs; bl. Qed.
Lemma vlen_nf s : nf (get_vlen s). Proof. unfold get_vlen. nfs. Qed.
Lemma one_nf s : nf (one_bkey s). Proof. unfold one_bkey. nfs. Qed.
Lemma order_nf s : nf (get_order s). Proof. unfold get_order. nfs. Qed.
Lemma take_nf s : nf (take_word s). Proof. unfold take_word. nfs. Qed.
Lemma last_nf toks : 1 <= List.length toks -> nf (last_token toks).
Proof. intros. apply nf_tk. lia. Qed.
Lemma fields_nf mm toks : 5 <= List.length toks -> nf (field_counts mm toks).
Proof. intros. unfold field_counts. nfs; bl. Qed.
Lemma create_nf t toks rd rest : (Z.of_nat rd + rest <= Z.of_nat (List.length toks))%Z -> nf (create_part t toks rd rest).
Proof. intros. unfold create_part. nfs; try bl. apply attr_nf. Qed.
Lemma ccmd_nf t toks key : 1 <= List.length toks -> nf (create_cmd t toks key).
Proof. intros. unfold create_cmd, noreply_only. nfs; try (apply last_nf; lia). apply attr_nf. Qed.
Lemma drop_nf toks m : nf (drop_part toks m).
Proof. unfold drop_part. cbn zeta. nfs; bl. Qed.
Ltac leaf := first [apply vlen_nf|apply one_nf|apply order_nf|apply take_nf|apply attr_nf|apply drop_nf
  | apply last_nf; bl | apply fields_nf; bl | apply ccmd_nf; bl
  | apply create_nf; unfold rest_of; repeat match goal with |- context [if ?b then _ else _] => destruct b end; bl].
Lemma lop_nf toks sub key : 4 <= List.length toks -> nf (lop_cmd toks sub key).
Proof. intros. unfold lop_cmd, pipe_noreply. cbn zeta. nfs; try leaf; bl. Qed.
Lemma sop_nf toks sub key : 4 <= List.length toks -> nf (sop_cmd toks sub key).
Proof. intros. unfold sop_cmd, pipe_noreply, pipe_only. cbn zeta. nfs; try leaf; bl. Qed.
Lemma mop_nf mm toks sub key : 4 <= List.length toks -> nf (mop_cmd mm toks sub key).
Proof. intros. unfold mop_cmd, pipe_noreply. cbn zeta. nfs; try leaf; bl. Qed.

Lemma insert_nf up toks key : 5 <= List.length toks -> nf (bop_insert up toks key).
Proof.
  intros. unfold bop_insert, pipe_noreply. cbn zeta. nfs; try (leaf || bl).
  - assert (E : snd a2 = 4 \/ snd a2 = 5).
    { revert H2. unfold bind. destruct (Nat.ltb _ _); [destruct (tk toks 4); [|discriminate]|]; intros E; injection E as <-; [|auto].
      destruct (is0x _); auto. }
    assert (snd a2 = 5 -> 6 < S (List.length toks)).
    { intros E5. revert H2. unfold bind. destruct (Nat.ltb _ _) eqn:LT; [intros _; now apply Nat.ltb_lt in LT|].
      intros X. injection X as <-. discriminate. }
    lia.
Qed.
Ltac binv H := unfold bind, opt, guard in H; cbv zeta in H;
  repeat (match type of H with
  | context [match ?x with _ => _ end] =>
      lazymatch x with context [match _ with _ => _ end] => fail | _ => destruct x eqn:?; try discriminate H end end).
Lemma update_nf toks key : 5 <= List.length toks -> nf (bop_update toks key).
Proof.
  intros. unfold bop_update, pipe_noreply. cbn zeta. nfs; try (leaf || bl).
  - clear H0. binv H2; injection H2 as <- <- <-; bl.
  - clear H0. binv H2; injection H2 as <- <- <-; bl.
Qed.
Lemma arith_nf inc toks key : 5 <= List.length toks -> nf (bop_arith inc toks key).
Proof. intros. unfold bop_arith, pipe_noreply. cbn zeta. nfs; try (leaf || bl). Qed.
Lemma position_nf toks key : 5 <= List.length toks -> nf (bop_position toks key).
Proof. intros. unfold bop_position. cbn zeta. nfs; try (leaf || bl). Qed.
Lemma pwg_nf toks key : 5 <= List.length toks -> nf (bop_pwg toks key).
Proof. intros. unfold bop_pwg. cbn zeta. nfs; try (leaf || bl). Qed.
Lemma gbp_nf toks key : 5 <= List.length toks -> nf (bop_gbp toks key).
Proof. intros. unfold bop_gbp. cbn zeta. nfs; try (leaf || bl). Qed.

(* what a command with a filter does to the memory: nothing behind the structure, when the
   lists of values are short enough *)
Definition step_ok (toks : list bytes) (st st' : mem) : Prop := Forall narrow1 toks -> behind st st'.
Lemma step_refl toks st : step_ok toks st st. Proof. intros _ i _. reflexivity. Qed.
Lemma step_off toks st : step_ok toks st (put st A_NCOMP 0).
Proof. intros _ i I. apply put_other. unfold A_END, A_NCOMP in *. lia. Qed.
Lemma slice_in toks i n x : In x (slice toks i n) -> In x toks.
Proof.
  unfold slice. intros H.
  assert (F : forall (l : list bytes) k y, In y (firstn k l) -> In y l).
  { induction l as [|z l IH]; intros [|k] y; cbn; try tauto. intros [E|E]; [now left|right; eauto]. }
  assert (S : forall (l : list bytes) k y, In y (skipn k l) -> In y l).
  { induction l as [|z l IH]; intros [|k] y; cbn; try tauto. intros E. right. eauto. }
  eauto.
Qed.
Lemma slice_len toks i n : List.length (slice toks i n) <= n.
Proof. unfold slice. rewrite firstn_length. lia. Qed.
Lemma filter_step toks st i n st' r : get_efilter_from_tokens st (slice toks i n) = (st', r) ->
  step_ok toks st st' /\ nf r /\ forall k, r = Got k -> k <= n.
Proof.
  intros G. split; [|split].
  - intros NW. assert (NF : narrow_f (slice toks i n)).
    { intros v E. apply nth_error_In, slice_in in E. rewrite Forall_forall in NW. auto. }
    exact (proj1 (filter_sound _ _ _ _ NF G)).
  - pose proof (filter_nofault st (slice toks i n)) as F. rewrite G in F. exact F.
  - intros k ->. apply filter_used in G. pose proof (slice_len toks i n). lia.
Qed.
(* the two outcomes of the filter part *)
Definition part_ok (toks : list bytes) (st : mem) (n : nat) (p : mem * res nat) : Prop :=
  step_ok toks st (fst p) /\ nf (snd p) /\ forall k, snd p = Got k -> k <= n.
Lemma part_filter toks st i n : part_ok toks st n (get_efilter_from_tokens st (slice toks i n)).
Proof.
  destruct (get_efilter_from_tokens st (slice toks i n)) as [st' r] eqn:G.
  exact (filter_step _ _ _ _ _ _ G).
Qed.
Lemma part_off toks st n : part_ok toks st n (put st A_NCOMP 0, Got 0).
Proof. split; [apply step_off|split; [discriminate|]]. intros k E. injection E as <-. lia. Qed.
Definition safe (toks : list bytes) (st : mem) (p : mem * res req) : Prop := step_ok toks st (fst p) /\ nf (snd p).

Ltac head := match goal with |- safe _ _ (match ?x with Got _ => _ | No _ => _ end) =>
  let N := fresh "N" in assert (N : nf x) by (nfs; try (leaf || bl)); destruct x eqn:?HD;
  [|split; [apply step_refl|intros E; apply N; cbn in E; injection E as ->; reflexivity]] end.
Ltac filt n := match goal with |- safe ?toks ?st (let '(a, b) := ?p in _) =>
  let P := fresh "P" in assert (P : part_ok toks st n p);
  [first [apply part_filter|apply part_off|
      (match goal with |- context [if ?c then _ else _] => destruct c end; [apply part_filter|apply part_off])]
  |destruct p as [st' used] eqn:?; destruct P as (P1 & P2 & P3); cbn [fst snd] in P1, P2, P3; split; [exact P1|]; cbn [snd]] end.
Ltac tails := try assumption;
  repeat match goal with
  | P : forall k, ?u = Got k -> _, E : ?u = Got _ |- _ => specialize (P _ E)
  end;
  repeat match goal with
  | H : _ = Got (_, _) |- _ => binv H; inversion H; clear H; subst
  end; try bl.
Lemma get_safe st toks key : 4 <= List.length toks -> safe toks st (bop_get st toks key).
Proof.
  intros L. unfold bop_get. head. cbv zeta. head.
  match goal with |- context [slice toks 4 ?n] => filt n end.
  nfs; try (leaf || bl). all: clear HD HD0; tails.
Qed.
Lemma count_safe st toks key : 4 <= List.length toks -> safe toks st (bop_count st toks key).
Proof.
  intros L. unfold bop_count. head. cbv zeta.
  match goal with |- context [slice toks 4 ?n] => filt n end.
  nfs; try (leaf || bl). all: clear HD; tails.
Qed.
Lemma delete_safe st toks key : 4 <= List.length toks -> safe toks st (bop_delete st toks key).
Proof.
  intros L. unfold bop_delete, pipe_noreply. head. destruct a as [m r]. cbv zeta.
  match goal with |- context [slice toks 4 ?n] => filt n end.
  nfs; try (leaf || bl). all: clear HD; tails.
Qed.
Lemma mget_safe sm st toks : 5 <= List.length toks -> safe toks st (bop_mget sm st toks).
Proof.
  intros L. unfold bop_mget, smget_mode. head. destruct a as [[[s0 lk] nk] r]. cbv zeta.
  match goal with |- context [slice toks 5 ?n] => filt n end.
  nfs; try (leaf || bl). all: clear HD; tails.
Qed.
Lemma plain_safe toks st r : nf r -> safe toks st (st, r).
Proof. intros H. split; [apply step_refl|exact H]. Qed.
Lemma bop_safe st toks sub key : 4 <= List.length toks -> safe toks st (bop_cmd st toks sub key).
Proof.
  intros L. unfold bop_cmd. cbv zeta.
  repeat match goal with |- safe _ _ (if ?c then _ else _) => destruct c eqn:? end.
  all: repeat match goal with E : _ = false |- _ => clear E end.
  all: match goal with
    | |- safe _ _ (bop_get _ _ _) => apply get_safe; exact L
    | |- safe _ _ (bop_count _ _ _) => apply count_safe; exact L
    | |- safe _ _ (bop_delete _ _ _) => apply delete_safe; exact L
    | |- safe _ _ (bop_mget _ _ _) => apply mget_safe; bl
    | |- safe _ _ (_, ?r) => apply plain_safe;
        lazymatch r with
        | bop_insert _ _ _ => apply insert_nf | bop_update _ _ => apply update_nf | bop_arith _ _ _ => apply arith_nf
        | bop_position _ _ => apply position_nf | bop_pwg _ _ => apply pwg_nf | bop_gbp _ _ => apply gbp_nf
        | create_cmd _ _ _ => apply ccmd_nf | No _ => discriminate end; bl
    end.
Qed.

Lemma parse_safe mm st toks : safe toks st (parse mm st toks).
Proof.
  unfold parse. cbv zeta. destruct (tk toks 0) eqn:T0; [|apply plain_safe; discriminate].
  assert (RUN : forall k, (forall sub key, safe toks st (k sub key)) -> 4 <= List.length toks ->
    safe toks st (match sub <- tk toks 1;; key <- tk toks 2;; Got (sub, key) with
     | Got (sub, key) => if N.ltb KEY_MAX_LENGTH (N.of_nat (List.length key)) then (st, No Bad) else k sub key
     | No e => (st, No e) end)).
  { intros k H L. head. destruct a0 as [sub key]. destruct (N.ltb _ _); [apply plain_safe; discriminate|apply H]. }
  destruct (_ && beqb a (txt "lop"))%bool eqn:C1.
  { apply RUN; [intros; apply plain_safe, lop_nf|]; bl. }
  clear C1. destruct (_ && beqb a (txt "sop"))%bool eqn:C2.
  { apply RUN; [intros; apply plain_safe, sop_nf|]; bl. }
  clear C2. destruct (_ && beqb a (txt "mop"))%bool eqn:C3.
  { apply RUN; [intros; apply plain_safe, mop_nf|]; bl. }
  clear C3. destruct (_ && beqb a (txt "bop"))%bool eqn:C4.
  { apply RUN; [intros; apply bop_safe|]; bl. }
  apply plain_safe. discriminate.
Qed.
