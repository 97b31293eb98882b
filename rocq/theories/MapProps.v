(* Properties of the map collection (C10). *)
From Verif Require Import Base HtModel HtProofs MapModel MapSpec MapProofs MapRefine MapTotal.

Definition new_map (cap : nat) : map_info := mkMap None 0 cap.

Lemma new_map_inv hash cap : Inv hash (new_map cap) [].
Proof. split; [constructor|]. split; reflexivity. Qed.

Lemma spec_get1_inv cap A f x A' : spec_step cap A (Get [f] false) x A' ->
  (x = OElems (fst (picks false A [f])) /\ fst (picks false A [f]) <> []) \/ (x = ORc ENOENT /\ forall p, In p A -> fst p <> f).
Proof.
  intros H. inversion H; subst; [left; auto|right]. split; [reflexivity|]. intros p Hp E. match goal with K : forall p, In p _ -> ~ _ |- _ => apply (K p Hp); left; symmetry; exact E end.
Qed.

(* Whatever the hash function (any function to a C int): if no step of a history is undefined
   behaviour, then all answers are those of a finite map from fields to values, the count is
   the number of fields, and a lookup of one field gives its value. *)
Theorem C10_answers_as_a_map_partial : forall hash cap ops s xs, (forall k, range (hash k)) ->
  run hash (new_map cap) ops = Some (s, xs) ->
  exists A, spec_run cap [] ops xs A /\ NoDup (keys A) /\ ccnt s = length A /\
    (forall f l, step hash s (Get [f] false) = Some (s, OElems l) -> exists v, l = [(f, v)] /\ In (f, v) A) /\
    (forall f, step hash s (Get [f] false) = Some (s, ORc ENOENT) -> ~ In f (keys A)).
Proof.
  intros hash cap ops s xs HI H. apply (run_ok hash HI _ _ []) in H as (A & S & I); [|apply new_map_inv].
  exists A. split; [exact S|]. split; [apply I|]. split; [apply I|]. split.
  - intros f l E. apply (step_ok hash HI s A) in E as (A' & E & _); [|exact I].
    apply spec_get1_inv in E as [[E NE]|[E _]]; [|discriminate]. injection E as ->.
    assert (H : In f (keys A)).
    { destruct (in_dec (list_eq_dec N.eq_dec) f (keys A)) as [Y|Y]; [exact Y|exfalso]. apply NE. cbn. rewrite (proj1 (filter_none f A Y)). reflexivity. }
    apply in_map_iff in H as (p & Ep & Hp). apply in_split in Hp as (a & b & ->).
    destruct (filter_one (a ++ p :: b) p (a ++ b)) as [F _]; [apply I|symmetry; apply Permutation_middle|]. subst f.
    exists (snd p). cbn [picks fst]. rewrite F. cbn. destruct p; cbn [fst snd]. split; [reflexivity|]. apply in_app_iff. right; left; reflexivity.
  - intros f E. apply (step_ok hash HI s A) in E as (A' & E & _); [|exact I].
    apply spec_get1_inv in E as [[E _]|[_ E]]; [discriminate|]. intros Q. apply in_map_iff in Q as (p & Ep & Hp). exact (E p Hp Ep).
Qed.

(* And no step is undefined behaviour, for every hash function, when no 65 of the inserted
   fields agree in the low 28 bits of their hash and no Get (without delete) names a field
   twice. *)
Theorem C10_never_fails_partial : forall hash cap ops, (forall k, range (hash k)) ->
  (forall V, NoDup V -> incl V (flat_map (fun o => match o with Insert f _ _ _ _ _ => [f] | _ => [] end) ops) ->
     (exists r, forall v, In v V -> (hash v mod 2 ^ 28 = r)%Z) -> length V <= 64) ->
  (forall fl, In (Get fl false) ops -> NoDup fl) ->
  exists s xs A, run hash (new_map cap) ops = Some (s, xs) /\ spec_run cap [] ops xs A /\ ccnt s = length A.
Proof.
  intros hash cap ops HI FEW ND.
  assert (T : run hash (new_map cap) ops <> None).
  { eapply (run_total hash HI _ FEW ops (new_map cap) []); [apply new_map_inv|exact I|intros ? []|].
    apply Forall_forall. intros o Ho. destruct o as [f v rep st mr mn|f v held st mem|fl|fl del|count]; cbn [op_fine]; try exact I.
    - apply in_flat_map. exists (Insert f v rep st mr mn). split; [exact Ho|left; reflexivity].
    - destruct del; [left; reflexivity|right; apply ND; exact Ho]. }
  destruct (run hash (new_map cap) ops) as [[s xs]|] eqn:R; [|congruence].
  destruct (C10_answers_as_a_map_partial hash cap ops s xs HI R) as (A & S & _ & C & _). eauto 6.
Qed.

(* a history with splits, merges, replacement, update and deletion *)
Definition a_hash (v : bytes) : Z := match v with [x] => (16 * Z.of_N x + 3) mod 2 ^ 31 | _ => 5 end.
Definition b1 (x : N) : bytes := [x].
Definition ins (x : N) : op := Insert (b1 x) (b1 (x + 100)) false false true true.
Definition upto (n : nat) : list N := map N.of_nat (seq 0 n).
Definition a_history : list op :=
  map ins (upto 70) ++
  [ins 3; Insert (b1 3) (b1 7) true false true true; Update (b1 4) [1; 2]%N false false true; Update (b1 90) (b1 2) false false true;
   Get (map b1 [4; 99; 3; 69]%N) false] ++
  map (fun x => Delete [b1 x]) (upto 60) ++
  [Delete [b1 3]; Get [b1 66; b1 66; b1 2] true; DeleteSome 5; Get [] false; Delete []; Get [] false].
Example C10_example : option_map snd (run a_hash (new_map 500) a_history) =
  Some (repeat (OIns false) 70 ++
        [ORc EEXISTS; OIns true; ORc SUCC; ORc ENOENT;
         OElems [(b1 4, [1; 2]%N); (b1 3, b1 7); (b1 69, b1 169)]] ++
        repeat (ONum 1) 60 ++
        [ORc ENOENT; OElems [(b1 66, b1 166)]; ONum 5;
         OElems [(b1 68, b1 168); (b1 67, b1 167); (b1 65, b1 165); (b1 64, b1 164)]; ONum 4; ORc ENOENT]).
Proof. vm_compute. reflexivity. Qed.

(* the hypotheses of C10_never_fails_partial hold for a history *)
Example C10_example_fine : exists s xs A,
  run a_hash (new_map 500) a_history = Some (s, xs) /\ spec_run 500 [] a_history xs A /\ ccnt s = length A.
Proof.
  apply C10_never_fails_partial.
  - intros k. unfold range, a_hash. destruct k as [|x [|y k]]; [lia| |lia].
    pose proof (Z.mod_pos_bound (16 * Z.of_N x + 3) (2 ^ 31)). lia.
  - intros V N IV (r & Hr).
    assert (S : forall v, In v V -> exists x, v = [x] /\ (x < 70)%N).
    { intros v Hv. apply IV in Hv. apply in_flat_map in Hv as (o & Ho & Hv).
      unfold a_history in Ho. rewrite !in_app_iff in Ho. destruct Ho as [Ho|[Ho|[Ho|Ho]]].
      - apply in_map_iff in Ho as (x & <- & Hx). destruct Hv as [<-|[]]. exists x. split; [reflexivity|].
        unfold upto in Hx. apply in_map_iff in Hx as (n & <- & Hn). apply in_seq in Hn. lia.
      - cbn [In] in Ho. repeat destruct Ho as [<-|Ho]; try (destruct Hv; fail); try (destruct Ho; fail);
          destruct Hv as [<-|[]]; exists 3%N; (split; [reflexivity|lia]).
      - apply in_map_iff in Ho as (x & <- & Hx). destruct Hv.
      - cbn [In] in Ho. repeat destruct Ho as [<-|Ho]; try (destruct Hv; fail). destruct Ho. }
    destruct V as [|v1 [|v2 V]]; [cbn; lia|cbn; lia|]. exfalso.
    destruct (S v1) as (x1 & -> & L1); [left; reflexivity|]. destruct (S v2) as (x2 & -> & L2); [right; left; reflexivity|].
    pose proof (Hr _ (or_introl eq_refl)) as H1. pose proof (Hr _ (or_intror (or_introl eq_refl))) as H2.
    cbn [a_hash] in H1, H2.
    rewrite (Z.mod_small _ (2 ^ 31)), (Z.mod_small _ (2 ^ 28)) in H1 by lia.
    rewrite (Z.mod_small _ (2 ^ 31)), (Z.mod_small _ (2 ^ 28)) in H2 by lia.
    assert (x1 = x2) by lia. subst. apply NoDup_cons_iff in N as [N _]. apply N. left; reflexivity.
  - intros fl H. assert (R : fl = map b1 [4; 99; 3; 69]%N \/ fl = []).
    { unfold a_history in H. rewrite !in_app_iff in H. destruct H as [H|[H|[H|H]]].
      - apply in_map_iff in H as (x & Q & _). discriminate.
      - cbn [In] in H. repeat destruct H as [H|H]; try discriminate; [|destruct H]. injection H as <-. left; reflexivity.
      - apply in_map_iff in H as (x & Q & _). discriminate.
      - cbn [In] in H. repeat destruct H as [H|H]; try discriminate; try (injection H as <-; right; reflexivity). destruct H. }
    destruct R as [->| ->]; [|constructor].
    apply FinFun.Injective_map_NoDup; [intros a b Q; unfold b1 in Q; congruence|].
    repeat constructor; cbn [In]; lia.
Qed.

(* What is missing, first: a "mop get" that names a field more often than the map has fields
   writes past the end of its result array. *)
Theorem C10_repeated_field_refuted : exists hash ops, (forall k, range (hash k)) /\
  ops = [Insert (b1 97) (b1 1) false false true true; Get [b1 97; b1 97] false] /\
  run hash (new_map 4000) ops = None.
Proof.
  exists (fun _ => 0%Z), [Insert (b1 97) (b1 1) false false true true; Get [b1 97; b1 97] false].
  split; [intros k; unfold range; lia|]. split; [reflexivity|]. vm_compute. reflexivity.
Qed.
(* Second: fields with the same low 28 hash bits, as for sets. *)
Theorem C10_refuted : exists hash ops, (forall k, range (hash k)) /\
  (forall o, In o ops -> exists x, o = ins x) /\ length ops = 71 /\ NoDup ops /\ run hash (new_map 4000) ops = None.
Proof.
  exists (fun _ => (-1)%Z), (map ins (upto 71)). split; [intros k; unfold range; lia|].
  split; [intros o Ho; apply in_map_iff in Ho as (x & <- & _); eauto|]. split; [reflexivity|]. split; [|vm_compute; reflexivity].
  apply FinFun.Injective_map_NoDup; [intros a b Q; unfold ins, b1 in Q; congruence|].
  apply FinFun.Injective_map_NoDup; [intros a b Q; lia|]. apply seq_NoDup.
Qed.
Example C10_70_is_fine : run (fun _ => (-1)%Z) (new_map 4000) (map ins (upto 70)) <> None.
Proof. vm_compute. discriminate. Qed.

Print Assumptions C10_answers_as_a_map_partial.
Print Assumptions C10_never_fails_partial.
Print Assumptions C10_repeated_field_refuted.
Print Assumptions C10_refuted.
