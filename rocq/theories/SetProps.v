(* Properties of the set collection (C08, C09). *)
From Verif Require Import Base HtModel HtProofs SetModel SetSpec SetProofs SetRefine SetTotal.

Definition new_set (cap : nat) : set_info := mkSet None 0 cap.

Lemma new_set_inv hash cap : Inv hash (new_set cap) [].
Proof. split; [constructor|]. split; reflexivity. Qed.

(* ---- C08 ---- *)
(* Whatever the hash function (any function to a C int): if no step of a history is undefined
   behaviour, then all answers are those of a mathematical set, and the count is its size. *)
Theorem C08_answers_as_a_set_partial : forall hash cap ops s xs, (forall k, range (hash k)) ->
  run hash (new_set cap) ops = Some (s, xs) ->
  exists A, spec_run cap [] ops xs A /\ NoDup A /\ ccnt s = length A /\
    (forall v, step hash s (Exist v) = Some (s, OBool true) -> In v A) /\
    (forall v, step hash s (Exist v) = Some (s, OBool false) -> ~ In v A).
Proof.
  intros hash cap ops s xs HI H. apply (run_ok hash HI _ _ []) in H as (A & S & I); [|apply new_set_inv].
  exists A. split; [exact S|]. split; [apply I|]. split; [apply I|]. split; intros v E.
  - apply (step_ok hash HI s A) in E as (A' & E & _); [|exact I]. inversion E; subst. tauto.
  - apply (step_ok hash HI s A) in E as (A' & E & _); [|exact I]. inversion E; subst. intros Q. assert (false = true) by tauto. discriminate.
Qed.

(* And no step is undefined behaviour, for every hash function, when no 65 of the inserted
   values agree in the low 28 bits of their hash and the random numbers drawn by Get are
   enough for its loops to end (rich). *)
Theorem C08_never_fails_partial : forall hash cap ops, (forall k, range (hash k)) ->
  (forall V, NoDup V -> incl V (flat_map (fun o => match o with Insert v _ _ _ => [v] | _ => [] end) ops) ->
     (exists r, forall v, In v V -> (hash v mod 2 ^ 28 = r)%Z) -> length V <= 64) ->
  (forall c del rnd, In (Get c del rnd) ops -> rich cap c rnd) ->
  exists s xs A, run hash (new_set cap) ops = Some (s, xs) /\ spec_run cap [] ops xs A /\ ccnt s = length A.
Proof.
  intros hash cap ops HI FEW RICH.
  assert (T : run hash (new_set cap) ops <> None).
  { eapply (run_total hash HI _ FEW ops (new_set cap) []); [apply new_set_inv|exact I|intros ? []|cbn; lia|].
    apply Forall_forall. intros o Ho. destruct o as [v st mr mn|v|v|c|c del rnd]; cbn [op_fine]; try exact I.
    - apply in_flat_map. exists (Insert v st mr mn). split; [exact Ho|left; reflexivity].
    - cbn [maxc new_set]. eapply RICH. exact Ho. }
  destruct (run hash (new_set cap) ops) as [[s xs]|] eqn:R; [|congruence].
  destruct (C08_answers_as_a_set_partial hash cap ops s xs HI R) as (A & S & _ & C & _). eauto 6.
Qed.

(* a history that splits and merges nodes: 70 values with the same low nibble *)
Definition a_hash (v : bytes) : Z := match v with [x] => (16 * Z.of_N x + 3) mod 2 ^ 31 | _ => 5 end.
Definition ins (x : N) : op := Insert [x] false true true.
Definition upto (n : nat) : list N := map N.of_nat (seq 0 n).
Definition b1 (x : N) : bytes := [x].
Definition a_history : list op :=
  map ins (upto 70) ++ [ins 3; Exist (b1 69); Get 2 false (seq 0 600)] ++
  map (fun x => Delete [x]) (upto 60) ++ [Exist (b1 3); Exist (b1 64); Delete (b1 3);
   Get 0 true (seq 0 600); Get 0 true (seq 0 600)].
Example C08_example : option_map snd (run a_hash (new_set 500) a_history) =
  Some (repeat (ORc SUCC) 70 ++ [ORc EEXISTS; OBool true; OElems [b1 64; b1 0]] ++
        repeat (ORc SUCC) 60 ++
        [OBool false; OBool true; ORc ENOENT;
         OElems [b1 63; b1 62; b1 61; b1 60; b1 69; b1 68; b1 67; b1 66; b1 65; b1 64]; ORc ENOENT]).
Proof. vm_compute. reflexivity. Qed.
Example C08_example_fine : exists s xs A,
  run a_hash (new_set 500) a_history = Some (s, xs) /\ spec_run 500 [] a_history xs A /\ ccnt s = length A.
Proof.
  apply C08_never_fails_partial.
  - intros k. unfold range, a_hash. destruct k as [|x [|y k]]; [lia| |lia].
    pose proof (Z.mod_pos_bound (16 * Z.of_N x + 3) (2 ^ 31)). lia.
  - intros V N IV (r & Hr).
    assert (S : forall v, In v V -> exists x, v = [x] /\ (x < 70)%N).
    { intros v Hv. apply IV in Hv. apply in_flat_map in Hv as (o & Ho & Hv).
      unfold a_history in Ho. rewrite !in_app_iff in Ho. destruct Ho as [Ho|[Ho|[Ho|Ho]]].
      - apply in_map_iff in Ho as (x & <- & Hx). destruct Hv as [<-|[]]. exists x. split; [reflexivity|].
        unfold upto in Hx. apply in_map_iff in Hx as (n & <- & Hn). apply in_seq in Hn. lia.
      - cbn [In] in Ho. repeat destruct Ho as [<-|Ho]; try (destruct Hv; fail); [|destruct Ho]. destruct Hv as [<-|[]]. exists 3%N. split; [reflexivity|lia].
      - apply in_map_iff in Ho as (x & <- & Hx). destruct Hv.
      - cbn [In] in Ho. repeat destruct Ho as [<-|Ho]; try (destruct Hv; fail). destruct Ho. }
    destruct V as [|v1 [|v2 V]]; [cbn; lia|cbn; lia|]. exfalso.
    destruct (S v1) as (x1 & -> & L1); [left; reflexivity|]. destruct (S v2) as (x2 & -> & L2); [right; left; reflexivity|].
    pose proof (Hr _ (or_introl eq_refl)) as H1. pose proof (Hr _ (or_intror (or_introl eq_refl))) as H2.
    cbn [a_hash] in H1, H2.
    rewrite (Z.mod_small _ (2 ^ 31)), (Z.mod_small _ (2 ^ 28)) in H1 by lia.
    rewrite (Z.mod_small _ (2 ^ 31)), (Z.mod_small _ (2 ^ 28)) in H2 by lia.
    assert (x1 = x2) by lia. subst. apply NoDup_cons_iff in N as [N _]. apply N. left; reflexivity.
  - intros c del rnd H. assert (R : rnd = seq 0 600 /\ c <= 2).
    { unfold a_history in H. rewrite !in_app_iff in H. destruct H as [H|[H|[H|H]]].
      - apply in_map_iff in H as (x & Q & _). discriminate.
      - cbn [In] in H. repeat destruct H as [H|H]; try discriminate; [|destruct H]. injection H as <- <- <-. split; [reflexivity|lia].
      - apply in_map_iff in H as (x & Q & _). discriminate.
      - cbn [In] in H. repeat destruct H as [H|H]; try discriminate; try (injection H as <- <- <-; split; [reflexivity|lia]). destruct H. }
    destruct R as [-> R]. split; [rewrite seq_length; lia|].
    intros m o Ho Hm. exists o. split; [apply in_seq; lia|apply Nat.mod_small; exact Ho].
Qed.

(* What is missing: 65 or more values with the same low 28 hash bits.  With a negative hash
   the node at depth 7 is indexed with a negative number. *)
Theorem C08_refuted : exists hash ops, (forall k, range (hash k)) /\
  (forall o, In o ops -> exists v, o = Insert v false true true) /\
  NoDup (flat_map (fun o => match o with Insert v _ _ _ => [v] | _ => [] end) ops) /\
  length ops = 71 /\ run hash (new_set 4000) ops = None.
Proof.
  exists (fun _ => (-1)%Z), (map ins (upto 71)). split; [intros k; unfold range; lia|].
  split; [intros o Ho; apply in_map_iff in Ho as (x & <- & _); eexists; reflexivity|].
  split; [|split; [reflexivity|vm_compute; reflexivity]].
  change (NoDup (map (fun x : N => [x]) (upto 71))).
  apply FinFun.Injective_map_NoDup; [intros a b Q; congruence|].
  apply FinFun.Injective_map_NoDup; [intros a b Q; lia|]. apply seq_NoDup.
Qed.
Example C08_70_is_fine : run (fun _ => (-1)%Z) (new_set 4000) (map ins (upto 70)) <> None.
Proof. vm_compute. discriminate. Qed.

(* ---- C09 ---- *)
Lemma spec_get_inv cap A c del rnd x A' : spec_step cap A (Get c del rnd) x A' ->
  (A = [] /\ A' = [] /\ x = ORc ENOENT) \/
  (A <> [] /\ exists l R, x = OElems l /\ Permutation A (l ++ R) /\ length l = size_wanted c (length A) /\ A' = if del then R else A).
Proof. intros H. inversion H; subst; [left; auto|right..]; (split; [assumption|]); eexists _, _; eauto. Qed.

(* After every history, a Get with any count (0 = all) returns distinct elements of the set,
   as many as asked for or all; with delete exactly these are gone afterwards. *)
Theorem C09_get_returns_distinct_members : forall hash cap ops s xs c del rnd s' l, (forall k, range (hash k)) ->
  run hash (new_set cap) ops = Some (s, xs) -> step hash s (Get c del rnd) = Some (s', OElems l) ->
  exists A, spec_run cap [] ops xs A /\
    NoDup l /\ incl l A /\ length l = (if Nat.eqb c 0 then length A else Nat.min c (length A)) /\
    ccnt s' = (if del then length A - length l else length A) /\
    forall v b, step hash s' (Exist v) = Some (s', OBool b) -> (b = true <-> In v A /\ (del = true -> ~ In v l)).
Proof.
  intros hash cap ops s xs c del rnd s' l HI H G. apply (run_ok hash HI _ _ []) in H as (A & S & I); [|apply new_set_inv].
  apply (step_ok hash HI s A) in G as (A' & G & I' & _); [|exact I]. exists A. split; [exact S|].
  assert (X : forall v b, step hash s' (Exist v) = Some (s', OBool b) -> (b = true <-> In v A')).
  { intros v b E. apply (step_ok hash HI s' A') in E as (A2 & E & _); [|exact I']. inversion E; subst. assumption. }
  assert (NA : NoDup A) by apply I.
  assert (COM : forall R, Permutation A (l ++ R) -> NoDup l /\ incl l A /\ (forall v, In v R <-> In v A /\ ~ In v l)).
  { intros R P. pose proof (Permutation_NoDup P NA) as N. split; [|split].
    - clear - N. induction l as [|x l IH]; [constructor|]. cbn [app] in N. apply NoDup_cons_iff in N as [N1 N2].
      constructor; [|auto]. intros Q. apply N1. apply in_app_iff. auto.
    - intros v Hv. eapply Permutation_in; [symmetry; exact P|]. apply in_app_iff. auto.
    - intros v. split.
      + intros Hv. split; [eapply Permutation_in; [symmetry; exact P|]; apply in_app_iff; auto|].
        clear - N Hv. induction l as [|x l IH]; [intros []|]. cbn [app] in N. apply NoDup_cons_iff in N as [N1 N2].
        intros [->|Q]; [apply N1; apply in_app_iff; auto|]. exact (IH N2 Q).
      + intros [Hv Nv]. eapply Permutation_in in Hv; [|exact P]. apply in_app_iff in Hv. tauto. }
  destruct I' as (_ & C' & _).
  apply spec_get_inv in G as [(_ & _ & G)|(NE & l0 & R & El & P & L & EA)]; [discriminate|]. injection El as <-.
  destruct (COM R P) as (C1 & C2 & C3). split; [exact C1|]. split; [exact C2|]. split; [exact L|].
  destruct del; subst A'.
  - split; [rewrite C', (Permutation_length P), app_length; lia|].
    intros v b E. rewrite (X v b E), C3. tauto.
  - split; [exact C'|]. intros v b E. rewrite (X v b E). split; [intros Q; split; [exact Q|discriminate]|tauto].
Qed.
(* and a Get on a nonempty set does answer (C08_never_fails_partial says it does not fail):
   an empty set answers ENOENT, any other set its elements *)
Theorem C09_get_answers : forall hash cap ops s xs c del rnd s' x, (forall k, range (hash k)) ->
  run hash (new_set cap) ops = Some (s, xs) -> step hash s (Get c del rnd) = Some (s', x) ->
  (ccnt s = 0 /\ x = ORc ENOENT) \/ (0 < ccnt s /\ exists l, x = OElems l /\ l <> []).
Proof.
  intros hash cap ops s xs c del rnd s' x HI H G. apply (run_ok hash HI _ _ []) in H as (A & S & I); [|apply new_set_inv].
  apply (step_ok hash HI s A) in G as (A' & G & I' & _); [|exact I]. destruct I as (_ & C & _). rewrite C.
  apply spec_get_inv in G as [(-> & _ & ->)|(NE & l0 & R & -> & P & L & EA)]; [left; auto|right].
  destruct A as [|a A]; [congruence|]. cbn [length] in *. split; [lia|]. exists l0. split; [reflexivity|]. intros ->. cbn [length] in L.
  unfold size_wanted in L. destruct (Nat.eqb_spec c 0); lia.
Qed.

(* the three ways of choosing: offsets, sampling, deletion *)
Example C09_example :
  option_map (fun r => skipn 30 (snd r)) (run a_hash (new_set 500)
    (map ins (upto 30) ++ [Get 3 false [7; 7; 11; 4; 4; 9]; Get 20 false (seq 5 90); Get 2 true [100; 40]; Exist (b1 10); Get 0 false []])) =
  Some [OElems [b1 22; b1 18; b1 25];
        OElems (map b1 [4; 27; 15; 10; 7; 16; 23; 13; 1; 24; 29; 0; 26; 9; 14; 22; 25; 28; 2; 6]%N);
        OElems [b1 19; b1 17]; OBool true;
        OElems (map b1 [29; 28; 27; 26; 25; 24; 23; 22; 21; 20; 18; 16; 15; 14; 13; 12; 11; 10; 9; 8; 7; 6; 5; 4; 3; 2; 1; 0]%N)].
Proof. vm_compute. reflexivity. Qed.

Print Assumptions C08_answers_as_a_set_partial.
Print Assumptions C08_never_fails_partial.
Print Assumptions C08_refuted.
Print Assumptions C09_get_returns_distinct_members.
Print Assumptions C09_get_answers.
