(* Properties of the list collection (C06, C07, element part of C38). *)
From Verif Require Import Base ListModel ListSpec ListProofs ListRefine.
Open Scope Z_scope.

(* ---- C06 ---- *)
(* Every history of list commands is answered exactly as the sequence specification answers it,
   and no command runs into undefined behaviour.  op_ok excludes only the insertion index
   -2^31, see C06_refuted. *)
Theorem C06_list_answers_as_sequence_partial : forall space maxsz ops, 10000 <= maxsz -> Forall op_ok ops ->
  exists s, run space (init maxsz) ops = Some (s, snd (spec_run (spec_init maxsz) ops)).
Proof.
  intros space maxsz ops H F. destruct (run_refines space ops _ _ F (Rel_init space maxsz ltac:(lia))) as (s & H1 & _).
  exists s. exact H1.
Qed.

Definition an_attr := {| a_flags := 7; a_maxcount := 3; a_ovfl := Some OvHeadTrim; a_readable := true |}.
Definition a_history : list op :=
  [Insert 0 [1] (Some an_attr); Insert (-1) [2] None; Insert 1 [3] None; Insert 1 [4] None;
   Get (-1) 0 false false; Delete 1 5 false; Get 0 (-1) true true; GetAttr; Release 0; Release 0; Release 5]%N.
Example C06_example : exists s, run (fun v => N.of_nat (length v)) (init 10000) a_history =
  Some (s, [OInsert Success true; OInsert Success false; OInsert Success false; OInsert Success false;
            OGet Success 7 [[2]; [3]; [4]]%N false; ODelete Success 2 false; OGet Success 7 [[4]]%N true;
            OCode KeyENOENT; ONone; ONone; ONone]).
Proof. eexists. vm_compute. reflexivity. Qed.
Example C06_example_ok : Forall op_ok a_history.
Proof. repeat constructor. Qed.

(* What is missing from the full statement: the index -2147483648.  process_lop_command accepts it
   (memcached.c 10826) and do_list_elem_insert negates it (coll_list.c 297), which is undefined
   for an int; the specification asks for OUT_OF_RANGE. *)
Theorem C06_refuted : forall space maxsz v a, 10000 <= maxsz ->
  run space (init maxsz) [Create a; Insert (- 2 ^ 31) v None] = None /\
  snd (spec_run (spec_init maxsz) [Create a; Insert (- 2 ^ 31) v None]) = [OCode Success; OInsert EIndexOOR false].
Proof.
  intros space maxsz v a H. split; [reflexivity|].
  cbn [spec_run spec_step sl spec_init put]. unfold insert_result, position, size, fresh_list. cbn [elems length].
  change (0 <=? - 2 ^ 31) with false. cbn iota. change (Z.of_nat 0 + 1 + - 2 ^ 31 <? 0) with true. reflexivity.
Qed.

(* ---- C07 ---- *)
Lemma run_app space ops1 ops2 s s2 outs : run space s (ops1 ++ ops2) = Some (s2, outs) ->
  exists s1 o1 o2, run space s ops1 = Some (s1, o1) /\ run space s1 ops2 = Some (s2, o2) /\ outs = o1 ++ o2.
Proof.
  revert s outs. induction ops1 as [|o r IH]; intros s outs H.
  - exists s, [], outs. repeat split; assumption || reflexivity.
  - cbn [app run] in *. destruct (step space s o) as [[s1 x]|]; [|discriminate]. cbn [bindo] in *.
    destruct (run space s1 (r ++ ops2)) as [[s3 xs]|] eqn:E; [|discriminate]. cbn [bindo] in H. inversion H; subst.
    destruct (IH _ _ E) as (s4 & o1 & o2 & H1 & H2 & H3). exists s4, (x :: o1), o2. rewrite H1. cbn [bindo].
    subst. repeat split; assumption.
Qed.

(* in every reachable state the element count shown to clients is within the maximum shown to them *)
Theorem C07_count_within_maximum : forall space maxsz ops s outs n mc act rd, 10000 <= maxsz -> Forall op_ok ops ->
  run space (init maxsz) (ops ++ [GetAttr]) = Some (s, outs ++ [OAttr n mc act rd]) -> 0 <= n <= mc.
Proof.
  intros space maxsz ops s outs n mc act rd H F R. apply run_app in R as (s1 & o1 & o2 & R1 & R2 & R3).
  destruct (run_refines space ops _ _ F (Rel_init space maxsz ltac:(lia))) as (s' & H1 & c & B & H2).
  rewrite R1 in H1. inversion H1; subst s'. cbn in R2. inversion R2; subst o2. subst s1. apply app_inj_tail in R3 as [_ R3].
  unfold list_getattr in R3. destruct (slt s) as [| |m]; try discriminate.
  destruct (sl _) as [| |l]; try contradiction. destruct H2 as (ids & W & H2). pose proof (proj1 (proj2 (proj2 (proj2 H2)))) as C.
  inversion R3; subst. rewrite (w_cnt _ _ _ _ _ _ _ _ W). unfold real_cap in C. lia.
Qed.

(* an insertion into a full list, seen through the reads before and after it *)
Definition seen_insert (i : Z) (v : bytes) (a : option attrs) : list op :=
  [GetAttr; Get 0 (-1) false false; Insert i v a; Get 0 (-1) false false].

Lemma read_all e : e <> [] ->
  between 0 (Z.min (from_head 0 (size e)) (from_head (-1) (size e)))
            (Z.max (from_head 0 (size e)) (from_head (-1) (size e))) e = e /\
  (from_head 0 (size e) <=? from_head (-1) (size e)) = true.
Proof.
  intros He. unfold from_head. change (0 <? 0) with false. change (-1 <? 0) with true. cbn iota.
  assert (1 <= size e) by (unfold size; destruct e; [congruence|cbn [length]; lia]).
  split; [|lia]. rewrite (between_eq (fun _ => 0%N)). rewrite Z.min_l, Z.max_r, Z.max_l by lia.
  change (Z.to_nat (0 - 0)) with 0%nat. cbn [skipn]. apply firstn_all2. unfold size in *. lia.
Qed.

Lemma spec_get_all ss l : sl ss = AList l -> shown l = true -> elems l <> [] ->
  spec_step ss (Get 0 (-1) false false) = (ss, OGet Success (flags l) (elems l) false).
Proof.
  intros SS SH NE. cbn [spec_step]. rewrite SS, SH. destruct (read_all _ NE) as [-> ->].
  destruct (elems l); [congruence|reflexivity].
Qed.

Lemma spec_get_some ss fl e d : snd (spec_step ss (Get 0 (-1) false false)) = OGet Success fl e d ->
  exists l, sl ss = AList l /\ shown l = true /\ fl = flags l /\ e = elems l /\ e <> [].
Proof.
  destruct (sl ss) as [| |l] eqn:SS; [cbn [spec_step]; rewrite SS; discriminate..|].
  destruct (shown l) eqn:SH; [|cbn [spec_step]; rewrite SS, SH; discriminate].
  destruct (elems l) as [|x xs] eqn:EL.
  - cbn [spec_step]. rewrite SS, SH, EL. discriminate.
  - rewrite (spec_get_all ss l) by (congruence || assumption). rewrite EL. intro H. inversion H; subst.
    exists l. repeat split; congruence.
Qed.

Lemma put_at_length p v l : length (put_at p v l) = S (length l).
Proof. unfold put_at. rewrite app_length. cbn [length]. rewrite firstn_length, skipn_length. lia. Qed.
Lemma removelast_length (A : Type) (l : list A) : length (removelast l) = pred (length l).
Proof. induction l as [|x [|y l] IH]; [reflexivity..|]. cbn [removelast length] in *. rewrite IH. reflexivity. Qed.

Theorem C07_insert_on_full_list : forall space maxsz ops s outs n act fl before i v a c cr fl' after,
  10000 <= maxsz -> Forall op_ok ops -> - 2 ^ 31 < i ->
  run space (init maxsz) (ops ++ seen_insert i v a) =
    Some (s, outs ++ [OAttr n n act true; OGet Success fl before false; OInsert c cr; OGet Success fl' after false]) ->
  cr = false /\ fl' = fl /\ size before = n /\ size after = n /\
  ((c = EIndexOOR /\ after = before) \/
   (act = OvError /\ c = EOverflow /\ after = before) \/
   (act <> OvError /\ c = Success /\
     after = (if i =? -1 then tl before ++ [v]
              else if i =? 0 then v :: removelast before
              else match act with
                   | OvHeadTrim => tl (put_at (position i n) v before)
                   | _ => removelast (put_at (position i n) v before)
                   end))).
Proof.
  intros space maxsz ops s outs n act fl before i v a c cr fl' after H F I R.
  apply run_app in R as (s1 & o1 & o2 & R1 & R2 & R3).
  destruct (run_refines space ops _ _ F (Rel_init space maxsz ltac:(lia))) as (s' & H1 & H2).
  rewrite R1 in H1. inversion H1; subst s'. clear H1.
  set (ss := fst (spec_run (spec_init maxsz) ops)) in *.
  assert (F2 : Forall op_ok (seen_insert i v a)) by (repeat constructor; assumption).
  destruct (run_refines space _ _ _ F2 H2) as (s' & H3 & _). rewrite R2 in H3.
  assert (O2 : o2 = snd (spec_run ss (seen_insert i v a))) by congruence. clear H3 R2 R1 F F2 H2 s'.
  unfold seen_insert in O2. cbn [spec_run] in O2.
  destruct (spec_step ss GetAttr) as [ss1 x1] eqn:E1.
  destruct (spec_step ss1 (Get 0 (-1) false false)) as [ss2 x2] eqn:E2.
  destruct (spec_step ss2 (Insert i v a)) as [ss3 x3] eqn:E3.
  destruct (spec_step ss3 (Get 0 (-1) false false)) as [ss4 x4] eqn:E4.
  cbn [snd] in O2. subst o2.
  apply (f_equal (@rev _)) in R3. rewrite !rev_app_distr in R3. cbn [rev app] in R3. inversion R3; subst x1 x2 x3 x4. clear R3.
  assert (ss1 = ss) as -> by (cbn [spec_step] in E1; destruct (sl ss); congruence).
  destruct (spec_get_some ss fl before false) as (l & SS & SH & -> & -> & NE); [rewrite E2; reflexivity|].
  rewrite (spec_get_all ss l SS SH NE) in E2. inversion E2; subst ss2. clear E2.
  cbn [spec_step] in E1. rewrite SS in E1. injection E1 as N1 N2 AC0 _. subst act.
  cbn [spec_step] in E3. rewrite SS in E3.
  destruct (insert_result (cap ss l) (action l) i v (elems l)) as [cd e] eqn:IR. inversion E3; subst cd cr ss3. clear E3.
  destruct (spec_get_some _ fl' after false ltac:(rewrite E4; reflexivity)) as (l' & SS' & _ & -> & -> & _).
  cbn [put sl] in SS'. inversion SS'; subst l'. clear SS' E4. cbn [with_elems flags elems].
  split; [reflexivity|]. split; [reflexivity|]. split; [exact N1|].
  unfold insert_result in IR. rewrite N1, N2 in IR.
  destruct ((position i n <? 0) || (n <? position i n) || (if 0 <=? i then n <=? i else n <? - i)) eqn:OOR.
  { injection IR as <- <-. split; [assumption|]. left. split; reflexivity. }
  rewrite Z.ltb_irrefl in IR.
  assert (P0 : i = 0 -> put_at (position i n) v (elems l) = v :: elems l) by (intros ->; reflexivity).
  assert (P1 : i = -1 -> put_at (position i n) v (elems l) = elems l ++ [v]).
  { intros ->. unfold put_at, position. change (0 <=? -1) with false. cbn iota. unfold size in N1.
    rewrite firstn_all2, skipn_all2 by lia. reflexivity. }
  assert (SZ : e = elems l \/ e = tl (put_at (position i n) v (elems l)) \/ e = removelast (put_at (position i n) v (elems l))).
  { destruct (action l), (i =? 0), (i =? -1); inversion IR; auto. }
  split.
  { destruct SZ as [->|[->| ->]]; [assumption| |].
    - unfold size. pose proof (put_at_length (position i n) v (elems l)) as Q. destruct (put_at (position i n) v (elems l)); [discriminate|].
      cbn [tl length] in *. unfold size in N1. lia.
    - unfold size. rewrite removelast_length, put_at_length. unfold size in N1. lia. }
  right.
  assert (RL : forall (x y : bytes) xs, removelast (x :: y :: xs) = x :: removelast (y :: xs)) by reflexivity.
  destruct (action l) eqn:AC; [left; injection IR as <- <-; repeat split|right; split; [discriminate|]..];
    (destruct (Z.eqb_spec i 0) as [I0|I0]; [|destruct (Z.eqb_spec i (-1)) as [I1|I1]]);
    injection IR as <- <-; (split; [reflexivity|]).
  all: try (rewrite (P0 I0); destruct (Z.eqb_spec i (-1)); [lia|]; destruct (elems l); [congruence|apply RL]).
  all: try (rewrite (P1 I1); destruct (Z.eqb_spec i (-1)); [|lia]; destruct (elems l); [congruence|reflexivity]).
  all: destruct (Z.eqb_spec i (-1)); [lia|reflexivity].
Qed.

Definition full_history : list op :=
  [Create an_attr; Insert 0 [1] None; Insert 0 [2] None; Insert 0 [3] None]%N.
Example C07_example : exists s, run (fun v => N.of_nat (length v)) (init 10000) (full_history ++ seen_insert 1 [9]%N None) =
  Some (s, [OCode Success; OInsert Success false; OInsert Success false; OInsert Success false] ++
           [OAttr 3 3 OvHeadTrim true; OGet Success 7 [[3]; [2]; [1]]%N false; OInsert Success false;
            OGet Success 7 [[9]; [2]; [1]]%N false]).
Proof. eexists. vm_compute. reflexivity. Qed.

(* ---- C38, element part ---- *)
(* Whatever happens to the list, an element returned to a client keeps its memory and its value until
   that client releases it; and all element memory is either linked in the list or held. *)
Theorem C38_held_list_elements_stay : forall space maxsz ops s outs, 10000 <= maxsz -> Forall op_ok ops ->
  run space (init maxsz) ops = Some (s, outs) ->
  (forall i v, In (i, v) (held s) -> exists nd, hp s i = Some nd /\ nval nd = v /\ (0 < nref nd)%nat) /\
  (forall i nd, hp s i = Some nd ->
     (exists v, In (i, v) (held s)) \/
     (exists m fw, slt s = SList m /\ find (hp s) m (Z.of_nat fw) = Some (At i) /\ Z.of_nat fw < ccnt m)).
Proof.
  intros space maxsz ops s outs H F R.
  destruct (run_refines space ops _ _ F (Rel_init space maxsz ltac:(lia))) as (s' & H1 & c & B & H2).
  rewrite R in H1. inversion H1; subst s'. clear H1.
  assert (G : exists live m ids, WF space live c (hp s) m ids (hids s) [] /\ (ids <> [] -> slt s = SList m)).
  { destruct (slt s) as [| |m]; destruct (sl _) as [| |l]; try contradiction.
    - destruct H2 as [m W]. exists false, m, []. split; [exact W|congruence].
    - destruct H2 as [m W]. exists false, m, []. split; [exact W|congruence].
    - destruct H2 as (ids & W & _). exists true, m, ids. split; [exact W|reflexivity]. }
  destruct G as (live & m & ids & W & SLT). split.
  - intros i v I. assert (J : In i (hids s)) by (apply (in_map fst) in I; exact I).
    destruct (hp s i) as [nd|] eqn:E; [|exfalso; exact (w_held _ _ _ _ _ _ _ _ W i J E)].
    exists nd. split; [reflexivity|]. split.
    + rewrite (w_val _ _ _ _ _ _ _ _ W _ _ E). destruct B as (_ & _ & _ & B4). apply B4. exact I.
    + rewrite (w_ref _ _ _ _ _ _ _ _ W _ _ E). apply count_occ_In. exact J.
  - intros i nd E. destruct (w_where _ _ _ _ _ _ _ _ W _ _ E) as [I|(_ & _ & [I|[]])].
    + right. apply in_split in I as (l1 & l2 & K). exists m, (length l1). split; [apply SLT; rewrite K; destruct l1; discriminate|].
      assert (L : 0 <= Z.of_nat (length l1) < Z.of_nat (length ids)) by (rewrite K, app_length; cbn [length]; lia).
      rewrite (find_spec _ _ _ _ _ _ _ _ _ W L). rewrite Nat2Z.id, K, skipn_app, skipn_all, Nat.sub_diag.
      split; [reflexivity|]. rewrite (w_cnt _ _ _ _ _ _ _ _ W). lia.
    + left. apply in_map_iff in I as ([j v] & K & I). cbn in K. subst. exists v. exact I.
Qed.

(* elements read by two clients, then deleted, then one of the clients releases *)
Definition held_history : list op :=
  [Insert 0 [1] (Some an_attr); Insert 0 [2] None; Get 0 1 false false; Get 0 0 false false; DeleteKey; Release 0]%N.
Example C38_held_example : exists s outs, run (fun v => N.of_nat (length v)) (init 10000) held_history = Some (s, outs) /\
  held s = [(0%nat, [1]); (1%nat, [2])]%N /\ slt s = SEmpty.
Proof. do 2 eexists. split; [vm_compute; reflexivity|]. split; reflexivity. Qed.

Print Assumptions C06_list_answers_as_sequence_partial.
Print Assumptions C06_refuted.
Print Assumptions C07_count_within_maximum.
Print Assumptions C07_insert_on_full_list.
Print Assumptions C38_held_list_elements_stay.
