(* The lines of the collection commands and the requests they stand for. *)
From Coq Require Import String Ascii.
From Verif Require Import Base UtilModel UtilSpec ArgTypes ArgModel ArgSpec ArgProofs ArgFilter ArgCmd ArgSound
  ArgComplete2 ArgSafe.
From Coq Require Import List ZArith NArith Lia.
Local Open Scope nat_scope.
Local Open Scope list_scope.

(* ---------- C57: which lines are accepted, and what they mean ---------- *)
(* every documented line is accepted as what it says, whatever the connection did before *)
Theorem C57_documented mm st toks r : (mm <= 1000000)%N -> key_ok toks -> syntax mm toks r ->
  exists st', parse mm st toks = (st', Got r).
Proof. intros. apply parse_complete; auto. Qed.
(* nothing else is, up to the forms listed in [lax], as long as no list of values is too long *)
Theorem C57_nothing_else_partial mm st st' toks r : (mm <= 1000000)%N -> narrow toks ->
  parse mm st toks = (st', Got r) -> key_ok toks /\ (syntax mm toks r \/ lax mm toks r).
Proof. apply parse_sound. Qed.
(* a line has one meaning *)
Theorem C57_one_meaning mm toks r r' : (mm <= 1000000)%N -> key_ok toks ->
  syntax mm toks r \/ lax mm toks r -> syntax mm toks r' \/ lax mm toks r' -> r = r'.
Proof.
  intros MM KO H H'.
  destruct (parse_complete mm (fun _ => 0%N) toks r MM KO H) as (s1 & E1).
  destruct (parse_complete mm (fun _ => 0%N) toks r' MM KO H') as (s2 & E2).
  rewrite E1 in E2. now injection E2.
Qed.
(* nothing of an earlier command, not even of one that was refused half way, gets into it *)
Theorem C57_no_leftovers_partial mm st1 st2 st1' toks r : (mm <= 1000000)%N -> narrow toks ->
  parse mm st1 toks = (st1', Got r) -> exists st2', parse mm st2 toks = (st2', Got r).
Proof.
  intros MM NW H. destruct (parse_sound _ _ _ _ _ MM NW H) as [KO S]. now apply parse_complete.
Qed.
(* the other forms are accepted indeed: the documents are not kept *)
Theorem C57_others_accepted mm st toks r : (mm <= 1000000)%N -> key_ok toks -> lax mm toks r ->
  exists st', parse mm st toks = (st', Got r).
Proof. intros. apply parse_complete; auto. Qed.

Definition b0 : mem := fun _ => 0%N.
(* a line with everything *)
Definition long_line : list bytes :=
  [txt "bop"; txt "delete"; txt "key"; txt "10..0"; txt "3"; txt "&"; txt "0xFF"; txt "EQ"; txt "0x01,0x02"; txt "7";
   txt "drop"; txt "noreply"].
Definition long_req : req :=
  BDelete (txt "key") (Range (BInt 10) (BInt 0))
    (Some {| f_off := 3; f_bitw := Some (0%N, [255%N]); f_cmp := 0; f_vals := [[1%N]; [2%N]] |}) 7 true NoReply.
Example C57_ex : snd (parse 4000 b0 long_line) = Got long_req.
Proof. vm_compute. reflexivity. Qed.
Lemma narrow_count toks : forallb (fun t => Nat.leb (List.length (pieces t)) 100) toks = true -> narrow toks.
Proof.
  intros H t p ps I C L. exfalso. apply commas_pieces in C. rewrite forallb_forall in H.
  specialize (H t I). cbv beta in H. rewrite C in H. apply Nat.leb_le in H. cbn [List.length] in H. lia.
Qed.
Lemma long_narrow : narrow long_line.
Proof. apply narrow_count. vm_compute. reflexivity. Qed.
Lemma long_key : key_ok long_line.
Proof. intros k E. injection E as <-. vm_compute. discriminate. Qed.
Example C57_ex_syntax : key_ok long_line /\ narrow long_line /\ syntax 4000 long_line long_req.
Proof.
  split; [exact long_key|]. split; [exact long_narrow|].
  destruct (parse 4000 b0 long_line) as [st' r] eqn:E.
  assert (R : r = Got long_req) by (rewrite <- C57_ex, E; reflexivity). subst r.
  destruct (parse_sound 4000 b0 st' _ _ ltac:(lia) long_narrow E) as [_ [H|H]]; [exact H|].
  inversion H.
Qed.
(* a filter left behind does not show up in the next command *)
Example C57_ex_left : let st := fst (parse 4000 b0 long_line) in
  snd (parse 4000 st [txt "bop"; txt "count"; txt "key"; txt "1"]) = Got (BCount (txt "key") (Single (BInt 1)) None).
Proof. vm_compute. reflexivity. Qed.

(* words behind the end of a command are not noticed *)
Theorem C57_trailing_refuted : exists toks r st',
  parse 4000 b0 toks = (st', Got r) /\ narrow toks /\ forall r', ~ syntax 4000 toks r'.
Proof.
  exists [txt "mop"; txt "delete"; txt "key"; txt "1"; txt "1"; txt "drop"; txt "norepl"],
    (MDelete (txt "key") 1 1 true Reply), b0.
  split; [vm_compute; reflexivity|]. split.
  - apply narrow_count. vm_compute. reflexivity.
  - intros r' H.
    set (toks := [txt "mop"; txt "delete"; txt "key"; txt "1"; txt "1"; txt "drop"; txt "norepl"]) in H.
    assert (KO : key_ok toks) by (intros k E; injection E as <-; vm_compute; discriminate).
    assert (R : r' = MDelete (txt "key") 1 1 true Reply).
    { destruct (C57_documented 4000 b0 toks r' ltac:(lia) KO H) as (s & E).
      assert (P : snd (parse 4000 b0 toks) = Got (MDelete (txt "key") 1 1 true Reply)) by (vm_compute; reflexivity).
      rewrite E in P. cbn in P. now injection P. }
    subst r'. inversion H.
    repeat match goal with D : drop_opt _ _ |- _ => inversion D; clear D | M : mode_opt _ _ |- _ => inversion M; clear M end;
      subst; try discriminate.
Qed.
(* smget takes an offset of 2^32-1: offset + count is compared with the limit after it became 0 *)
Theorem C57_smget_refuted : exists toks st',
  parse 4000 b0 toks = (st', Got (BSmget 3 1 (Range (BInt 0) (BInt 9)) None 4294967295 1 Unique)) /\
  forall r', ~ syntax 4000 toks r'.
Proof.
  set (toks := [txt "bop"; txt "smget"; txt "3"; txt "1"; txt "0..9"; txt "4294967295"; txt "1"; txt "unique"]).
  assert (P : snd (parse 4000 b0 toks) = Got (BSmget 3 1 (Range (BInt 0) (BInt 9)) None 4294967295 1 Unique))
    by (vm_compute; reflexivity).
  exists toks, (fst (parse 4000 b0 toks)). split; [rewrite <- P; apply surjective_pairing|].
  intros r' H.
  assert (KO : key_ok toks) by (intros k E; injection E as <-; vm_compute; discriminate).
  assert (R : r' = BSmget 3 1 (Range (BInt 0) (BInt 9)) None 4294967295 1 Unique).
  { destruct (C57_documented 4000 b0 toks r' ltac:(lia) KO H) as (s & E). rewrite E in P. cbn in P. now injection P. }
  subst r'. inversion H. lia.
Qed.

(* ---------- C58: reading a line is safe ---------- *)
(* no line makes the parser follow a missing token *)
Theorem C58_no_fault mm st toks : snd (parse mm st toks) <> No Fault.
Proof. exact (proj2 (parse_safe mm st toks)). Qed.
(* nothing is written outside the structure for the filter *)
Theorem C58_inside_partial mm st toks : narrow toks ->
  forall i, (A_END <= i)%N -> fst (parse mm st toks) i = st i.
Proof. intros NW. exact (proj1 (parse_safe mm st toks) (proj1 (narrow_all toks) NW)). Qed.
Example C58_ex : narrow long_line /\ fst (parse 4000 b0 long_line) A_OFF <> b0 A_OFF.
Proof. split; [exact long_narrow|]. vm_compute. discriminate. Qed.

(* a hundred values of 31 bytes, and one more: it goes over the numbers of the structure and 25
   bytes of what is behind it; chosen well, it even makes the line an accepted one, with
   operations that do not exist *)
Definition v31 : bytes := txt "0x00000000000000000000000000000000000000000000000000000000000000,".
Definition v101 : bytes := txt "0xFF1F01C84D63AAAAAAAAAAAAAAAAAAAAAAAAAAAAAAAAAAAAAAAAAAAAAAAAAA".
Definition bad_line : list bytes :=
  [txt "bop"; txt "count"; txt "key"; txt "0"; txt "0"; txt "EQ"; concat (repeat v31 100) ++ v101].
Lemma bad_len : N.of_nat (List.length (nth 6 bad_line [])) = 6564%N.
Proof. vm_compute. reflexivity. Qed.
Theorem C58_inside_refuted : exists toks st' r,
  parse 4000 b0 toks = (st', Got r) /\
  (exists f, r = BCount (txt "key") (Single (BInt 0)) (Some f) /\ f_off f = 200%N /\ f_cmp f = 99%N /\
     exists w, f_bitw f = Some (77%N, w) /\ List.length w = 255) /\
  (forall i, (A_END <= i < A_END + 25)%N -> st' i = 170%N).
Proof.
  exists bad_line, (fst (parse 4000 b0 bad_line)).
  destruct (snd (parse 4000 b0 bad_line)) as [r|e] eqn:E.
  2:{ exfalso. assert (X : match snd (parse 4000 b0 bad_line) with Got _ => true | No _ => false end = true) by (vm_compute; reflexivity).
      rewrite E in X. discriminate X. }
  exists r. split; [rewrite <- E; apply surjective_pairing|]. split.
  - assert (X : match snd (parse 4000 b0 bad_line) with
        | Got (BCount k (Single (BInt 0)) (Some f)) =>
            (beqb k (txt "key") && N.eqb (f_off f) 200 && N.eqb (f_cmp f) 99 &&
             match f_bitw f with Some (77%N, w) => Nat.eqb (List.length w) 255 | _ => false end)%bool
        | _ => false end = true) by (vm_compute; reflexivity).
    rewrite E in X. destruct r as [| | | | | | | | | | | | | | | | |k rg [f|]| | | | |]; try discriminate X;
      destruct rg as [[[|]|]|]; try discriminate X.
    apply andb_prop in X. destruct X as [X X4]. apply andb_prop in X. destruct X as [X X3].
    apply andb_prop in X. destruct X as [X1 X2].
    apply beqb_eq in X1. apply N.eqb_eq in X2, X3. subst k.
    exists f. split; [reflexivity|]. split; [exact X2|]. split; [exact X3|].
    destruct (f_bitw f) as [[[|p] w]|]; try discriminate X4.
    destruct (Pos.eq_dec p 77) as [->|N7].
    + exists w. split; [reflexivity|]. now apply Nat.eqb_eq in X4.
    + exfalso. repeat (destruct p as [p|p|]; try discriminate X4; try congruence).
  - intros i I.
    assert (X : forallb (fun k => N.eqb (fst (parse 4000 b0 bad_line) (A_END + N.of_nat k)%N) 170) (seq 0 25) = true)
      by (vm_compute; reflexivity).
    rewrite forallb_forall in X. specialize (X (N.to_nat (i - A_END))).
    assert (J : In (N.to_nat (i - A_END)) (seq 0 25)) by (apply in_seq; lia).
    apply X, N.eqb_eq in J. rewrite <- J. f_equal. lia.
Qed.

Print Assumptions C57_documented.
Print Assumptions C57_nothing_else_partial.
Print Assumptions C57_one_meaning.
Print Assumptions C57_no_leftovers_partial.
Print Assumptions C57_others_accepted.
Print Assumptions C57_trailing_refuted.
Print Assumptions C57_smget_refuted.
Print Assumptions C58_no_fault.
Print Assumptions C58_inside_partial.
Print Assumptions C58_inside_refuted.
