(* C68: what the detection of long queries shows. *)
From Coq Require Import String.
From Coq Require Import List NArith Bool Arith Lia.
From Verif Require Import Base UtilModel ArgTypes LqModel LqSpec LqProofs.
Import ListNotations.
Local Open Scope list_scope.
Local Open Scope nat_scope.

(* For every sequence of starts, stops, requests and shows, whatever the unset memory holds: every answer is the one of the book, and
   the book has only one.  Missing: a stop and a start between the test of the threshold and the lock. *)
Theorem C68_shown_partial l : Forall sane l -> (N.of_nat (List.length l) < 2 ^ 32)%N ->
  exists bk, books empty l (snd (run init l)) bk /\ forall os bk', books empty l os bk' -> os = snd (run init l) /\ bk' = bk.
Proof.
  intros S L. destruct (run_ok l init empty rel_init S) as (bk & B & _); [intro c; exact L|].
  exists bk. split; [exact B|]. intros os bk' B'. destruct (books_one _ _ _ _ B _ _ B'). auto.
Qed.

(* the text of a command stays in its 20 * 500 bytes and each line is whole: it ends where the next starts *)
Theorem C68_room l c : Forall sane l -> (N.of_nat (List.length l) < 2 ^ 32)%N -> c < 10 ->
  offset (bufs (fst (run init l)) c) < 20 * 500 /\ nsaved (bufs (fst (run init l)) c) <= 20 /\ ntotal (bufs (fst (run init l)) c) = 0%N \/
  offset (bufs (fst (run init l)) c) < 20 * 500 /\ nsaved (bufs (fst (run init l)) c) <= 20 /\
  List.length (data (bufs (fst (run init l)) c)) = offset (bufs (fst (run init l)) c).
Proof.
  intros S L C. destruct (run_ok l init empty rel_init S) as (bk & _ & R); [intro d; exact L|].
  pose proof (r_buf _ _ R c C) as Rb. pose proof (lines_len _ (rb_line _ _ _ _ Rb)) as LS. pose proof (rb_few _ _ _ _ Rb) as FW.
  assert (offset (bufs (fst (run init l)) c) < 20 * 500) by (rewrite (rb_off _ _ _ _ Rb); lia).
  assert (nsaved (bufs (fst (run init l)) c) <= 20) by (unfold nsaved; rewrite (F2_len _ _ _ (rb_ent _ _ _ _ Rb)); lia).
  destruct (N.eq_dec (total bk c) 0) as [Z|Z].
  - left. rewrite (rb_total _ _ _ _ Rb). auto.
  - right. split; [assumption|]. split; [assumption|]. rewrite (rb_off _ _ _ _ Rb), (rb_data _ _ _ _ Rb) by lia. reflexivity.
Qed.

(* in a book no line repeats an earlier one, at most twenty are kept, and no more than were counted *)
Definition apart (c : nat) (k : list noted) : Prop := ForallOrdPairs (fun n m => ~ repeats c (n_ask m) (n_key m) n) k.
Lemma apart_snoc c k n : apart c k -> ~ Exists (repeats c (n_ask n) (n_key n)) k -> apart c (k ++ [n]).
Proof.
  intros A N. induction A as [|x k F A IH]; cbn [app]; [repeat constructor|]. constructor.
  - apply Forall_app. split; [exact F|]. constructor; [|constructor]. intro X. apply N. constructor. exact X.
  - apply IH. intro X. apply N. apply Exists_cons_tl. exact X.
Qed.
Definition tidy (bk : book) : Prop := forall c, apart c (kept bk c) /\ List.length (kept bk c) <= 20 /\ (N.of_nat (List.length (kept bk c)) <= total bk c)%N.
Theorem C68_distinct l os bk : books empty l os bk -> tidy bk.
Proof.
  assert (T0 : tidy empty) by (intro c; cbn; split; [constructor|lia]). revert T0. generalize empty. intros b T H.
  induction H as [|b e o b1 l os b2 N B IH]; [exact T|]. apply IH. clear IH B.
  inversion N; subst; try exact T; intro d; cbn [kept total]; unfold change;
    destruct (T d) as (T1 & T2 & T3).
  - split; [constructor|cbn; lia].
  - split; [exact T1|]. split; [exact T2|]. destruct (Nat.eqb_spec d c) as [->|]; lia.
  - destruct (Nat.eqb_spec d c) as [->|]; [|auto]. split; [apply apart_snoc; assumption|]. rewrite app_length. cbn [List.length]. lia.
Qed.

(* a case: a repeated query, a query told apart by its key, a short one, a long key, a second start with old bytes in the buffer *)
Definition now := txt "10:20:30.000001".
Definition ip := txt "127.0.0.1".
Definition ex : list event :=
  [Start 5; Long 0 now ip (txt "a") (Counted 0 []) 7 (txt "junk"); Long 0 now ip (txt "a") (Counted 0 []) 8 []; Long 0 now ip (txt "b") (Counted 0 []) 9 [];
   Long 0 now ip (txt "a") (Counted 0 []) 4 []; Long 5 now ip (repeat 107%N 300) (Plain (txt "0..-1")) 6 []; Show; Start 1; Stop; Stop;
   Long 5 now ip (txt "z") (Plain (txt "0..5")) 9 []; Start 0; Long 0 now ip (txt "c") (Counted 3 (txt " drop")) 4000 (txt "c"); Show].
Example C68_ex_sane : Forall sane ex /\ (N.of_nat (List.length ex) < 2 ^ 32)%N.
Proof. 
  split; [|reflexivity]. unfold ex.
  repeat (apply Forall_cons; [cbn [sane]; first [exact I | repeat match goal with |- _ /\ _ => split end;
    first [apply Nat.leb_le; reflexivity | reflexivity | left; reflexivity | right; right; left; reflexivity]]|]). apply Forall_nil.
Qed.
Example C68_ex : snd (run init ex) =
  let nl := [10%N] in
  [Started; Nothing; Nothing; Nothing; Nothing; Nothing;
   Text (txt "sop get : 3" ++ nl ++ txt "10:20:30.000001 127.0.0.1 <7> sop get a 0" ++ nl ++ txt "10:20:30.000001 127.0.0.1 <9> sop get b 0" ++ nl ++
         txt "mop delete : 0" ++ nl ++ txt "mop get : 0" ++ nl ++ txt "lop insert : 0" ++ nl ++ txt "lop delete : 0" ++ nl ++
         txt "lop get : 1" ++ nl ++ txt "10:20:30.000001 127.0.0.1 <6> lop get " ++ repeat 107%N 124 ++ txt "..." ++ repeat 107%N 123 ++ txt " 0..-1" ++ nl ++
         txt "bop delete : 0" ++ nl ++ txt "bop get : 0" ++ nl ++ txt "bop count : 0" ++ nl ++ txt "bop gbp : 0" ++ nl);
   Already; Stopped; Already; Nothing; Started; Nothing;
   Text (txt "sop get : 1" ++ nl ++ txt "10:20:30.000001 127.0.0.1 <4000> sop get c 3 drop" ++ nl ++
         txt "mop delete : 0" ++ nl ++ txt "mop get : 0" ++ nl ++ txt "lop insert : 0" ++ nl ++ txt "lop delete : 0" ++ nl ++ txt "lop get : 0" ++ nl ++
         txt "bop delete : 0" ++ nl ++ txt "bop get : 0" ++ nl ++ txt "bop count : 0" ++ nl ++ txt "bop gbp : 0" ++ nl)].
Proof. vm_compute. reflexivity. Qed.
(* a case in which the detection stops by itself: twenty queries for each command, and not one less *)
Definition many (c : nat) : list event :=
  map (fun i => Long c now ip (txt "k") (if Nat.ltb c 3 then Counted (N.of_nat i) [] else Plain (dec_text (N.of_nat i))) 9 []) (seq 0 20).
Definition all_full : list event := Start 5 :: flat_map many (seq 0 10).
Example C68_stops : in_use (fst (run init all_full)) = false /\ in_use (fst (run init (removelast all_full))) = true.
Proof. vm_compute. auto. Qed.

Print Assumptions C68_shown_partial.
Print Assumptions C68_room.
Print Assumptions C68_distinct.
