(* Proofs: the bop commands, see ArgModel.v and ArgSpec.v; every accepted line is a documented
   form or one of the others listed there. *)
From Coq Require Import String Ascii.
From Verif Require Import Base UtilModel UtilSpec ArgTypes ArgModel ArgSpec ArgProofs ArgFilter ArgCmd.
From Coq Require Import List ZArith NArith Lia.
Local Open Scope nat_scope.
Local Open Scope list_scope.
Arguments Z.leb !x !y.
Arguments Z.ltb !x !y.
Arguments Z.eqb !x !y.

Ltac nar := repeat match goal with
  | H : Forall narrow1 (_ :: _) |- _ => inversion H; clear H; subst end; repeat constructor; assumption.
(* as brk, and the result of the filter *)
Ltac fbrk H := repeat (first
  [ discriminate H
  | match goal with
    | E : get_efilter_from_tokens _ _ = (_, No _) |- _ => ev H; discriminate H
    | E : get_efilter_from_tokens _ ?L = (_, Got ?u) |- _ =>
        apply filter_cases in E; [|nar];
        destruct E as [[? E]|[[?|?] [? (? & ? & E)]]]; subst u;
        [|try (exfalso; cbn in *; lia)..]; rewrite ?E in *; ev H; try discriminate H
    end
  | match type of H with
    | context [get_efilter_from_tokens ?m ?L] =>
        let r := fresh "r" in
        destruct (get_efilter_from_tokens m L) as [? r] eqn:?; destruct r; ev H; try discriminate H
    | context [match ?x with _ => _ end] =>
        lazymatch x with context [match _ with _ => _ end] => fail | _ => idtac end;
        lazymatch x with
        | context [beqb ?a ?b] => destruct (beqb a b) eqn:?
        | _ => destruct x eqn:?
        end; wordeq; words; ev H; try discriminate H; try contra
    end ]).


Ltac done_ H := injection H as _ <-; rewrite ?filter_off;
  repeat match goal with E : filter_arg ?m = _ |- context [filter_arg ?m] => rewrite E end; cbn [firstn skipn] in *; facts.
Ltac ft_of f := lazymatch f with
  | None => constr:(@nil bytes)
  | Some ?v => match goal with H : filter_toks ?L v |- _ => constr:(L) end end.
(* the parts of a request *)
Ltac fparts := first [eassumption | discriminate | (left; split; reflexivity) | (right; split; reflexivity)
  | constructor; (eassumption || (constructor; eassumption)) | lia].

Lemma bget_sound mm st st' key (l : list bytes) r : Forall narrow1 l -> List.length l <= 9 -> 
  bop_get st (txt "bop" :: txt "get" :: key :: l) key = (st', Got r) ->
  syntax mm (txt "bop" :: txt "get" :: key :: l) r.
Proof.
  intros NW LEN H. unfold bop_get, opt, guard, bind, tk in H.
  each l LEN ltac:(fun _ => ev H; fbrk H; done_ H).
  all: match goal with |- syntax _ _ (BGet ?k ?r ?f ?o ?c ?t) =>
    let ft := ft_of f in let tt := tt_of t in
    first [ eapply (x_bget mm k _ r ft f [] o c tt t); fparts
          | eapply (x_bget mm k _ r ft f [_] o c tt t); fparts
          | eapply (x_bget mm k _ r ft f [_;_] o c tt t); fparts ]
    end.
Qed.

Lemma bcount_sound mm st st' key (l : list bytes) r : Forall narrow1 l -> List.length l <= 9 ->
  bop_count st (txt "bop" :: txt "count" :: key :: l) key = (st', Got r) ->
  syntax mm (txt "bop" :: txt "count" :: key :: l) r.
Proof.
  intros NW LEN H. unfold bop_count, opt, guard, bind, tk in H.
  each l LEN ltac:(fun _ => ev H; fbrk H; done_ H).
  all: match goal with |- syntax _ _ (BCount ?k ?r ?f) =>
    let ft := ft_of f in eapply (x_bcount mm k _ r ft f); fparts end.
Qed.

Lemma bdelete_sound mm st st' key (l : list bytes) r : Forall narrow1 l -> List.length l <= 9 ->
  bop_delete st (txt "bop" :: txt "delete" :: key :: l) key = (st', Got r) ->
  syntax mm (txt "bop" :: txt "delete" :: key :: l) r.
Proof.
  intros NW LEN H. unfold bop_delete, pipe_noreply, last_token, opt, guard, bind, tk in H.
  each l LEN ltac:(fun _ => ev H; fbrk H; done_ H).
  all: match goal with |- syntax _ _ (BDelete ?k ?r ?f ?c ?d ?m) =>
    let ft := ft_of f in let dt := dt_of d in let mt := mt_of m in
    first [ eapply (x_bdelete mm k _ r ft f [] c dt d mt m); fparts
          | eapply (x_bdelete mm k _ r ft f [_] c dt d mt m); fparts ]
    end.
Qed.

Lemma key_room n : (n <> 0 -> n <= 10000 ->
  ((n * KEY_MAX_LENGTH) mod 4294967296 + n + 4294967295) mod 4294967296 = n * 16001 - 1)%N.
Proof.
  unfold KEY_MAX_LENGTH. intros Z L. rewrite (N.mod_small (n * 16000)) by lia.
  replace (n * 16000 + n + 4294967295)%N with ((n * 16001 - 1) + 1 * 4294967296)%N by lia.
  rewrite N.mod_add by lia. apply N.mod_small. lia.
Qed.
Lemma keys_okE M n k : (M <= 10000 -> n <= 4294967293 -> n <> 0 -> k <> 0 -> k <= n / 2 + 1 ->
  n <= ((k * KEY_MAX_LENGTH) mod 4294967296 + k + 4294967295) mod 4294967296 -> k <= M -> keys_ok M n k)%N.
Proof.
  intros A B C D E F G. rewrite key_room in F by lia. unfold keys_ok. lia.
Qed.
Lemma sum_wrap a b : (a < 4294967296 -> b < 4294967296 -> (a + b) mod 4294967296 <= 2000 ->
  a + b <= 2000 \/ 4294967296 <= a + b <= 4294967296 + 2000)%N.
Proof.
  intros A B C. destruct (N.ltb_spec (a + b) 4294967296) as [L|L].
  - rewrite N.mod_small in C by lia. lia.
  - replace (a + b)%N with ((a + b - 4294967296) + 1 * 4294967296)%N in C by lia.
    rewrite N.mod_add in C by lia. rewrite N.mod_small in C by lia. lia.
Qed.
Ltac kparts := first [ fparts | eapply keys_okE; (eassumption || (unfold MAX_BMGET_KEY_COUNT, MAX_SMGET_KEY_COUNT in *; lia)) ].

Lemma bmget_sound mm st st' key (l : list bytes) r : Forall narrow1 l -> List.length l <= 10 ->
  bop_mget false st (txt "bop" :: txt "mget" :: key :: l) = (st', Got r) ->
  syntax mm (txt "bop" :: txt "mget" :: key :: l) r.
Proof.
  intros NW LEN H. unfold bop_mget, opt, guard, bind, tk in H.
  each l LEN ltac:(fun _ => ev H; fbrk H; done_ H).
  all: unfold MAX_BMGET_KEY_COUNT, MAX_BMGET_ELM_COUNT in *;
    match goal with |- syntax _ _ (BMget ?l ?n ?r ?f ?o ?c) =>
    let ft := ft_of f in
    first [ eapply (x_bmget mm _ l _ n _ r ft f [] o _ c); kparts
          | eapply (x_bmget mm _ l _ n _ r ft f [_] o _ c); kparts ]
    end.
Qed.

Lemma bsmget_sound mm st st' key (l : list bytes) r : Forall narrow1 l -> List.length l <= 10 ->
  bop_mget true st (txt "bop" :: txt "smget" :: key :: l) = (st', Got r) ->
  syntax mm (txt "bop" :: txt "smget" :: key :: l) r \/ lax mm (txt "bop" :: txt "smget" :: key :: l) r.
Proof.
  intros NW LEN H. unfold bop_mget, smget_mode, last_token, opt, guard, bind, tk in H.
  each l LEN ltac:(fun _ => ev H; fbrk H; done_ H).
  all: unfold MAX_SMGET_KEY_COUNT, MAX_SMGET_REQ_COUNT in *;
    match goal with |- syntax _ _ (BSmget ?l ?n ?r ?f ?o ?c ?s) \/ _ =>
    let ft := ft_of f in
    let st := lazymatch s with OldMode => constr:(@nil bytes) | Duplicate => constr:([txt "duplicate"]) | Unique => constr:([txt "unique"]) end in
    match goal with
    | A : num_u32 ?x o, B : num_u32 ?y c, S : ((o + c) mod _ <= _)%N |- _ =>
        destruct (sum_wrap _ _ (u32_lt _ _ A) (u32_lt _ _ B) S);
        [left; eapply (x_bsmget mm _ l _ n _ r ft f [_] o _ c st s); kparts
        |right; eapply (l_smget mm _ l _ n _ r ft f _ o _ c st s); kparts]
    | B : num_u32 ?y c, S : (_ mod _ <= _)%N |- _ =>
        assert (c <= 2000)%N by (revert S; rewrite N.mod_small by (apply u32_lt in B; lia); lia);
        left; eapply (x_bsmget mm _ l _ n _ r ft f [] o _ c st s); kparts
    | _ => idtac end end.
Qed.
