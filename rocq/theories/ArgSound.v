(* Proofs: every accepted line is a documented form or one of the others listed in ArgSpec.v;
   no line makes the parser read behind the tokens; the memory behind the filter. *)
From Coq Require Import String Ascii.
From Verif Require Import Base UtilModel UtilSpec ArgTypes ArgModel ArgSpec ArgProofs ArgFilter ArgCmd ArgBop ArgBop2.
From Coq Require Import List ZArith NArith Lia.
Local Open Scope nat_scope.
Local Open Scope list_scope.

Lemma narrow_all toks : narrow toks <-> Forall narrow1 toks.
Proof.
  rewrite Forall_forall. split.
  - intros H x I. exact (narrow_in _ _ H I).
  - intros H t p ps I C L. exact (H t I p ps C L).
Qed.

Ltac lens := repeat match goal with
  | E : andb _ _ = true |- _ => apply andb_prop in E; destruct E
  | E : orb _ _ = true |- _ => apply Bool.orb_prop in E
  | E : Nat.leb _ _ = true |- _ => apply Nat.leb_le in E
  | E : Nat.eqb _ _ = true |- _ => apply Nat.eqb_eq in E
  | E : beqb ?x (txt _) = true |- _ => apply beqb_eq in E; subst x
  end; cbn [List.length] in *.

Lemma bop_sound mm st st' key sub (l : list bytes) r : Forall narrow1 l -> List.length l <= 10 ->
  bop_cmd st (txt "bop" :: sub :: key :: l) sub key = (st', Got r) ->
  syntax mm (txt "bop" :: sub :: key :: l) r \/ lax mm (txt "bop" :: sub :: key :: l) r.
Proof.
  intros NW LEN H. unfold bop_cmd in H. cbn zeta in H.
  destruct (_ && (beqb sub (txt "insert") || _))%bool eqn:C1.
  { injection H as <- H. left. apply (binsert_sound mm (beqb sub (txt "upsert"))); [|exact LEN|exact H].
    lens. destruct H1 as [E|E]; apply beqb_eq in E; subst sub; [left|right]; split; reflexivity. }
  clear C1. destruct (_ && beqb sub (txt "create"))%bool eqn:C2.
  { injection H as <- H. lens. unfold create_cmd, noreply_only, last_token, bind, tk in H.
    each l LEN ltac:(fun _ => try (exfalso; cbn [List.length] in *; lia); ev H; brk H; injection H as <-; facts).
    all: create_case. }
  clear C2. destruct (_ && beqb sub (txt "update"))%bool eqn:C3.
  { injection H as <- H. left. lens. apply bupdate_sound; [lia|exact H]. }
  clear C3. destruct (_ && beqb sub (txt "delete"))%bool eqn:C4.
  { left. lens. apply (bdelete_sound _ st st'); [exact NW|lia|exact H]. }
  clear C4. destruct (_ && (beqb sub (txt "incr") || _))%bool eqn:C5.
  { injection H as <- H. apply (barith_sound mm (beqb sub (txt "incr"))); [|lens; lia|exact H].
    lens. destruct H1 as [E|E]; apply beqb_eq in E; subst sub; [left|right]; split; reflexivity. }
  clear C5. destruct (_ && beqb sub (txt "get"))%bool eqn:C6.
  { left. lens. apply (bget_sound _ st st'); [exact NW|lia|exact H]. }
  clear C6. destruct (_ && beqb sub (txt "count"))%bool eqn:C7.
  { left. lens. apply (bcount_sound _ st st'); [exact NW|lia|exact H]. }
  clear C7. destruct (_ && (beqb sub (txt "mget") || _))%bool eqn:C8.
  { lens. destruct H1 as [E|E]; apply beqb_eq in E; subst sub.
    - left. apply (bmget_sound _ st st'); [exact NW|lia|exact H].
    - apply (bsmget_sound _ st st'); [exact NW|lia|exact H]. }
  clear C8. destruct (_ && beqb sub (txt "position"))%bool eqn:C9.
  { injection H as <- H. left. lens. apply bposition_sound; [lia|exact H]. }
  clear C9. destruct (_ && beqb sub (txt "pwg"))%bool eqn:C10.
  { injection H as <- H. left. lens. apply bpwg_sound; [|exact H].
    destruct H0 as [E|E]; apply Nat.eqb_eq in E; lia. }
  clear C10. destruct (_ && beqb sub (txt "gbp"))%bool eqn:C11.
  { injection H as <- H. left. lens. apply bgbp_sound; [lia|exact H]. }
  discriminate H.
Qed.

Theorem parse_sound mm st st' toks r : (mm <= 1000000)%N -> narrow toks ->
  parse mm st toks = (st', Got r) -> key_ok toks /\ (syntax mm toks r \/ lax mm toks r).
Proof.
  intros MM NW H. apply narrow_all in NW. unfold parse in H.
  destruct toks as [|cmd [|sub [|key l]]]; try discriminate H;
    try (exfalso; cbn in H; destruct (beqb cmd _); discriminate H).
  cbn [tk nth_error bind] in H. unfold KEY_MAX_LENGTH in H.
  inversion NW as [|? ? _ NW1]; subst. inversion NW1 as [|? ? _ NW2]; subst. inversion NW2 as [|? ? _ NW3]; subst.
  destruct (N.ltb 16000 (N.of_nat (List.length key))) eqn:KL.
  { repeat match type of H with (if ?b then _ else _) = _ => destruct b; try discriminate H end. }
  apply N.ltb_ge in KL. split; [intros k E; injection E as <-; exact KL|].
  destruct (_ && beqb cmd (txt "lop"))%bool eqn:C1.
  { injection H as <- H. lens. apply lop_sound; [lia|exact H]. }
  clear C1. destruct (_ && beqb cmd (txt "sop"))%bool eqn:C2.
  { injection H as <- H. lens. apply sop_sound; [lia|exact H]. }
  clear C2. destruct (_ && beqb cmd (txt "mop"))%bool eqn:C3.
  { injection H as <- H. lens. apply mop_sound; [exact MM|lia|exact H]. }
  clear C3. destruct (_ && beqb cmd (txt "bop"))%bool eqn:C4.
  { lens. apply (bop_sound mm st st'); [exact NW3|lia|exact H]. }
  discriminate H.
Qed.
