(* Proofs: the remaining bop commands, see ArgModel.v and ArgSpec.v. *)
From Coq Require Import String Ascii.
From Verif Require Import Base UtilModel UtilSpec ArgTypes ArgModel ArgSpec ArgProofs ArgFilter ArgCmd.
From Coq Require Import List ZArith NArith Lia.
Local Open Scope nat_scope.
Local Open Scope list_scope.
Arguments Z.leb !x !y.
Arguments Z.ltb !x !y.
Arguments Z.eqb !x !y.

Ltac et_of e := lazymatch e with
  | @nil _ => constr:(@nil bytes)
  | ?b => match goal with H : hex_arg ?s b |- _ => constr:([s]) end end.

Lemma binsert_sound mm up sub key (l : list bytes) r :
  (sub = txt "insert" /\ up = false) \/ (sub = txt "upsert" /\ up = true) ->
  List.length l <= 10 ->
  bop_insert up (txt "bop" :: sub :: key :: l) key = Got r ->
  syntax mm (txt "bop" :: sub :: key :: l) r.
Proof.
  intros W LEN H. unfold bop_insert, pipe_noreply, last_token, create_part, opt, guard, bind, tk in H.
  each l LEN ltac:(fun _ => ev H; brk H; injection H as <-; facts).
  all: match goal with
    | |- syntax _ _ (BInsert ?u ?k ?bk ?e ?vl ?cr true Reply) =>
        let et := et_of e in let ct := ct_of cr in
        eapply (x_bgetrim mm sub u k _ bk et e _ vl ct cr); parts
    | |- syntax _ _ (BInsert ?u ?k ?bk ?e ?vl ?cr false ?m) =>
        let et := et_of e in let ct := ct_of cr in let mt := mt_of m in
        eapply (x_binsert mm sub u k _ bk et e _ vl ct cr mt m); parts
    | _ => idtac end.
Qed.

Lemma bupdate_sound mm key (l : list bytes) r : List.length l <= 6 ->
  bop_update (txt "bop" :: txt "update" :: key :: l) key = Got r ->
  syntax mm (txt "bop" :: txt "update" :: key :: l) r.
Proof.
  intros LEN H. unfold bop_update, pipe_noreply, last_token, opt, guard, bind, tk, INT_MAX, MAX_EFLAG_LENG in H.
  each l LEN ltac:(fun _ => ev H; brk H; injection H as <-; facts; subst).
  all: repeat match goal with E : get_bitwise_op_from_str ?s <> 3%N |- _ =>
    pose proof (proj1 (bitw_ok s _) (conj eq_refl E)); clear E end.
  all: match goal with
    | |- syntax _ _ (BUpdate ?k ?bk None ?vl ?m) =>
        let mt := mt_of m in
        eapply (x_bupdate mm k _ bk [] None _ vl mt m); parts
    | |- syntax _ _ (BUpdate ?k ?bk (Some {| u_part := None; u_flag := ?b |}) ?vl ?m) =>
        let mt := mt_of m in
        eapply (x_bupdate mm k _ bk [_] _ _ vl mt m); [eassumption|constructor|eassumption|lia|constructor];
        first [now apply uf_hex|now apply uf_zero]
    | |- syntax _ _ (BUpdate ?k ?bk (Some {| u_part := Some _; u_flag := ?b |}) ?vl ?m) =>
        let mt := mt_of m in
        eapply (x_bupdate mm k _ bk [_;_;_] _ _ vl mt m); [eassumption|constructor; try eassumption|eassumption|lia|constructor];
        first [now apply uf_hex|now apply uf_zero]
    | _ => idtac end.
Qed.

Lemma barith_sound mm inc sub key (l : list bytes) r :
  (sub = txt "incr" /\ inc = true) \/ (sub = txt "decr" /\ inc = false) ->
  List.length l <= 5 ->
  bop_arith inc (txt "bop" :: sub :: key :: l) key = Got r ->
  syntax mm (txt "bop" :: sub :: key :: l) r \/ lax mm (txt "bop" :: sub :: key :: l) r.
Proof.
  intros W LEN H. unfold bop_arith, pipe_noreply, last_token, opt, guard, bind, tk in H.
  each l LEN ltac:(fun _ => ev H; brk H; injection H as <-; facts).
  all: match goal with
    | |- syntax _ _ (BArith ?i ?k ?bk ?d ?init ?m) \/ _ =>
        let mt := mt_of m in
        let it := lazymatch init with None => constr:(@nil bytes)
          | Some (?n, None) => match goal with N : num_u64 ?s n |- _ => constr:([s]) end
          | Some (?n, Some ?b) => match goal with N : num_u64 ?s n, B : hex_arg ?e b |- _ => constr:([s;e]) end end in
        left; eapply (x_barith mm sub i k _ bk _ d it init mt m); parts
    | E : beqb ?g (txt "noreply") = false, E2 : beqb ?g (txt "pipe") = false
        |- syntax _ _ (BArith ?i ?k ?bk ?d ?init ?m) \/ _ =>
        right; eapply l_barith; try eassumption;
        split; intros ->; [vm_compute in E; discriminate E|vm_compute in E2; discriminate E2]
    | _ => idtac end.
Qed.

Lemma bposition_sound mm key (l : list bytes) r : List.length l = 2 ->
  bop_position (txt "bop" :: txt "position" :: key :: l) key = Got r ->
  syntax mm (txt "bop" :: txt "position" :: key :: l) r.
Proof.
  intros LEN H. destruct l as [|x [|y [|z l]]]; try discriminate LEN.
  unfold bop_position, opt, guard, bind, tk in H. ev H; brk H; injection H as <-; facts. now constructor.
Qed.
Lemma bpwg_sound mm key (l : list bytes) r : List.length l = 2 \/ List.length l = 3 ->
  bop_pwg (txt "bop" :: txt "pwg" :: key :: l) key = Got r ->
  syntax mm (txt "bop" :: txt "pwg" :: key :: l) r.
Proof.
  intros LEN H. destruct l as [|x [|y [|z [|u l]]]]; try (destruct LEN as [LEN|LEN]; discriminate LEN).
  all: unfold bop_pwg, opt, guard, bind, tk in H; ev H; brk H; injection H as <-; facts.
  - eapply (x_bpwg mm key _ _ _ _ [] 0); parts.
  - eapply (x_bpwg mm key _ _ _ _ [_] _); parts.
Qed.
Lemma bgbp_sound mm key (l : list bytes) r : List.length l = 2 ->
  bop_gbp (txt "bop" :: txt "gbp" :: key :: l) key = Got r ->
  syntax mm (txt "bop" :: txt "gbp" :: key :: l) r.
Proof.
  intros LEN H. destruct l as [|x [|y [|z l]]]; try discriminate LEN.
  unfold bop_gbp, opt, guard, bind, tk in H. ev H; brk H; injection H as <-; facts. now constructor.
Qed.
