(* Proofs: every documented form is accepted; the commands with a filter, and all together. *)
From Coq Require Import String Ascii.
From Verif Require Import Base UtilModel UtilSpec ArgTypes ArgModel ArgSpec ArgProofs ArgFilter ArgCmd ArgBop ArgComplete.
From Coq Require Import List ZArith NArith Lia.
Local Open Scope nat_scope.
Local Open Scope list_scope.
Arguments Z.leb !x !y.
Arguments Z.ltb !x !y.
Arguments Z.eqb !x !y.

Lemma vals_0x n op v vs : vals_arg n op v vs -> is0x v = true.
Proof. intros [op' t v' vs' ps -> _ _ _ _ _|op' v' b _ _ H _]; [reflexivity|exact (hex_is0x _ _ H)]. Qed.
Lemma ft_shape ft f : filter_toks ft f ->
  (exists a b c, ft = [a; b; c] /\ is0x c = true) \/
  (exists a b c d e, ft = [a; b; c; d; e] /\ is0x c = true /\ is0x e = true).
Proof.
  intros [o off c op v vs n H1 H2 H3 H4 H5|o off b bop w wb c op v vs H1 H2 H3 H4 H5 H6 H7].
  - left. exists o, c, v. split; [reflexivity|]. exact (vals_0x _ _ _ _ H4).
  - right. exists o, b, w, c, v. split; [reflexivity|]. split; [exact (hex_is0x _ _ H4)|exact (vals_0x _ _ _ _ H6)].
Qed.

Ltac second := let L := fresh in let x := fresh in let E := fresh in
  intros L x E; cbn in E; first [discriminate E|injection E as <-; first [reflexivity|eapply u32_not0x; eassumption]].
(* the filter in front of the tokens tl *)
Ltac withf st tl := match goal with
  | FT : filter_toks ?ft ?f |- _ =>
      let m := fresh "m" in let G := fresh "G" in let FA := fresh "FA" in
      destruct (filter_complete st ft tl f FT ltac:(second)) as (m & G & FA);
      destruct (ft_shape _ _ FT) as [(? & ? & ? & -> & ?)|(? & ? & ? & ? & ? & -> & ? & ?)];
      clear FT; cbn [app List.length] in G
  end.
Ltac gof := repeat (progress (go; try match goal with
  | G : get_efilter_from_tokens ?m ?L = _ |- context [get_efilter_from_tokens ?m ?L] => rewrite G
  | FA : filter_arg ?m = _ |- context [filter_arg ?m] => rewrite FA
  | |- context [filter_arg (put ?m A_NCOMP 0)] => rewrite (filter_off m)
  end)).
Ltac startf := unfold bop_get, bop_count, bop_delete, bop_mget, smget_mode, pipe_noreply, last_token, opt, guard, bind, tk,
  MAX_SMGET_KEY_COUNT, MAX_SMGET_REQ_COUNT, MAX_BMGET_KEY_COUNT, MAX_BMGET_ELM_COUNT, UINT_MAX.

Section Complete.
Variables (mm : N) (st : mem).
Local Notation good toks r := (exists st', parse mm st toks = (st', Got r)).
Ltac plainf L := revf; cbn [app]; rewrite to_bop by (assumption || reflexivity);
  rewrite L by reflexivity; startf; gof; eexists; reflexivity.

Lemma c_bcount key b r ft f : kl key -> range_arg b r -> filter_opt ft f ->
  good (txt "bop" :: txt "count" :: key :: b :: ft) (BCount key r f).
Proof.
  intros KL RA FO. destruct FO as [|ft f FT]; [plainf b_count|].
  withf st (@nil bytes); plainf b_count.
Qed.
Lemma c_bget key b r ft f ot off count tt t : kl key -> range_arg b r -> filter_opt ft f ->
  offcount_opt ot off count -> take_opt tt t ->
  good (txt "bop" :: txt "get" :: key :: b :: ft ++ ot ++ tt) (BGet key r f off count t).
Proof.
  intros KL RA FO OC TA. destruct FO as [|ft f FT].
  - optp; plainf b_get.
  - destruct OC as [|s n|s n t' k], TA; cbn [app]; match goal with |- context [ft ++ ?tl] => withf st tl | |- context [ft] => withf st (@nil bytes) end.
    all: plainf b_get.
Qed.
Ltac tails := cbn [app]; match goal with
  | ft : list bytes |- context [?f ++ ?tl] => constr_eq f ft; withf st tl
  | ft : list bytes |- _ => withf st (@nil bytes) end.
Lemma c_bdelete key b r ft f ct count dt d mt m : kl key -> range_arg b r -> filter_opt ft f ->
  count_opt ct count -> drop_opt dt d -> mode_opt mt m ->
  good (txt "bop" :: txt "delete" :: key :: b :: ft ++ ct ++ dt ++ mt) (BDelete key r f count d m).
Proof.
  intros KL RA FO CT DO MO. destruct FO as [|ft f FT].
  - optp; plainf b_delete.
  - (* the filter is looked for in front of noreply or pipe *)
    destruct CT as [|s n NS], DO, MO; cbn [app];
      match goal with
      | |- context [ft ++ ?s :: txt "drop" :: _] => withf st [s; txt "drop"]
      | |- context [ft ++ txt "drop" :: _] => withf st [txt "drop"]
      | |- context [ft ++ txt "noreply" :: _] => withf st (@nil bytes)
      | |- context [ft ++ txt "pipe" :: _] => withf st (@nil bytes)
      | |- context [ft ++ ?s :: _] => withf st [s]
      | |- _ => withf st (@nil bytes) end.
    all: plainf b_delete.
Qed.

Lemma keys_cond M lenk numk : (M <= 10000)%N -> keys_ok M lenk numk ->
  (lenk <= 4294967293 /\ lenk <> 0 /\ numk <> 0 /\ numk <= lenk / 2 + 1 /\ numk <= M /\
   lenk <= ((numk * KEY_MAX_LENGTH) mod 4294967296 + numk + 4294967295) mod 4294967296)%N.
Proof.
  intros ML (A & B & C & D). rewrite key_room by lia. lia.
Qed.
Lemma c_bmget l lenk n numk b r ft f ot off c count : kl l ->
  num_u32 l lenk -> num_u32 n numk -> keys_ok 200 lenk numk -> range_arg b r -> filter_opt ft f ->
  count_opt ot off -> num_u32 c count -> (1 <= count <= 50)%N ->
  good (txt "bop" :: txt "mget" :: l :: n :: b :: ft ++ ot ++ [c]) (BMget lenk numk r f off count).
Proof.
  intros KL NL NN KO RA FO CT NC LC. apply keys_cond in KO; [|lia]. destruct KO as (K1 & K2 & K3 & K4 & K5 & K6).
  destruct FO as [|ft f FT].
  - optp; plainf b_mget.
  - destruct CT as [|s k NS]; cbn [app]; match goal with |- context [ft ++ ?tl] => withf st tl end; plainf b_mget.
Qed.

Lemma smget_go key n b r ft f o c s sm off count l lenk numk : kl l -> key = txt "smget" ->
  num_u32 l lenk -> num_u32 n numk -> keys_ok 10000 lenk numk -> range_arg b r -> filter_opt ft f ->
  count_opt o off -> num_u32 c count -> (1 <= count)%N -> ((off + count) mod 4294967296 <= 2000)%N -> smode_opt s sm ->
  good (txt "bop" :: key :: l :: n :: b :: ft ++ o ++ c :: s) (BSmget lenk numk r f off count sm).
Proof.
  intros KL -> NL NN KO RA FO CT NC LC LS SO. apply keys_cond in KO; [|lia]. destruct KO as (K1 & K2 & K3 & K4 & K5 & K6).
  destruct FO as [|ft f FT].
  - optp; plainf b_smget.
  - destruct CT as [|s' k NS], SO; cbn [app];
      match goal with
      | |- context [ft ++ [?x; txt "duplicate"]] => withf st [x]
      | |- context [ft ++ [?x; txt "unique"]] => withf st [x]
      | |- context [ft ++ [?x; ?y; txt "duplicate"]] => withf st [x; y]
      | |- context [ft ++ [?x; ?y; txt "unique"]] => withf st [x; y]
      | |- context [ft ++ ?tl] => withf st tl end.
    all: plainf b_smget.
Qed.
End Complete.

Theorem parse_complete mm st toks r : (mm <= 1000000)%N -> key_ok toks ->
  syntax mm toks r \/ lax mm toks r -> exists st', parse mm st toks = (st', Got r).
Proof.
  intros MM KO [H|H].
  - destruct H; cbn [app]; (match goal with |- exists _, parse _ _ (_ :: _ :: ?k :: _) = _ => assert (KL : kl k) by (apply KO; reflexivity) end).
    + now apply c_create.
    + now apply c_linsert.
    + now apply c_ldelete.
    + now apply c_lget.
    + now apply c_sinsert.
    + now apply c_sdelete.
    + now apply c_sexist.
    + now apply c_sget.
    + now apply c_minsert.
    + now apply c_mupdate.
    + now apply c_mdelete.
    + now apply c_mget.
    + now apply c_binsert.
    + now apply c_bgetrim.
    + now apply c_bupdate.
    + now apply c_bdelete.
    + now apply c_barith.
    + now apply c_bget.
    + now apply c_bcount.
    + now apply c_bmget.
    + apply smget_go; auto. rewrite N.mod_small by lia. lia.
    + now apply c_bposition.
    + now apply c_bpwg.
    + now apply c_bgbp.
  - destruct H; (match goal with |- exists _, parse _ _ (_ :: _ :: ?k :: _) = _ => assert (KL : kl k) by (apply KO; reflexivity) end).
    + exists st.
      assert (G : create_cmd t ([w; txt "create"; key] ++ [f; e] ++ [txt "noreply"]) key = Got (Create t key (mk_attr fl ex 0 None true) NoReply)).
      { apply (create_go t w key [f; e] _ [txt "noreply"]); [now constructor|constructor|discriminate]. }
      destruct H; cbn [app] in G.
      * rewrite to_lop by (exact KL || reflexivity). unfold lop_cmd. cbn zeta. words. cbn [List.length Nat.leb andb]. now rewrite G.
      * rewrite to_sop by (exact KL || reflexivity). unfold sop_cmd. cbn zeta. words. cbn [List.length Nat.leb andb]. now rewrite G.
      * rewrite to_mop by (exact KL || reflexivity). unfold mop_cmd. cbn zeta. words. cbn [List.length Nat.leb andb orb]. now rewrite G.
      * rewrite to_bop by (exact KL || reflexivity). rewrite b_create by reflexivity. now rewrite G.
    + now apply c_sexist2.
    + now apply c_mupdate2.
    + now apply c_mdelete2.
    + now apply c_barith2.
    + change (o :: c :: st0) with ([o] ++ c :: st0). eapply smget_go; eauto; [now constructor|].
      replace (off + count)%N with ((off + count - 4294967296) + 1 * 4294967296)%N by lia.
      rewrite N.mod_add by lia. rewrite N.mod_small by lia. lia.
Qed.
