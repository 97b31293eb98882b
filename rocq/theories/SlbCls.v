(* Slot classes of the small memory allocator. *)
From Verif Require Import Base SlbModel.
Open Scope Z_scope.
Ltac Zify.zify_post_hook ::= Z.div_mod_to_equations.

Lemma class_info_value :
  class_info = [mkSI 8 128 0 0; mkSI 16 128 1024 128; mkSI 32 128 3072 256; mkSI 64 128 7168 384;
                mkSI 128 128 15360 512; mkSI 256 68 31744 640; mkSI 0 0 49152 708] /\ NCLS = 709.
Proof. vm_compute. auto. Qed.

Lemma NCLS_eq : NCLS = 709. Proof. apply class_info_value. Qed.

Definition cdiv (above : bool) (x u : Z) : Z :=
  if above && negb (x mod u =? 0) then x / u + 1 else x / u.

Lemma memid_eq len above :
  memid len above =
  if len >=? 49152 then 708
  else if len >=? 31744 then 640 + cdiv above (len - 31744) 256
  else if len >=? 15360 then 512 + cdiv above (len - 15360) 128
  else if len >=? 7168 then 384 + cdiv above (len - 7168) 64
  else if len >=? 3072 then 256 + cdiv above (len - 3072) 32
  else if len >=? 1024 then 128 + cdiv above (len - 1024) 16
  else 0 + cdiv above (len - 0) 8.
Proof.
  unfold memid. rewrite NCLS_eq. change MAXS with 49152. destruct (len >=? 49152) eqn:E0; [reflexivity|].
  rewrite (proj1 class_info_value). cbn [memid_walk si_tolen si_tocnt si_sulen]. unfold cdiv.
  rewrite E0.
  destruct (len >=? 1024) eqn:E1, (len >=? 3072) eqn:E2, (len >=? 7168) eqn:E3, (len >=? 15360) eqn:E4,
    (len >=? 31744) eqn:E5; try (exfalso; lia);
    match goal with |- context [if ?b then _ else _] => destruct b; lia end.
Qed.

Lemma cdiv_false x u : cdiv false x u = x / u. Proof. reflexivity. Qed.

Ltac memid_cases :=
  repeat match goal with
         | |- context [if ?a >=? ?b then _ else _] => destruct (Z.geb_spec a b)
         | H : context [if ?a >=? ?b then _ else _] |- _ => destruct (Z.geb_spec a b)
         end.

Lemma memid_range len above : 0 <= len -> 0 <= memid len above <= 708.
Proof.
  intro H. rewrite memid_eq. unfold cdiv.
  destruct above; cbn [andb]; memid_cases;
    try match goal with |- context [if negb ?b then _ else _] => destruct b end;
    cbn [negb]; lia.
Qed.

Lemma memid_big len : memid len false = 708 <-> 49152 <= len.
Proof.
  rewrite memid_eq. unfold cdiv. cbn [andb]. memid_cases; lia.
Qed.

(* a slot of the class found for a request is long enough *)
Lemma memid_fit slen len :
  0 <= slen -> slen <= 49152 -> 0 <= len -> memid slen true <= memid len false -> slen <= len.
Proof.
  intros H0 H1 H2. rewrite !memid_eq. unfold cdiv. cbn [andb].
  memid_cases; try lia;
    match goal with |- context [?x mod ?u =? 0] => destruct (Z.eqb_spec (x mod u) 0) end;
    cbn [negb]; lia.
Qed.

Lemma memid_twice slen :
  32 <= slen <= 49152 -> slen mod 8 = 0 -> memid slen true <= memid (slen * 2) false.
Proof.
  intros H0 H1. rewrite !memid_eq. unfold cdiv. cbn [andb].
  memid_cases; try lia;
    match goal with |- context [?x mod ?u =? 0] => destruct (Z.eqb_spec (x mod u) 0) end;
    cbn [negb]; lia.
Qed.

Lemma slen_range size : 1 <= size <= MAX_SM_VALUE_LEN ->
  32 <= slen_of size <= 49152 /\ slen_of size mod 8 = 0 /\ size + 4 <= slen_of size.
Proof.
  unfold slen_of, MAX_SM_VALUE_LEN. change MAXS with 49152. change MINS with 32. intro H.
  destruct (Z.ltb_spec (((size + 4 - 1) / 8 + 1) * 8) 32); lia.
Qed.
