(* Proofs: the commands, see ArgModel.v and ArgSpec.v. *)
From Coq Require Import String Ascii.
From Verif Require Import Base UtilModel UtilSpec ArgTypes ArgModel ArgSpec ArgProofs ArgFilter.
From Coq Require Import List ZArith NArith Lia.
Local Open Scope nat_scope.
Local Open Scope list_scope.

(* ---- tactics ---- *)
Ltac words := repeat match goal with
  | |- context [beqb (txt ?a) (txt ?b)] =>
      let v := eval vm_compute in (beqb (txt a) (txt b)) in change (beqb (txt a) (txt b)) with v
  | H : context [List.length (txt ?a)] |- _ =>
      let v := eval vm_compute in (List.length (txt a)) in change (List.length (txt a)) with v in H
  | H : context [beqb (txt ?a) (txt ?b)] |- _ =>
      let v := eval vm_compute in (beqb (txt a) (txt b)) in change (beqb (txt a) (txt b)) with v in H
  end.
(* a word is not a number *)
Ltac contra := solve
  [ exfalso; match goal with
    | H : ?f (txt ?w) = Some _ |- _ => vm_compute in H; discriminate H
    | H : ?f (txt ?w) = Got _ |- _ => vm_compute in H; discriminate H
    | H : txt ?a = txt ?b |- _ => vm_compute in H; discriminate H
    | H : is0x (txt ?w) = true |- _ => vm_compute in H; discriminate H
    end ].
(* evaluation with everything that looks into a token left alone *)
Ltac ev0 H := cbn -[txt beqb safe_strtoul safe_strtoull safe_strtol safe_strtoll get_list_range_from_str
  get_bkey_range_from_str get_bkey_from_str get_eflag_from_str get_position_range_from_str
  is0x create_attr get_efilter_from_tokens filter_arg get_bitwise_op_from_str get_vlen one_bkey
  get_order take_word field_counts N.ltb N.leb N.eqb N.add N.mul N.div N.modulo N.of_nat INT_MAX A_NCOMP put] in H.
Ltac evg0 := cbn -[txt beqb safe_strtoul safe_strtoull safe_strtol safe_strtoll get_list_range_from_str
  get_bkey_range_from_str get_bkey_from_str get_eflag_from_str get_position_range_from_str
  is0x create_attr get_efilter_from_tokens filter_arg get_bitwise_op_from_str get_vlen one_bkey
  get_order take_word field_counts N.ltb N.leb N.eqb N.add N.mul N.div N.modulo N.of_nat INT_MAX A_NCOMP put].
Ltac ev H := ev0 H; try (progress (repeat match type of H with
  context [Pos.to_nat ?p] => let v := eval vm_compute in (Pos.to_nat p) in change (Pos.to_nat p) with v in H end); ev0 H).
Ltac evg := evg0; try (progress (repeat match goal with
  |- context [Pos.to_nat ?p] => let v := eval vm_compute in (Pos.to_nat p) in change (Pos.to_nat p) with v end); evg0).
Arguments Z.leb !x !y.
Arguments Z.ltb !x !y.
Arguments Z.eqb !x !y.

Ltac wordeq := repeat match goal with
  | E : beqb ?x (txt ?w) = true |- _ => apply beqb_eq in E; subst x
  end.
(* split on whatever H is stuck at *)
Ltac brk H := repeat (first
  [ discriminate H
  | match type of H with
    | context [match ?x with _ => _ end] =>
        lazymatch x with context [match _ with _ => _ end] => fail | _ => idtac end;
        lazymatch x with
        | context [beqb ?a ?b] => destruct (beqb a b) eqn:?
        | _ => destruct x eqn:?
        end; wordeq; words; ev H; try discriminate H; try contra
    end ]).

(* ---- words and numbers ---- *)
Lemma vlen_ok s v : get_vlen s = Got v <-> vlen_arg s v.
Proof.
  unfold get_vlen, vlen_arg, bind, opt, guard, INT_MAX. rewrite <- i32_ok.
  destruct (safe_strtol s) as [n|]; [|split; [discriminate|intros [X _]; discriminate]].
  destruct (_ && _)%bool eqn:B.
  - apply andb_prop in B. destruct B as [B1 B2]. apply Z.leb_le in B1, B2.
    split; [intros E; injection E as ->|intros [E _]; injection E as ->]; [split; [reflexivity|lia]|reflexivity].
  - split; [discriminate|]. intros [E R]. injection E as ->.
    rewrite (proj2 (Z.leb_le _ _)), (proj2 (Z.leb_le _ _)) in B by lia. discriminate.
Qed.
Lemma one_bkey_ok s b : one_bkey s = Got b <-> range_arg s (Single b).
Proof.
  unfold one_bkey, bind, opt. rewrite <- range_ok.
  destruct (get_bkey_range_from_str s) as [[x|x y]|]; cbn;
    split; intros E; try discriminate E; injection E as ->; reflexivity.
Qed.
Lemma order_ok s o : get_order s = Got o <-> order_arg s o.
Proof.
  unfold get_order. split.
  - intros H. brk H; injection H as <-; constructor.
  - destruct 1; reflexivity.
Qed.
Lemma take_ok s t : take_word s = Got t <-> take_opt [s] t /\ t <> Keep.
Proof.
  unfold take_word. split.
  - intros H. brk H; injection H as <-; split; (constructor || discriminate).
  - intros [H N]. inversion H; subst; reflexivity.
Qed.
Lemma ovfl_ok t s o : get_ovfl t s = Some o <-> ovfl_arg t s o.
Proof.
  unfold get_ovfl. split.
  - intros H. brk H; injection H as <-; constructor.
  - destruct 1; destruct t || idtac; reflexivity.
Qed.

Lemma attr_ok t l a : create_attr t l = Got a <-> attr_toks t l a.
Proof.
  split.
  - intros H. unfold create_attr, opt, guard, bind, tk in H.
    destruct l as [|x0 [|x1 [|x2 [|x3 [|x4 [|x5 l]]]]]]; try discriminate H; ev H; brk H;
      injection H as <-;
      repeat match goal with
      | E : safe_strtoul _ = Some _ |- _ => apply u32_ok in E
      | E : safe_strtoll _ = Some _ |- _ => apply i64_ok in E
      | E : safe_strtol _ = Some _ |- _ => apply i32_ok in E
      | E : get_ovfl _ _ = Some _ |- _ => apply ovfl_ok in E
      end; try now constructor.
  - intros H. destruct H as [f fl F|f fl e ex F E|f fl e ex c cn F E C|f fl e ex c cn o ov F E C O|
      f fl e ex c cn F E C|f fl e ex c cn o ov F E C O];
      unfold create_attr, opt, guard, bind, tk; cbn [List.length nth_error Nat.ltb Nat.leb orb Nat.eqb];
      apply u32_ok in F; rewrite F; try (apply i64_ok in E; rewrite E); try (apply i32_ok in C; rewrite C);
      try (apply ovfl_ok in O; rewrite O); try reflexivity.
    destruct t; reflexivity.
Qed.

Lemma u32_lt s v : num_u32 s v -> (v < 4294967296)%N.
Proof.
  intros [(neg & m & rest & _ & _ & _ & _ & H)|[_ ->]]; [exact H|reflexivity].
Qed.
Lemma fields_okE mm w sub key x y l a b : (mm <= 1000000)%N ->
  field_counts mm (w :: sub :: key :: x :: y :: l) = Got (a, b) <->
  num_u32 x a /\ num_u32 y b /\ fields_ok mm a b.
Proof.
  intros MM. unfold field_counts, opt, guard, bind, tk. cbn [nth_error].
  rewrite <- !u32_ok. destruct (safe_strtoul x) as [a'|] eqn:EX; [|split; [discriminate|intros (? & _); discriminate]].
  destruct (safe_strtoul y) as [b'|] eqn:EY; [|split; [discriminate|intros (_ & ? & _); discriminate]].
  apply u32_ok, u32_lt in EX, EY. unfold UINT_MAX, MAX_FIELD_LENG, fields_ok. change two32 with 4294967296%N.
  assert (SM : (b' <= mm)%N -> (((b' * 250) mod 4294967296 + b' + (4294967296 - 1)) mod 4294967296 =
     if N.eqb b' 0 then 4294967295 else b' * 251 - 1)%N).
  { intros L. rewrite (N.mod_small (b' * 250)) by lia. destruct (N.eqb b' 0) eqn:Z.
    - apply N.eqb_eq in Z. subst. reflexivity.
    - apply N.eqb_neq in Z. replace (b' * 250 + b' + (4294967296 - 1))%N with ((b' * 251 - 1) + 1 * 4294967296)%N by lia.
      rewrite N.mod_add by lia. apply N.mod_small. lia. }
  split.
  - intros H.
    destruct (N.ltb (4294967295 - 2) a' || _)%bool eqn:C1; [discriminate|]. cbn [negb] in H.
    destruct (N.ltb 0 b' && _)%bool eqn:C2; [discriminate|]. injection H as <- <-.
    split; [reflexivity|]. split; [reflexivity|].
    apply Bool.orb_false_elim in C1. destruct C1 as [C1 C3]. apply N.ltb_ge in C1.
    destruct (N.eqb b' 0) eqn:Z.
    + apply N.eqb_eq in Z. subst b'. left. split; [|reflexivity].
      rewrite Bool.orb_true_r in C3. cbn in C3. apply Bool.negb_false_iff, N.eqb_eq in C3. exact C3.
    + apply N.eqb_neq in Z. rewrite Bool.orb_false_r in C3. right.
      rewrite (proj2 (N.ltb_lt 0 b')) in C2 by lia. cbn [andb] in C2.
      apply Bool.orb_false_elim in C2. destruct C2 as [C2 C4].
      apply Bool.orb_false_elim in C2. destruct C2 as [C2 C5]. apply N.ltb_ge in C4, C5.
      rewrite SM in C2 by exact C5. cbv iota in C2. apply N.ltb_ge in C2.
      destruct (N.eqb a' 0) eqn:ZA; [|apply N.eqb_neq in ZA; lia].
      apply N.eqb_eq in ZA. subst a'. destruct b'; [lia|discriminate C3].
  - intros (E1 & E2 & F). injection E1 as ->. injection E2 as ->.
    destruct F as [[-> ->]|(A & B & C & D)]; [reflexivity|].
    rewrite (proj2 (N.ltb_ge _ a)) by lia. rewrite (proj2 (N.eqb_neq a 0)) by lia.
    rewrite SM by lia. rewrite (proj2 (N.eqb_neq b 0)) by lia. cbn [orb andb negb].
    rewrite (proj2 (N.ltb_ge (b * 251 - 1) a)) by lia.
    rewrite (proj2 (N.ltb_ge mm b)) by lia. rewrite (proj2 (N.ltb_ge (a / 2 + 1) b)) by lia.
    cbn [orb]. now rewrite Bool.andb_false_r.
Qed.

(* ---- what the equations mean ---- *)
Ltac facts := repeat match goal with
  | E : safe_strtoul _ = Some _ |- _ => apply u32_ok in E
  | E : safe_strtoull _ = Some _ |- _ => apply u64_ok in E
  | E : safe_strtoll _ = Some _ |- _ => apply i64_ok in E
  | E : safe_strtol _ = Some _ |- _ => apply i32_ok in E
  | E : get_vlen _ = Got _ |- _ => apply vlen_ok in E
  | E : one_bkey _ = Got _ |- _ => apply one_bkey_ok in E
  | E : get_order _ = Got _ |- _ => apply order_ok in E
  | E : take_word _ = Got _ |- _ => apply take_ok in E; destruct E as [E _]
  | E : create_attr _ _ = Got _ |- _ => apply attr_ok in E
  | E : get_list_range_from_str _ = Some _ |- _ => apply index_ok in E
  | E : get_position_range_from_str _ = Some _ |- _ => apply pos_ok in E
  | E : get_bkey_range_from_str _ = Some _ |- _ => apply range_ok in E
  | E : get_bkey_from_str _ = Some _ |- _ => apply bkey_ok in E
  | E : get_eflag_from_str _ = Some _ |- _ => apply eflag_ok in E
  | E : field_counts _ _ = Got _ |- _ => apply fields_okE in E; [destruct E as (? & ? & ?)|assumption]
  | E : N.ltb _ _ = false |- _ => apply N.ltb_ge in E
  | E : N.ltb _ _ = true |- _ => apply N.ltb_lt in E
  | E : orb _ _ = false |- _ => apply Bool.orb_false_elim in E; destruct E
  | E : andb _ _ = true |- _ => apply andb_prop in E; destruct E
  | E : negb _ = true |- _ => apply Bool.negb_true_iff in E
  | E : N.eqb _ _ = false |- _ => apply N.eqb_neq in E
  | E : N.eqb _ _ = true |- _ => apply N.eqb_eq in E
  | E : Z.leb _ _ = true |- _ => apply Z.leb_le in E
  | E : Z.eqb _ _ = true |- _ => apply Z.eqb_eq in E
  end.
Ltac mt_of m := lazymatch m with
  | Reply => constr:(@nil bytes) | NoReply => constr:([txt "noreply"]) | Pipe => constr:([txt "pipe"]) end.
Ltac ct_of cr := lazymatch cr with
  | None => constr:(@nil bytes)
  | Some ?a => match goal with H : attr_toks _ ?L a |- _ => constr:(txt "create" :: L) end end.
Ltac dt_of d := lazymatch d with false => constr:(@nil bytes) | true => constr:([txt "drop"]) end.
Ltac tt_of t := lazymatch t with
  | Keep => constr:(@nil bytes) | Delete => constr:([txt "delete"]) | Drop => constr:([txt "drop"])
  | ?v => match goal with H : take_opt ?L v |- _ => constr:(L) end end.
Ltac parts := first [eassumption | discriminate | (left; split; reflexivity) | (right; split; reflexivity)
  | constructor; (eassumption || (constructor; eassumption)) | (cbn; lia) | lia].

(* what the filter leads to *)
Lemma filter_cases m L m' u : Forall narrow1 L -> get_efilter_from_tokens m L = (m', Got u) ->
  (u = 0 /\ filter_arg m' = None) \/
  ((u = 3 \/ u = 5) /\ u <= List.length L /\
   exists f, filter_toks (firstn u L) f /\ filter_arg m' = Some f).
Proof.
  intros NW G.
  assert (NF : narrow_f L) by (intros v E; apply nth_error_In in E; rewrite Forall_forall in NW; auto).
  destruct (filter_sound _ _ _ _ NF G) as (_ & _ & S1 & _).
  destruct (S1 _ eq_refl) as [(-> & _ & Z)|(AF & E & f & FT & RF & NZ)].
  - left. split; [reflexivity|]. unfold filter_arg. now rewrite Z.
  - right. split; [destruct (at_bitw L); auto|]. split.
    + destruct (at_bitw L) eqn:AB; subst u.
      * unfold at_bitw in AB. apply andb_prop in AB as [AB _]. now apply Nat.leb_le in AB.
      * unfold at_filter in AF. apply andb_prop in AF as [AF _]. now apply Nat.leb_le in AF.
    + exists f. split; [exact FT|]. unfold filter_arg. rewrite (proj2 (N.eqb_neq _ _) NZ). now f_equal.
Qed.
Lemma filter_off m : filter_arg (put m A_NCOMP 0) = None.
Proof. reflexivity. Qed.

Ltac nomode := split; intros ?; subst;
  match goal with E : beqb _ _ = false |- _ => vm_compute in E; discriminate E end.
(* a list of tokens of bounded length is taken apart *)
Ltac each l LEN tac :=
  first [ solve [exfalso; cbn in LEN; lia]
        | let x := fresh "x" in let l' := fresh "l" in
          destruct l as [|x l']; [clear LEN; tac ()|each l' LEN tac] ].
Ltac create_case := match goal with
  | A : attr_toks _ [?f; ?e] _ |- syntax _ _ (Create _ ?k ?a NoReply) \/ _ =>
      right; inversion A; subst; constructor; (assumption || constructor)
  | A : attr_toks ?t ?L ?a |- syntax ?mm _ (Create _ ?k ?a ?m) \/ _ =>
      left; let mt := mt_of m in apply (x_create mm t _ k L a mt m); parts
  end.

Lemma lop_sound mm key sub (l : list bytes) r : List.length l <= 9 ->
  lop_cmd (txt "lop" :: sub :: key :: l) sub key = Got r ->
  syntax mm (txt "lop" :: sub :: key :: l) r \/ lax mm (txt "lop" :: sub :: key :: l) r.
Proof.
  intros LEN H. unfold lop_cmd, create_cmd, pipe_noreply, noreply_only, last_token, create_part, drop_part, opt, guard, bind, tk in H.
  each l LEN ltac:(fun _ => ev H; brk H; injection H as <-; facts).
  all: match goal with
    | |- syntax _ _ (LInsert ?k ?ix ?vl ?cr ?m) \/ _ =>
        left; let ct := ct_of cr in let mt := mt_of m in
        eapply (x_linsert mm k _ ix _ vl ct cr mt m); parts
    | |- syntax _ _ (LDelete ?k (fst ?fr) _ ?d ?m) \/ _ =>
        left; let dt := dt_of d in let mt := mt_of m in
        eapply (x_ldelete mm k _ fr dt d mt m); parts
    | |- syntax _ _ (LGet ?k (fst ?fr) _ ?t) \/ _ =>
        left; let tt := tt_of t in
        eapply (x_lget mm k _ fr tt t); parts
    | _ => create_case end.
Qed.

Lemma sop_sound mm key sub (l : list bytes) r : List.length l <= 8 ->
  sop_cmd (txt "sop" :: sub :: key :: l) sub key = Got r ->
  syntax mm (txt "sop" :: sub :: key :: l) r \/ lax mm (txt "sop" :: sub :: key :: l) r.
Proof.
  intros LEN H. unfold sop_cmd, create_cmd, pipe_noreply, noreply_only, pipe_only, last_token, create_part, drop_part,
    opt, guard, bind, tk in H.
  each l LEN ltac:(fun _ => ev H; brk H; injection H as <-; facts).
  all: match goal with
    | |- syntax _ _ (SInsert ?k ?vl ?cr ?m) \/ _ =>
        left; let ct := ct_of cr in let mt := mt_of m in
        eapply (x_sinsert mm k _ vl ct cr mt m); parts
    | |- syntax _ _ (SDelete ?k ?vl ?d ?m) \/ _ =>
        left; let dt := dt_of d in let mt := mt_of m in
        eapply (x_sdelete mm k _ vl dt d mt m); parts
    | |- syntax _ _ (SExist ?k ?vl ?m) \/ _ =>
        left; let mt := mt_of m in eapply (x_sexist mm k _ vl mt m); parts
    | |- syntax _ _ (SGet ?k ?c ?t) \/ _ =>
        left; let tt := tt_of t in eapply (x_sget mm k _ c tt t); parts
    | E : beqb ?g (txt "pipe") = false |- syntax _ _ (SExist ?k ?vl ?m) \/ _ =>
        right; eapply l_sexist; [eassumption|]; intros ->; vm_compute in E; discriminate E
    | _ => create_case end.
Qed.

Lemma mop_sound mm key sub (l : list bytes) r : (mm <= 1000000)%N -> List.length l <= 9 ->
  mop_cmd mm (txt "mop" :: sub :: key :: l) sub key = Got r ->
  syntax mm (txt "mop" :: sub :: key :: l) r \/ lax mm (txt "mop" :: sub :: key :: l) r.
Proof.
  intros MM LEN H. unfold mop_cmd, create_cmd, pipe_noreply, noreply_only, pipe_only, last_token, create_part, drop_part,
    opt, guard, bind, tk, MAX_FIELD_LENG in H.
  each l LEN ltac:(fun _ => ev H; brk H; injection H as <-;
    try match goal with p : (N * N)%type |- _ => destruct p end; facts).
  all: cbn [fst snd]; match goal with
    | |- syntax _ _ (MInsert ?up ?k ?fl ?vl ?cr ?m) \/ _ =>
        left; let ct := ct_of cr in let mt := mt_of m in
        eapply (x_minsert mm _ up k fl _ vl ct cr mt m); parts
    | |- syntax _ _ (MUpdate ?k ?fl ?vl ?m) \/ _ =>
        left; let mt := mt_of m in
        eapply (x_mupdate mm k fl _ vl mt m); parts
    | E : beqb ?g (txt "noreply") = false, E2 : beqb ?g (txt "pipe") = false
        |- syntax _ _ (MUpdate ?k ?fl ?vl ?m) \/ _ =>
        right; eapply l_mupdate; [lia|eassumption|split; intros ->; [vm_compute in E; discriminate E|vm_compute in E2; discriminate E2]]
    | |- syntax _ _ (MDelete ?k ?ln ?nn ?d ?m) \/ _ =>
        left; let dt := dt_of d in let mt := mt_of m in
        eapply (x_mdelete mm k _ ln _ nn dt d mt m); parts
    | E : beqb ?g (txt "noreply") = false, E2 : beqb ?g (txt "pipe") = false
        |- syntax _ _ (MDelete ?k ?ln ?nn ?d ?m) \/ _ =>
        right; eapply l_mdelete; [eassumption|eassumption|eassumption|split; intros ->; [vm_compute in E; discriminate E|vm_compute in E2; discriminate E2]]
    | |- syntax _ _ (MGet ?k ?ln ?nn ?t) \/ _ =>
        left; let tt := tt_of t in eapply (x_mget mm k _ ln _ nn tt t); parts
    | E : num_u32 (txt _) _ |- _ => apply u32_ok in E; contra
    | _ => create_case end.
Qed.
