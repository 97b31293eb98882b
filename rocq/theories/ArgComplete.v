(* Proofs: every documented form is accepted, and means the request it stands for. *)
From Coq Require Import String Ascii.
From Verif Require Import Base UtilModel UtilSpec ArgTypes ArgModel ArgSpec ArgProofs ArgFilter ArgCmd ArgBop.
From Coq Require Import List ZArith NArith Lia.
Local Open Scope nat_scope.
Local Open Scope list_scope.
Arguments Z.leb !x !y.
Arguments Z.ltb !x !y.
Arguments Z.eqb !x !y.

Ltac revf := repeat match goal with
  | E : num_u32 _ _ |- _ => apply u32_ok in E
  | E : num_u64 _ _ |- _ => apply u64_ok in E
  | E : num_i64 _ _ |- _ => apply i64_ok in E
  | E : num_i32 _ _ |- _ => apply i32_ok in E
  | E : vlen_arg _ _ |- _ => apply vlen_ok in E
  | E : range_arg _ (Single _) |- _ => apply one_bkey_ok in E
  | E : range_arg _ _ |- _ => apply range_ok in E
  | E : order_arg _ _ |- _ => apply order_ok in E
  | E : index_arg _ _ |- _ => apply index_ok in E
  | E : pos_arg _ _ |- _ => apply pos_ok in E
  | E : bkey_arg _ _ |- _ => apply bkey_ok in E
  | E : ovfl_arg _ _ _ |- _ => apply ovfl_ok in E
  | E : hex_arg _ _ |- _ => pose proof (hex_is0x _ _ E); apply eflag_ok in E
  end.
Ltac sval := repeat match goal with
  | |- context [take_word (txt ?w)] =>
      let v := eval vm_compute in (take_word (txt w)) in change (take_word (txt w)) with v
  | |- context [get_bitwise_op_from_str (txt ?w)] =>
      let v := eval vm_compute in (get_bitwise_op_from_str (txt w)) in change (get_bitwise_op_from_str (txt w)) with v
  | |- context [is0x (txt ?w)] =>
      let v := eval vm_compute in (is0x (txt w)) in change (is0x (txt w)) with v
  | |- context [List.length (txt ?w)] =>
      let v := eval vm_compute in (List.length (txt w)) in change (List.length (txt w)) with v
  end.
Ltac numword := match goal with
  | |- context [beqb ?x (txt ?w)] => is_var x;
      let E := fresh in destruct (beqb x (txt w)) eqn:E; [exfalso; apply beqb_eq in E; subst x; contra|clear E]
  end.
Ltac rew := match goal with
  | E : safe_strtoul ?x = Some _ |- context [safe_strtoul ?x] => rewrite E
  | E : safe_strtoull ?x = Some _ |- context [safe_strtoull ?x] => rewrite E
  | E : safe_strtol ?x = Some _ |- context [safe_strtol ?x] => rewrite E
  | E : get_vlen ?x = Got _ |- context [get_vlen ?x] => rewrite E
  | E : one_bkey ?x = Got _ |- context [one_bkey ?x] => rewrite E
  | E : get_order ?x = Got _ |- context [get_order ?x] => rewrite E
  | E : create_attr ?t ?x = Got _ |- context [create_attr ?t ?x] => rewrite E
  | E : get_list_range_from_str ?x = Some _ |- context [get_list_range_from_str ?x] => rewrite E
  | E : get_position_range_from_str ?x = Some _ |- context [get_position_range_from_str ?x] => rewrite E
  | E : get_bkey_range_from_str ?x = Some _ |- context [get_bkey_range_from_str ?x] => rewrite E
  | E : get_bkey_from_str ?x = Some _ |- context [get_bkey_from_str ?x] => rewrite E
  | E : get_eflag_from_str ?x = Some _ |- context [get_eflag_from_str ?x] => rewrite E
  | E : field_counts ?m ?x = Got _ |- context [field_counts ?m ?x] => rewrite E
  | E : is0x ?x = _ |- context [is0x ?x] => rewrite E
  | E : beqb ?x ?y = false |- context [beqb ?x ?y] => rewrite E
  | |- context [N.ltb ?a ?b] => rewrite (proj2 (N.ltb_ge a b)) by lia
  | |- context [N.ltb ?a ?b] => rewrite (proj2 (N.ltb_lt a b)) by lia
  | |- context [N.eqb ?a ?b] => rewrite (proj2 (N.eqb_neq a b)) by lia
  | |- context [Z.leb ?a ?b] => rewrite (proj2 (Z.leb_le a b)) by lia
  end.
Ltac go := repeat (progress (evg; words; sval; try rew; try numword)).
(* the attributes of a create part *)
Ltac attrs := match goal with
  | A : attr_toks ?t ?at_ ?a |- _ =>
      let E := fresh "EA" in pose proof (proj2 (attr_ok t at_ a) A) as E;
      inversion A; clear A; subst
  end.
Ltac optp := repeat match goal with
  | E : mode_opt _ _ |- _ => inversion E; clear E; subst
  | E : drop_opt _ _ |- _ => inversion E; clear E; subst
  | E : take_opt _ _ |- _ => inversion E; clear E; subst
  | E : count_opt _ _ |- _ => inversion E; clear E; subst
  | E : offcount_opt _ _ _ |- _ => inversion E; clear E; subst
  | E : eflag_opt _ _ |- _ => inversion E; clear E; subst
  | E : smode_opt _ _ |- _ => inversion E; clear E; subst
  | E : create_opt _ _ _ |- _ => inversion E; clear E; subst; try attrs
  | E : coll_word _ _ |- _ => inversion E; clear E; subst
  | E : init_opt _ _ |- _ => inversion E; clear E; subst
  | E : (?a = _ /\ ?b = _) \/ (?a = _ /\ ?b = _) |- _ => destruct E as [[-> ->]|[-> ->]]
  end.
Ltac start := unfold create_cmd, pipe_noreply, noreply_only,
  pipe_only, last_token, create_part, drop_part, opt, guard, bind, tk, MAX_FIELD_LENG,
  MAX_SOP_GET_COUNT, bop_insert, bop_update, bop_arith, bop_position, bop_pwg, bop_gbp, INT_MAX, MAX_EFLAG_LENG.

(* which function a line goes to *)
Definition lens_ok (lo hi : nat) (toks : list bytes) : bool := (Nat.leb lo (S (List.length toks)) && Nat.leb (S (List.length toks)) hi)%bool.
Definition kl (key : bytes) : Prop := (N.of_nat (List.length key) <= 16000)%N.
Section Dispatch.
Variables (mm : N) (st : mem) (key sub : bytes) (l : list bytes).
Hypothesis KL : kl key.
Lemma to_lop : lens_ok 5 13 (txt "lop" :: sub :: key :: l) = true ->
  parse mm st (txt "lop" :: sub :: key :: l) = (st, lop_cmd (txt "lop" :: sub :: key :: l) sub key).
Proof.
  unfold lens_ok, parse. intros H. cbn [tk nth_error bind]. unfold KEY_MAX_LENGTH.
  rewrite (proj2 (N.ltb_ge _ _) KL), H. reflexivity.
Qed.
Lemma to_sop : lens_ok 5 12 (txt "sop" :: sub :: key :: l) = true ->
  parse mm st (txt "sop" :: sub :: key :: l) = (st, sop_cmd (txt "sop" :: sub :: key :: l) sub key).
Proof.
  unfold lens_ok, parse. intros H. cbn [tk nth_error bind]. unfold KEY_MAX_LENGTH.
  rewrite (proj2 (N.ltb_ge _ _) KL), H. words. rewrite Bool.andb_false_r. reflexivity.
Qed.
Lemma to_mop : lens_ok 6 13 (txt "mop" :: sub :: key :: l) = true ->
  parse mm st (txt "mop" :: sub :: key :: l) = (st, mop_cmd mm (txt "mop" :: sub :: key :: l) sub key).
Proof.
  unfold lens_ok, parse. intros H. cbn [tk nth_error bind]. unfold KEY_MAX_LENGTH.
  rewrite (proj2 (N.ltb_ge _ _) KL), H. words. rewrite !Bool.andb_false_r. reflexivity.
Qed.
Lemma to_bop : lens_ok 5 14 (txt "bop" :: sub :: key :: l) = true ->
  parse mm st (txt "bop" :: sub :: key :: l) = bop_cmd st (txt "bop" :: sub :: key :: l) sub key.
Proof.
  unfold lens_ok, parse. intros H. cbn [tk nth_error bind]. unfold KEY_MAX_LENGTH.
  rewrite (proj2 (N.ltb_ge _ _) KL), H. words. rewrite !Bool.andb_false_r. reflexivity.
Qed.
End Dispatch.

Lemma b_insert st w toks key : w = txt "insert" \/ w = txt "upsert" -> lens_ok 6 14 toks = true ->
  bop_cmd st toks w key = (st, bop_insert (beqb w (txt "upsert")) toks key).
Proof. unfold lens_ok, bop_cmd. cbn zeta. intros W ->. destruct W as [-> | ->]; reflexivity. Qed.
Ltac bdisp := unfold lens_ok, bop_cmd; cbn zeta; intros H; words; rewrite ?Bool.andb_false_r, ?Bool.orb_false_r; cbn [orb];
  rewrite ?Bool.andb_false_r, ?Bool.andb_true_r; try rewrite H; reflexivity.
Lemma b_create st toks key : lens_ok 7 10 toks = true ->
  bop_cmd st toks (txt "create") key = (st, create_cmd TBtree toks key).
Proof. bdisp. Qed.
Lemma b_update st toks key : lens_ok 6 10 toks = true ->
  bop_cmd st toks (txt "update") key = (st, bop_update toks key).
Proof. bdisp. Qed.
Lemma b_delete st toks key : lens_ok 5 13 toks = true ->
  bop_cmd st toks (txt "delete") key = bop_delete st toks key.
Proof. bdisp. Qed.
Lemma b_arith st w toks key : w = txt "incr" \/ w = txt "decr" -> lens_ok 6 9 toks = true ->
  bop_cmd st toks w key = (st, bop_arith (beqb w (txt "incr")) toks key).
Proof. intros [-> | ->]; bdisp. Qed.
Lemma b_get st toks key : lens_ok 5 13 toks = true ->
  bop_cmd st toks (txt "get") key = bop_get st toks key.
Proof. bdisp. Qed.
Lemma b_count st toks key : lens_ok 5 10 toks = true ->
  bop_cmd st toks (txt "count") key = bop_count st toks key.
Proof. bdisp. Qed.
Lemma b_mget st toks key : lens_ok 7 14 toks = true ->
  bop_cmd st toks (txt "mget") key = bop_mget false st toks.
Proof. bdisp. Qed.
Lemma b_smget st toks key : lens_ok 7 14 toks = true ->
  bop_cmd st toks (txt "smget") key = bop_mget true st toks.
Proof. bdisp. Qed.
Lemma b_position st toks key : Nat.eqb (S (List.length toks)) 6 = true ->
  bop_cmd st toks (txt "position") key = (st, bop_position toks key).
Proof. bdisp. Qed.
Lemma b_pwg st toks key : (Nat.eqb (S (List.length toks)) 6 || Nat.eqb (S (List.length toks)) 7)%bool = true ->
  bop_cmd st toks (txt "pwg") key = (st, bop_pwg toks key).
Proof. bdisp. Qed.
Lemma b_gbp st toks key : Nat.eqb (S (List.length toks)) 6 = true ->
  bop_cmd st toks (txt "gbp") key = (st, bop_gbp toks key).
Proof. bdisp. Qed.

Section Complete.
Variables (mm : N) (st : mem).
Hypothesis MM : (mm <= 1000000)%N.
Local Notation good toks r := (exists st', parse mm st toks = (st', Got r)).
Ltac plain L := optp; revf; cbn [app]; eexists; rewrite L by (assumption || reflexivity); f_equal; start.
Ltac fin := start; go; reflexivity.

Lemma create_go t w key at_ a mt m : attr_toks t at_ a -> mode_opt mt m -> m <> Pipe ->
  create_cmd t (w :: txt "create" :: key :: at_ ++ mt) key = Got (Create t key a m).
Proof. clear. intros AT MO NP. destruct t; attrs; optp; try congruence; revf; start; fin. Qed.
Lemma c_create t w key at_ a mt m : kl key -> coll_word t w -> attr_toks t at_ a ->
  mode_opt mt m -> m <> Pipe -> 3 <= List.length at_ ->
  good (w :: txt "create" :: key :: at_ ++ mt) (Create t key a m).
Proof.
  intros KL CW AT MO NP L3. exists st. pose proof (create_go t w key _ _ _ _ AT MO NP) as G.
  assert (L4 : 3 <= List.length (at_ ++ mt) <= 6).
  { rewrite app_length. destruct AT, MO; cbn in *; lia. }
  assert (E : lens_ok 7 10 (w :: txt "create" :: key :: at_ ++ mt) = true).
  { unfold lens_ok. cbn [List.length]. rewrite !(proj2 (Nat.leb_le _ _)) by lia. reflexivity. }
  destruct CW.
  - rewrite to_lop; [|exact KL|unfold lens_ok; cbn [List.length]; rewrite !(proj2 (Nat.leb_le _ _)) by lia; reflexivity].
    unfold lop_cmd. cbn zeta. words. rewrite Bool.andb_false_r. unfold lens_ok in E. rewrite E. now rewrite G.
  - rewrite to_sop; [|exact KL|unfold lens_ok; cbn [List.length]; rewrite !(proj2 (Nat.leb_le _ _)) by lia; reflexivity].
    unfold sop_cmd. cbn zeta. words. rewrite Bool.andb_false_r. unfold lens_ok in E. rewrite E. now rewrite G.
  - rewrite to_mop; [|exact KL|unfold lens_ok; cbn [List.length]; rewrite !(proj2 (Nat.leb_le _ _)) by lia; reflexivity].
    unfold mop_cmd. cbn zeta. words. cbn [orb]. rewrite Bool.andb_false_r. unfold lens_ok in E. rewrite E. now rewrite G.
  - rewrite to_bop; [|exact KL|unfold lens_ok; cbn [List.length]; rewrite !(proj2 (Nat.leb_le _ _)) by lia; reflexivity].
    rewrite b_create by exact E. now rewrite G.
Qed.
Lemma c_linsert key i ix v vlen ct cr mt m : kl key -> num_i32 i ix -> vlen_arg v vlen ->
  create_opt TList ct cr -> mode_opt mt m ->
  good (txt "lop" :: txt "insert" :: key :: i :: v :: ct ++ mt) (LInsert key ix vlen cr m).
Proof. intros KL NI VL CO MO. plain to_lop; unfold lop_cmd; fin. Qed.
Lemma c_ldelete key r fr dt d mt m : kl key -> index_arg r fr -> drop_opt dt d -> mode_opt mt m ->
  good (txt "lop" :: txt "delete" :: key :: r :: dt ++ mt) (LDelete key (fst fr) (snd fr) d m).
Proof. intros KL NI VL MO. plain to_lop; unfold lop_cmd; fin. Qed.
Lemma c_lget key r fr tt t : kl key -> index_arg r fr -> take_opt tt t ->
  good (txt "lop" :: txt "get" :: key :: r :: tt) (LGet key (fst fr) (snd fr) t).
Proof. intros KL NI VL. plain to_lop; unfold lop_cmd; fin. Qed.
Lemma c_sinsert key v vlen ct cr mt m : kl key -> vlen_arg v vlen -> create_opt TSet ct cr -> mode_opt mt m ->
  good (txt "sop" :: txt "insert" :: key :: v :: ct ++ mt) (SInsert key vlen cr m).
Proof. intros KL VL CO MO. plain to_sop; unfold sop_cmd; fin. Qed.
Lemma c_sdelete key v vlen dt d mt m : kl key -> vlen_arg v vlen -> drop_opt dt d -> mode_opt mt m ->
  good (txt "sop" :: txt "delete" :: key :: v :: dt ++ mt) (SDelete key vlen d m).
Proof. intros KL VL CO MO. plain to_sop; unfold sop_cmd; fin. Qed.
Lemma c_sexist key v vlen mt m : kl key -> vlen_arg v vlen -> mode_opt mt m -> m <> NoReply ->
  good (txt "sop" :: txt "exist" :: key :: v :: mt) (SExist key vlen m).
Proof. intros KL VL MO NN. optp; try congruence; plain to_sop; unfold sop_cmd; fin. Qed.
Lemma c_sexist2 key v vlen g : kl key -> vlen_arg v vlen -> g <> txt "pipe" ->
  good [txt "sop"; txt "exist"; key; v; g] (SExist key vlen Reply).
Proof. intros KL VL NG. apply beqb_neq in NG. plain to_sop; unfold sop_cmd; fin. Qed.
Lemma c_sget key c count tt t : kl key -> num_u32 c count -> (count <= 1000)%N -> take_opt tt t ->
  good (txt "sop" :: txt "get" :: key :: c :: tt) (SGet key count t).
Proof. intros KL NC LC TT. plain to_sop; unfold sop_cmd; fin. Qed.
Lemma c_minsert w up key field v vlen ct cr mt m : kl key ->
  (w = txt "insert" /\ up = false) \/ (w = txt "upsert" /\ up = true) ->
  List.length field <= 250 -> vlen_arg v vlen -> create_opt TMap ct cr -> mode_opt mt m ->
  good (txt "mop" :: w :: key :: field :: v :: ct ++ mt) (MInsert up key field vlen cr m).
Proof. intros KL W FL VL CO MO. plain to_mop; unfold mop_cmd; fin. Qed.
Lemma c_mupdate key field v vlen mt m : kl key -> List.length field <= 250 -> vlen_arg v vlen -> mode_opt mt m ->
  good (txt "mop" :: txt "update" :: key :: field :: v :: mt) (MUpdate key field vlen m).
Proof. intros KL FL VL MO. plain to_mop; unfold mop_cmd; fin. Qed.
Lemma c_mupdate2 key field v vlen g : kl key -> List.length field <= 250 -> vlen_arg v vlen -> no_mode g ->
  good [txt "mop"; txt "update"; key; field; v; g] (MUpdate key field vlen Reply).
Proof.
  intros KL FL VL [N1 N2]. apply beqb_neq in N1, N2. plain to_mop; unfold mop_cmd; fin.
Qed.
Lemma c_mdelete key l lenf n numf dt d mt m : kl key -> num_u32 l lenf -> num_u32 n numf -> fields_ok mm lenf numf ->
  drop_opt dt d -> mode_opt mt m ->
  good (txt "mop" :: txt "delete" :: key :: l :: n :: dt ++ mt) (MDelete key lenf numf d m).
Proof.
  intros KL N1 N2 FO DO MO.
  pose proof (fun tl => proj2 (fields_okE mm (txt "mop") (txt "delete") key l n tl lenf numf MM) (conj N1 (conj N2 FO))) as FE.
  specialize (FE (dt ++ mt)). plain to_mop; unfold mop_cmd; cbn [app] in FE; fin.
Qed.
Lemma c_mdelete2 key l lenf n numf g : kl key -> num_u32 l lenf -> num_u32 n numf -> fields_ok mm lenf numf ->
  no_mode g ->
  good [txt "mop"; txt "delete"; key; l; n; txt "drop"; g] (MDelete key lenf numf true Reply).
Proof.
  intros KL N1 N2 FO [G1 G2]. apply beqb_neq in G1, G2.
  pose proof (proj2 (fields_okE mm (txt "mop") (txt "delete") key l n [txt "drop"; g] lenf numf MM) (conj N1 (conj N2 FO))) as FE.
  plain to_mop; unfold mop_cmd; fin.
Qed.
Lemma c_mget key l lenf n numf tt t : kl key -> num_u32 l lenf -> num_u32 n numf -> fields_ok mm lenf numf ->
  take_opt tt t ->
  good (txt "mop" :: txt "get" :: key :: l :: n :: tt) (MGet key lenf numf t).
Proof.
  intros KL N1 N2 FO TT.
  pose proof (proj2 (fields_okE mm (txt "mop") (txt "get") key l n tt lenf numf MM) (conj N1 (conj N2 FO))) as FE.
  plain to_mop; unfold mop_cmd; fin.
Qed.

Ltac plainb L := optp; revf; cbn [app]; eexists; rewrite to_bop by (assumption || reflexivity);
  rewrite L by (try reflexivity; auto); f_equal; words; start.
Lemma not0x s v : safe_strtol s = Some v -> is0x s = false.
Proof. intros H. apply i32_ok in H. exact (i32_not0x _ _ H). Qed.
Lemma vlen_not0x s v : vlen_arg s v -> is0x s = false.
Proof. intros [H _]. exact (i32_not0x _ _ H). Qed.
Lemma binsert_go w up key b bk et ef v vlen ct cr mt m :
  bkey_arg b bk -> eflag_opt et ef -> vlen_arg v vlen -> create_opt TBtree ct cr -> mode_opt mt m ->
  bop_insert up (txt "bop" :: w :: key :: b :: et ++ v :: ct ++ mt) key = Got (BInsert up key bk ef vlen cr false m).
Proof.
  clear. intros BK EO VL CO MO. pose proof (vlen_not0x _ _ VL) as NX. optp; revf; cbn [app]; fin.
Qed.
Lemma bgetrim_go w up key b bk et ef v vlen ct cr :
  bkey_arg b bk -> eflag_opt et ef -> vlen_arg v vlen -> create_opt TBtree ct cr ->
  bop_insert up (txt "bop" :: w :: key :: b :: et ++ v :: ct ++ [txt "getrim"]) key = Got (BInsert up key bk ef vlen cr true Reply).
Proof.
  clear. intros BK EO VL CO. pose proof (vlen_not0x _ _ VL) as NX. optp; revf; cbn [app]; fin.
Qed.
Lemma insert_len w key b et ef v ct cr mt :
  eflag_opt et ef -> create_opt TBtree ct cr -> List.length mt <= 1 ->
  lens_ok 6 14 (txt "bop" :: w :: key :: b :: et ++ v :: ct ++ mt) = true /\
  lens_ok 5 14 (txt "bop" :: w :: key :: b :: et ++ v :: ct ++ mt) = true.
Proof.
  clear. intros EO CO L.
  assert (E : List.length et <= 1) by (destruct EO; cbn; lia).
  assert (C : List.length ct <= 6) by (destruct CO as [|at_ a A]; [cbn; lia|destruct A; cbn; lia]).
  unfold lens_ok. cbn [List.length]. rewrite !app_length. cbn [List.length]. rewrite !app_length.
  rewrite !(proj2 (Nat.leb_le _ _)) by lia. split; reflexivity.
Qed.
Lemma c_binsert w up key b bk et ef v vlen ct cr mt m : kl key ->
  (w = txt "insert" /\ up = false) \/ (w = txt "upsert" /\ up = true) ->
  bkey_arg b bk -> eflag_opt et ef -> vlen_arg v vlen -> create_opt TBtree ct cr -> mode_opt mt m ->
  good (txt "bop" :: w :: key :: b :: et ++ v :: ct ++ mt) (BInsert up key bk ef vlen cr false m).
Proof.
  intros KL W BK EO VL CO MO. exists st.
  destruct (insert_len w key b et ef v ct cr mt EO CO) as [L1 L2]; [destruct MO; cbn; lia|].
  rewrite to_bop by assumption. rewrite b_insert; [|tauto|exact L1].
  replace (beqb w (txt "upsert")) with up by (destruct W as [[-> ->]|[-> ->]]; reflexivity).
  now rewrite (binsert_go w up key b bk et ef v vlen ct cr mt m).
Qed.
Lemma c_bgetrim w up key b bk et ef v vlen ct cr : kl key ->
  (w = txt "insert" /\ up = false) \/ (w = txt "upsert" /\ up = true) ->
  bkey_arg b bk -> eflag_opt et ef -> vlen_arg v vlen -> create_opt TBtree ct cr ->
  good (txt "bop" :: w :: key :: b :: et ++ v :: ct ++ [txt "getrim"]) (BInsert up key bk ef vlen cr true Reply).
Proof.
  intros KL W BK EO VL CO. exists st.
  destruct (insert_len w key b et ef v ct cr [txt "getrim"] EO CO) as [L1 L2]; [cbn; lia|].
  rewrite to_bop by assumption. rewrite b_insert; [|tauto|exact L1].
  replace (beqb w (txt "upsert")) with up by (destruct W as [[-> ->]|[-> ->]]; reflexivity).
  now rewrite (bgetrim_go w up key b bk et ef v vlen ct cr).
Qed.
Lemma c_bupdate key b bk ut u v vlen mt m : kl key -> range_arg b (Single bk) -> upd_opt ut u ->
  num_i32 v vlen -> (-1 <= vlen <= 2147483645)%Z -> mode_opt mt m ->
  good (txt "bop" :: txt "update" :: key :: b :: ut ++ v :: mt) (BUpdate key bk u vlen m).
Proof.
  intros KL BK UO NV VL MO.
  destruct UO as [|s f UF|o off w op s f NO LO BA UF].
  - plainb b_update; fin.
  - destruct UF as [s f HX|s Z0]; [|pose proof (i32_not0x _ _ Z0)]; plainb b_update; fin.
  - destruct UF as [s f HX|s Z0]; [|pose proof (i32_not0x _ _ Z0)]; destruct BA; plainb b_update; fin.
Qed.
Lemma c_barith w inc key b bk d delta it init mt m : kl key ->
  (w = txt "incr" /\ inc = true) \/ (w = txt "decr" /\ inc = false) ->
  range_arg b (Single bk) -> num_u64 d delta -> (1 <= delta)%N -> init_opt it init -> mode_opt mt m ->
  good (txt "bop" :: w :: key :: b :: d :: it ++ mt) (BArith inc key bk delta init m).
Proof. intros KL W BK ND LD IO MO. plainb b_arith; fin. Qed.
Lemma c_barith2 w inc key b bk d delta i n e ef g : kl key ->
  (w = txt "incr" /\ inc = true) \/ (w = txt "decr" /\ inc = false) ->
  range_arg b (Single bk) -> num_u64 d delta -> (1 <= delta)%N -> num_u64 i n -> hex_arg e ef ->
  no_mode g ->
  good [txt "bop"; w; key; b; d; i; e; g] (BArith inc key bk delta (Some (n, Some ef)) Reply).
Proof. intros KL W BK ND LD IO HE [G1 G2]. apply beqb_neq in G1, G2. plainb b_arith; fin. Qed.
Lemma c_bposition key b bk o od : kl key -> range_arg b (Single bk) -> order_arg o od ->
  good [txt "bop"; txt "position"; key; b; o] (BPosition key bk od).
Proof. intros KL BK OA. plainb b_position; fin. Qed.
Lemma c_bpwg key b bk o od ct count : kl key -> range_arg b (Single bk) -> order_arg o od -> count_opt ct count ->
  (count <= 100)%N ->
  good (txt "bop" :: txt "pwg" :: key :: b :: o :: ct) (BPwg key bk od count).
Proof. intros KL BK OA CT LC. plainb b_pwg; fin. Qed.
Lemma c_bgbp key o od p ps : kl key -> order_arg o od -> pos_arg p ps ->
  good [txt "bop"; txt "gbp"; key; o; p] (BGbp key od (fst ps) (snd ps)).
Proof. intros KL OA PA. plainb b_gbp; fin. Qed.
End Complete.
