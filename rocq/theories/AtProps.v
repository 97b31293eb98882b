(* C59 and C60: the commands setattr and getattr. *)
From Coq Require Import String Ascii.
From Verif Require Import Base UtilModel UtilSpec UtilProofs ArgTypes ArgModel ArgSpec ArgProofs AtModel AtSpec AtProofs AtProofs2 AtProofs3.
From Verif Require BtModel BtSpec.
From Coq Require Import List ZArith NArith Lia Bool.
Local Open Scope nat_scope.
Local Open Scope list_scope.

Definition setline (key : bytes) (args : list bytes) : list bytes := txt "setattr" :: key :: args.
Definition getline (key : bytes) (names : list bytes) : list bytes := txt "getattr" :: key :: names.
Definition keylen (key : bytes) : Prop := (N.of_nat (List.length key) <= 16000)%N.

Lemma set_dispatch z c junk it key args : keylen key -> 1 <= List.length args <= 5 ->
  attr_cmd z c junk it (setline key args) =
  Some match set_loop c junk args with
       | inr e => (it, Text (serr_text e))
       | inl (d, ids) =>
           match it with
           | None => (None, Text (txt "NOT_FOUND"))
           | Some i =>
               match do_item_setattr z i ids d with
               | None => (it, Text (txt "ATTR_ERROR bad value"))
               | Some i' => (Some i', Text (txt "OK"))
               end
           end
       end.
Proof.
  intros K L. unfold attr_cmd, setline. change (beqb (txt "setattr") (txt "getattr")) with false. rewrite andb_false_r.
  change (beqb (txt "setattr") (txt "setattr")) with true.
  assert (A : List.length (txt "setattr" :: key :: args) = S (S (List.length args))) by reflexivity. rewrite A.
  rewrite (proj2 (Nat.leb_le 4 _)) by lia. rewrite (proj2 (Nat.leb_le _ 8)) by lia. cbn [andb].
  unfold setattr_cmd. rewrite (proj2 (N.ltb_ge KEY_MAX_LENGTH _)) by exact K.
  rewrite (proj2 (Nat.ltb_ge ATTR_END _)) by (unfold ATTR_END; lia). reflexivity.
Qed.
Lemma get_dispatch z c junk it key names : keylen key -> List.length names <= 11 ->
  attr_cmd z c junk it (getline key names) =
  Some (it, match name_ids names with
    | None => Text (txt "ATTR_ERROR not found")
    | Some ids =>
        match it with
        | None => Text (txt "NOT_FOUND")
        | Some it =>
            match do_item_getattr z it ids junk with
            | None => Text (txt "ATTR_ERROR not found")
            | Some d =>
                let ids := match ids with [] => default_ids (d_type d) | _ => ids end in
                let s := List.concat (map (fun a => attr_line c a d) ids) ++ txt "END" in
                if Nat.ltb BUF (S (List.length s)) then Overrun else Text s
            end
        end
    end).
Proof.
  intros K L. unfold attr_cmd, getline. change (beqb (txt "getattr") (txt "getattr")) with true.
  assert (A : List.length (txt "getattr" :: key :: names) = S (S (List.length names))) by reflexivity. rewrite A.
  rewrite (proj2 (Nat.leb_le 3 _)) by lia. rewrite (proj2 (Nat.leb_le _ 14)) by lia. cbn [andb].
  unfold getattr_cmd. rewrite (proj2 (N.ltb_ge KEY_MAX_LENGTH _)) by exact K.
  rewrite (proj2 (Nat.ltb_ge ATTR_END _)) by (unfold ATTR_END; lia). reflexivity.
Qed.

(* ================ C59 ================ *)
(* A setattr whose values are all acceptable makes the item exactly what is asked for, whatever
   the memory of the function contained.  The item may be of any type; attributes which the type
   does not have are passed over (see C59_foreign_refuted). *)
Theorem C59_sets_partial : forall z c junk it key args cs, clock_ok c -> good z it -> keylen key ->
  1 <= List.length args <= 5 -> Forall2 asks args cs -> fine z it cs ->
  attr_cmd z c junk (Some it) (setline key args) = Some (Some (after z c it cs), Text (txt "OK")).
Proof.
  intros z c junk it key args cs C G K L F Fi. rewrite set_dispatch by assumption.
  rewrite (set_loop_ok c _ _ F). rewrite (proj2 (setattr_engine z c it args cs junk C G F _) (conj Fi eq_refl)). reflexivity.
Qed.

(* When one of the values is not acceptable, nothing is changed, not even the attributes before it. *)
Theorem C59_all_or_nothing : forall z c junk it key args cs, clock_ok c -> good z it -> keylen key ->
  1 <= List.length args <= 5 -> Forall2 asks args cs -> ~ fine z it cs ->
  attr_cmd z c junk (Some it) (setline key args) = Some (Some it, Text (txt "ATTR_ERROR bad value")).
Proof.
  intros z c junk it key args cs C G K L F Fi. rewrite set_dispatch by assumption. rewrite (set_loop_ok c _ _ F).
  destruct (do_item_setattr z it (map idc cs) (fold_left (upd c) cs junk)) as [x|] eqn:E; [|reflexivity].
  apply (setattr_engine z c it args cs junk C G F) in E. destruct E as [E _]. contradiction.
Qed.

(* what the first wrong word is answered with *)
Inductive wrong : bytes -> bytes -> Prop :=
| wr_line s : ~ In 61%N s -> wrong s (txt "CLIENT_ERROR bad command line format")
| wr_name n v : ~ In 61%N n ->
    (forall w, In w [AExpire; AMaxcount; AOvfl; AReadable; ARange] -> n <> word w) -> wrong (n ++ 61%N :: v) (txt "ATTR_ERROR not found")
| wr_value w v : In w [AExpire; AMaxcount; AOvfl; AReadable; ARange] ->
    (forall ch, ~ asks (word w ++ 61%N :: v) ch) -> wrong (word w ++ 61%N :: v) (txt "ATTR_ERROR bad value").
Lemma wrong_loop c s e post : wrong s e -> exists x, serr_text x = e /\ forall d, set_loop c d (s :: post) = inr x.
Proof.
  intros [t N|n v N W|w v I NA].
  - exists BadLine. split; [reflexivity|]. intro d. cbn [set_loop]. now rewrite cut_none.
  - exists BadAttr. split; [reflexivity|]. intro d. cbn [set_loop]. rewrite cut_equal_app by exact N. cbv beta zeta.
    assert (D : forall w, In w [AExpire; AMaxcount; AOvfl; AReadable; ARange] -> beqb n (word w) = false).
    { intros w I. destruct (beqb_spec n (word w)) as [E|]; [|reflexivity]. exfalso. exact (W w I E). }
    pose proof (D AExpire ltac:(cbn; auto)) as D1. pose proof (D AMaxcount ltac:(cbn; auto)) as D2. pose proof (D AOvfl ltac:(cbn; auto)) as D3.
    pose proof (D AReadable ltac:(cbn; auto 8)) as D4. pose proof (D ARange ltac:(cbn; auto 8)) as D5. cbn [word] in *.
    rewrite D1, D2, D3, D4, D5. reflexivity.
  - exists BadValue. split; [reflexivity|]. intro d.
    destruct (set_loop c d [word w ++ 61%N :: v]) as [p|] eqn:E.
    { apply set_loop_inv in E. destruct E as [cs F]. inversion F; subst. exfalso. eapply NA; eauto. }
    assert (CE : cut_equal (word w ++ 61%N :: v) = Some (word w, v)) by (apply cut_equal_app; destruct w; cbn; intuition discriminate).
    cbn [set_loop] in *. rewrite CE in *. cbv beta zeta in *. cbn in I.
    assert (F1 : forall x y, beqb (word x) (word y) = aid_beq x y) by (intros [] []; reflexivity).
    pose proof (F1 w AExpire) as B1. pose proof (F1 w AMaxcount) as B2. pose proof (F1 w AOvfl) as B3. pose proof (F1 w AReadable) as B4.
    pose proof (F1 w ARange) as B5. cbn [word] in *. rewrite B1, B2, B3, B4, B5 in *.
    destruct w; try (exfalso; intuition discriminate); cbn [aid_beq] in *.
    + destruct (safe_strtoll v); [discriminate|reflexivity].
    + destruct (safe_strtol v); [discriminate|reflexivity].
    + destruct (ovfl_num v); [discriminate|reflexivity].
    + destruct (beqb v (txt "on")); [discriminate|reflexivity].
    + destruct (range_value v); [discriminate|reflexivity].
Qed.
(* A line with a word that is not understood changes nothing; the answer tells what is wrong with
   the first such word; this does not depend on the item. *)
Theorem C59_wrong_line : forall z c junk it key pre cs s e post, keylen key ->
  List.length (pre ++ s :: post) <= 5 -> Forall2 asks pre cs -> wrong s e ->
  attr_cmd z c junk it (setline key (pre ++ s :: post)) = Some (it, Text e).
Proof.
  intros z c junk it key pre cs s e post K L F W. rewrite set_dispatch; [|exact K|rewrite app_length in *; cbn in *; lia].
  destruct (wrong_loop c s e post W) as (x & <- & H). rewrite (set_loop_bad c pre cs s post x F junk H). reflexivity.
Qed.
(* every word is understood or wrong in exactly one way *)
Theorem C59_words : forall s, ((exists ch, asks s ch) \/ (exists e, wrong s e)) /\ ~ ((exists ch, asks s ch) /\ (exists e, wrong s e)).
Proof.
  intro s. split.
  - destruct (set_loop (Build_clock 0 0) (mkD 0 0 0 0 None (BtModel.U64 0) (BtModel.U64 0) KV 0 0 0) [s]) as [p|] eqn:E.
    { left. apply set_loop_inv in E. destruct E as [cs F]. inversion F; subst. eauto. }
    right. cbn [set_loop] in E. destruct (cut_equal s) as [[n v]|] eqn:CE.
    2:{ exists (txt "CLIENT_ERROR bad command line format"). constructor. clear E. revert CE. induction s as [|x s IH]; cbn; [tauto|].
        destruct (N.eqb_spec x 61); [discriminate|]. destruct (cut_equal s) as [[? ?]|]; [discriminate|]. intros _ [H|H]; [congruence|]. now apply IH. }
    assert (N61 : ~ In 61%N n).
    { clear E. revert n v CE. induction s as [|x s IH]; cbn; intros n v CE; [discriminate|].
      destruct (N.eqb_spec x 61); [injection CE as <- <-; auto|]. destruct (cut_equal s) as [[n' v']|]; [|discriminate].
      injection CE as <- <-. intros [H|H]; [congruence|]. eapply IH; eauto. }
    pose proof (cut_equal_inv _ _ _ CE) as ->.
    assert (D : {w | In w [AExpire; AMaxcount; AOvfl; AReadable; ARange] /\ n = word w} +
                {forall w, In w [AExpire; AMaxcount; AOvfl; AReadable; ARange] -> n <> word w}).
    { destruct (beqb_spec n (word AExpire)); [left; exists AExpire; cbn; auto 8|].
      destruct (beqb_spec n (word AMaxcount)); [left; exists AMaxcount; cbn; auto 8|].
      destruct (beqb_spec n (word AOvfl)); [left; exists AOvfl; cbn; auto 8|].
      destruct (beqb_spec n (word AReadable)); [left; exists AReadable; cbn; auto 8|].
      destruct (beqb_spec n (word ARange)); [left; exists ARange; cbn; auto 8|].
      right. intros w I. cbn in I. intuition (subst; auto). }
    destruct D as [(w & I & ->)|D]; [|exists (txt "ATTR_ERROR not found"); now constructor].
    exists (txt "ATTR_ERROR bad value"). constructor; [exact I|]. intros ch A.
    pose proof (set_loop_ok (Build_clock 0 0) [word w ++ 61%N :: v] [ch] (Forall2_cons _ _ A (Forall2_nil _)) (mkD 0 0 0 0 None (BtModel.U64 0) (BtModel.U64 0) KV 0 0 0)) as H.
    cbn [set_loop] in H. rewrite CE in H. rewrite E in H. discriminate.
  - intros [[ch A] [e W]]. destruct (wrong_loop (Build_clock 0 0) s e [] W) as (x & _ & H).
    pose proof (set_loop_ok (Build_clock 0 0) [s] [ch] (Forall2_cons _ _ A (Forall2_nil _)) (mkD 0 0 0 0 None (BtModel.U64 0) (BtModel.U64 0) KV 0 0 0)) as Y.
    rewrite H in Y. discriminate.
Qed.
(* without an item nothing is created *)
Theorem C59_missing : forall z c junk key args cs, keylen key -> 1 <= List.length args <= 5 -> Forall2 asks args cs ->
  attr_cmd z c junk None (setline key args) = Some (None, Text (txt "NOT_FOUND")).
Proof. intros z c junk key args cs K L F. rewrite set_dispatch by assumption. now rewrite (set_loop_ok c _ _ F). Qed.

(* Any number of commands leaves the item within its limits: number of elements, overflow action of
   its type, distance of the bkeys. *)
Theorem C59_limits_kept : forall z c junk it toks it' r, clock_ok c -> good z it ->
  attr_cmd z c junk (Some it) toks = Some (Some it', r) -> good z it' /\ i_type it' = i_type it /\ i_flags it' = i_flags it /\
    m_ccnt (i_meta it') = m_ccnt (i_meta it) /\ (i_exp it' = 4294967295%N <-> i_exp it = 4294967295%N).
Proof.
  intros z c junk it toks it' r C G H.
  assert (Same : Some (Some it, r) = Some (Some it', r) -> good z it' /\ i_type it' = i_type it /\ i_flags it' = i_flags it /\
    m_ccnt (i_meta it') = m_ccnt (i_meta it) /\ (i_exp it' = 4294967295%N <-> i_exp it = 4294967295%N)).
  { intro E. injection E as <-. intuition. }
  unfold attr_cmd in H. destruct toks as [|cmd [|key rest]]; try discriminate.
  destruct (Nat.leb 3 _ && _ && beqb cmd (txt "getattr"))%bool; [injection H as <- <-; apply Same; reflexivity|].
  destruct (Nat.leb 4 _ && _ && beqb cmd (txt "setattr"))%bool; [|discriminate].
  unfold setattr_cmd in H. destruct (N.ltb KEY_MAX_LENGTH _); [injection H as <- <-; apply Same; reflexivity|].
  destruct (Nat.ltb ATTR_END _); [injection H as <- <-; apply Same; reflexivity|].
  destruct (set_loop c junk rest) as [[d ids]|] eqn:E; [|injection H as <- <-; apply Same; reflexivity].
  destruct (set_loop_inv _ _ _ _ E) as [cs F]. rewrite (set_loop_ok c _ _ F) in E. injection E as <- <-.
  destruct (do_item_setattr z it (map idc cs) (fold_left (upd c) cs junk)) as [x|] eqn:D; [|injection H as <- <-; apply Same; reflexivity].
  injection H as <- <-. apply (setattr_engine z c it rest cs junk C G F) in D. destruct D as [Fi ->].
  split; [eauto using good_after|]. split; [reflexivity|]. split; [reflexivity|]. split.
  - unfold after. cbn [i_meta]. destruct (i_type it); reflexivity.
  - unfold after. cbn [i_exp]. destruct (new_exp cs) as [e|] eqn:N; [|reflexivity]. destruct Fi as [Fe _].
    rewrite (Fe e N). apply due_sticky, C.
Qed.
Fixpoint attr_run (z : sizes) (it : option item) (l : list (clock * adata * list bytes)) : option item :=
  match l with
  | [] => it
  | (c, junk, toks) :: r => attr_run z (match attr_cmd z c junk it toks with Some (it', _) => it' | None => it end) r
  end.
Theorem C59_limits_kept_always : forall z l it, good z it -> Forall (fun x => clock_ok (fst (fst x))) l ->
  exists it', attr_run z (Some it) l = Some it' /\ good z it' /\ i_type it' = i_type it /\ i_flags it' = i_flags it /\
    m_ccnt (i_meta it') = m_ccnt (i_meta it).
Proof.
  intros z l. induction l as [|[[c junk] toks] l IH]; intros it G F; cbn [attr_run]; [eauto 8|].
  inversion F as [|? ? C F']; subst. cbn in C.
  destruct (attr_cmd z c junk (Some it) toks) as [[it1 r]|] eqn:E; [|now apply IH].
  destruct it1 as [it1|].
  - destruct (C59_limits_kept _ _ _ _ _ _ _ C G E) as (G1 & T1 & F1 & N1 & _).
    destruct (IH it1 G1 F') as (it' & R & G' & T' & F2 & N2). exists it'. split; [exact R|]. split; [exact G'|]. repeat split; congruence.
  - exfalso. unfold attr_cmd in E. destruct toks as [|cmd [|key rest]]; try discriminate.
    destruct (Nat.leb 3 _ && _ && _)%bool; [discriminate|]. destruct (Nat.leb 4 _ && _ && _)%bool; [|discriminate].
    unfold setattr_cmd in E. destruct (N.ltb _ _); [discriminate|]. destruct (Nat.ltb _ _); [discriminate|].
    destruct (set_loop c junk rest) as [[d ids]|]; [|discriminate]. destruct (do_item_setattr z it ids d); discriminate.
Qed.

(* The documents say that an attribute the item does not have is answered "ATTR_ERROR not found".  For
   maxcount, overflowaction and readable of a kv item and maxbkeyrange of a list the answer is OK. *)
Definition sizes0 : sizes := fun _ => 50000%Z.
Definition clock0 : clock := {| cur := 100; started := 1600000000 |}.
Definition junk0 : adata := mkD 0 0 0 0 None (BtModel.U64 0) (BtModel.U64 0) KV 0 0 0.
Definition meta0 : meta := mkM 4000 0 1 true false 0 None (BtModel.U64 0) (BtModel.U64 0).
Definition kv0 : item := mkI KV 7 0 meta0.
Definition list0 : item := mkI LIST 7 0 (mkM 4000 3 3 true false 0 None (BtModel.U64 0) (BtModel.U64 0)).
Definition tree0 : item := mkI BTREE 7 0 (mkM 4000 3 4 false true 1 (Some (BtModel.U64 100)) (BtModel.U64 10) (BtModel.U64 90)).
Theorem C59_foreign_refuted :
  attr_cmd sizes0 clock0 junk0 (Some kv0) (setline (txt "k") [txt "maxcount=10"; txt "overflowaction=head_trim"; txt "maxbkeyrange=5"]) =
    Some (Some kv0, Text (txt "OK")) /\
  attr_cmd sizes0 clock0 junk0 (Some list0) (setline (txt "k") [txt "maxbkeyrange=5"]) = Some (Some list0, Text (txt "OK")).
Proof. split; vm_compute; reflexivity. Qed.

(* ================ C60 ================ *)
(* getattr with attributes the item has, or none: every attribute once per name, in the order of
   the names, with its value; the reply fits in the buffer and does not depend on what was in it. *)
Theorem C60_values : forall z c it key ids, clock_ok c -> good z it -> keylen key ->
  List.length ids <= 11 -> incl ids (documented (i_type it)) ->
  exists l, map fst l = (match ids with [] => documented (i_type it) | _ => ids end) /\
    Forall (fun p => shows z c it (fst p) (snd p)) l /\
    forall junk, attr_cmd z c junk (Some it) (getline key (map word ids)) = Some (Some it, Text (a_lines l ++ txt "END")).
Proof.
  intros z c it key ids C G K L I.
  set (all := match ids with [] => documented (i_type it) | _ => ids end).
  assert (I2 : incl all (documented (i_type it))) by (subst all; destruct ids; [apply incl_refl|exact I]).
  assert (L2 : List.length all <= 11) by (subst all; destruct ids; [destruct (i_type it); cbn; lia|exact L]).
  destruct (lines_show z c it all C G I2) as (l & F & S & E & Len).
  exists l. split; [exact F|]. split; [exact S|]. intro junk.
  rewrite get_dispatch; [|exact K|now rewrite map_length]. rewrite words_ids, (getattr_filled _ _ _ _ I).
  assert (A : match ids with [] => default_ids (d_type (filled z it junk)) | _ => ids end = all).
  { subst all. destruct ids; [|reflexivity]. rewrite filled_type. destruct (i_type it); reflexivity. }
  rewrite A. cbv zeta. rewrite E.
  rewrite (proj2 (Nat.ltb_ge BUF _)); [reflexivity|]. rewrite app_length. change (List.length (txt "END")) with 3. unfold BUF. lia.
Qed.
(* there is one value of each attribute *)
Theorem C60_one_value : forall z c it a, clock_ok c -> good z it -> In a (documented (i_type it)) ->
  exists v, forall w, shows z c it a w <-> w = v.
Proof.
  intros z c it a C G I. destruct (attr_shows z c it a C G I) as (v & S & _). exists v. intro w. split; [|intros ->; exact S].
  intro W. eauto using shows_one.
Qed.
(* nothing is changed, and nothing comes back for a key without item *)
Theorem C60_reads_only : forall z c junk it key names x, attr_cmd z c junk it (getline key names) = Some x -> fst x = it.
Proof.
  intros z c junk it key names x. unfold attr_cmd, getline. destruct (_ && beqb (txt "getattr") (txt "getattr"))%bool.
  - intro H. injection H as <-. reflexivity.
  - change (beqb (txt "getattr") (txt "setattr")) with false. rewrite andb_false_r. discriminate.
Qed.
Theorem C60_missing : forall z c junk key ids, keylen key -> List.length ids <= 11 ->
  attr_cmd z c junk None (getline key (map word ids)) = Some (None, Text (txt "NOT_FOUND")).
Proof. intros z c junk key ids K L. rewrite get_dispatch; [|exact K|now rewrite map_length]. now rewrite words_ids. Qed.
(* a name which is no attribute at all, or an attribute the type of the item does not have;
   missing are minbkey and maxbkey of items which are not b+trees, see below *)
Theorem C60_unknown : forall z c junk it key names s, keylen key -> List.length names <= 11 ->
  In s names -> (forall a, s <> word a) ->
  attr_cmd z c junk it (getline key names) = Some (it, Text (txt "ATTR_ERROR not found")).
Proof. intros z c junk it key names s K L I N. rewrite get_dispatch by assumption. now rewrite (no_word names s). Qed.
Theorem C60_foreign_partial : forall z c junk it key ids a, keylen key -> List.length ids <= 11 ->
  In a ids -> ~ In a (documented (i_type it)) -> a <> AMin -> a <> AMax ->
  attr_cmd z c junk (Some it) (getline key (map word ids)) = Some (Some it, Text (txt "ATTR_ERROR not found")).
Proof.
  intros z c junk it key ids a K L I N N1 N2. rewrite get_dispatch; [|exact K|now rewrite map_length]. rewrite words_ids.
  assert (E : attr_known (i_type it) a = false) by (destruct (i_type it), a; cbn in *; tauto).
  unfold do_item_getattr. replace (forallb (attr_known (i_type it)) ids) with false; [reflexivity|].
  symmetry. destruct (forallb (attr_known (i_type it)) ids) eqn:F; [|reflexivity]. rewrite forallb_forall in F. apply F in I. congruence.
Qed.
(* minbkey of a kv item and of a list: the memory of the function is printed, a reply that differs from
   call to call; with unlucky memory more than 1024 bytes are written. *)
Definition junk1 : adata := mkD 0 0 1 0 None (BtModel.U64 77) (BtModel.U64 0) KV 0 0 0.
Definition junk2 : adata := mkD 0 0 1 0 None (BtModel.Bin (repeat 170%N 255)) (BtModel.U64 0) KV 0 0 0.
Theorem C60_foreign_refuted :
  good sizes0 kv0 /\ good sizes0 list0 /\
  attr_cmd sizes0 clock0 junk0 (Some kv0) (getline (txt "k") [txt "minbkey"]) =
    Some (Some kv0, Text (a_line AMin (txt "-1") ++ txt "END")) /\
  attr_cmd sizes0 clock0 junk1 (Some kv0) (getline (txt "k") [txt "minbkey"]) =
    Some (Some kv0, Text (a_line AMin (txt "77") ++ txt "END")) /\
  attr_cmd sizes0 clock0 junk1 (Some list0) (getline (txt "k") [txt "minbkey"]) =
    Some (Some list0, Text (a_line AMin (txt "77") ++ txt "END")) /\
  attr_cmd sizes0 clock0 junk2 (Some list0) (getline (txt "k") [txt "minbkey"; txt "minbkey"]) = Some (Some list0, Overrun).
Proof.
  split; [|split].
  - constructor; cbn; unfold sizes0; try lia; intros; try congruence; try discriminate.
  - constructor; cbn; unfold limit, sizes0; cbn; try lia; intros; try discriminate. exists OTailTrim. cbn. auto.
  - repeat split; vm_compute; reflexivity.
Qed.

(* ================ round trips ================ *)
(* the time left that is shown after expiretime=e was set, s seconds later *)
Definition later (c : clock) (s : Z) : clock := {| cur := cur c + s; started := started c |}.
Theorem C60_time_left : forall z c it cs e s v, clock_ok c -> clock_ok (later c s) -> (0 <= s)%Z -> new_exp cs = Some e ->
  shows z (later c s) (after z c it cs) AExpire v ->
  (e = 0 -> v = txt "0")%Z /\ (e = -1 -> v = txt "-1")%Z /\
  (0 < e <= 2592000 -> v = if Z.ltb s e then int_text (e - s) else txt "-2")%Z /\
  (2592000 < e -> e - started c <= 2147483647 ->
     v = if Z.ltb (started c + cur c + s) e then int_text (e - (started c + cur c + s)) else txt "-2")%Z /\
  (e < -1 -> v = txt "-2")%Z.
Proof.
  intros z c it cs e s v [C S] [C2 _] P N H. inversion H as [| |x Lf| | | | | | | | | | | | |]; subst. clear H.
  unfold after in Lf. cbn [i_exp] in Lf. rewrite N in Lf. unfold later in *. cbn [cur started] in *.
  unfold left, due in Lf. cbn [cur] in Lf.
  destruct (Z.eqb_spec e 0); [subst; assert (x = 0%Z) as -> by lia; repeat split; intros; try lia; reflexivity|].
  destruct (Z.eqb_spec e (-1)); [subst; assert (x = (-1)%Z) as -> by lia; repeat split; intros; try lia; reflexivity|].
  destruct (Z.ltb_spec e 0).
  { repeat split; intros; try lia. assert (x = (-2)%Z) as -> by lia. reflexivity. }
  split; [lia|]. split; [lia|]. split; [|split; [|lia]].
  - intro R. destruct (Z.leb_spec e 2592000); [|lia]. destruct (Z.ltb_spec s e).
    + assert (x = (e - s)%Z) as -> by lia. reflexivity.
    + assert (x = (-2)%Z) as -> by lia. reflexivity.
  - intros R B. destruct (Z.leb_spec e 2592000); [lia|]. destruct (Z.ltb_spec (started c + cur c + s) e).
    + assert (x = (e - (started c + cur c + s))%Z) as -> by lia. reflexivity.
    + assert (x = (-2)%Z) as -> by lia. reflexivity.
Qed.

(* maxcount, overflowaction, readable and maxbkeyrange are shown as they were set *)
Theorem C60_shows_what_was_set : forall z c c' it args cs, clock_ok c -> clock_ok c' -> good z it -> i_type it <> KV ->
  Forall2 asks args cs -> fine z it cs ->
  (forall n v, new_max cs = Some n -> shows z c' (after z c it cs) AMaxcount v ->
     v = int_text (if Z.ltb n 0 then z (i_type it) else if Z.eqb n 0 then 4000 else Z.min n (z (i_type it)))%Z) /\
  (forall o v, new_ovfl cs = Some o -> shows z c' (after z c it cs) AOvfl v -> v = ovfl_word o) /\
  (forall v, made_readable cs = true -> shows z c' (after z c it cs) AReadable v -> v = txt "on") /\
  (forall r v, i_type it = BTREE -> new_range cs = Some r -> shows z c' (after z c it cs) ARange v ->
     v = match r with None => txt "0" | Some k => key_shown k end).
Proof.
  intros z c c' it args cs C C' G K F Fi.
  pose proof (good_after z c it args cs C G F Fi) as G'. pose proof (g_size _ _ G) as Sz.
  split; [|split; [|split]].
  - intros n v N H. inversion H; subst. f_equal. unfold limit. rewrite after_type, after_meta by exact K. cbv zeta. cbn [m_mcnt]. rewrite N.
    unfold wanted. destruct (Z.ltb_spec n 0); [reflexivity|]. destruct (Z.eqb_spec n 0); [reflexivity|].
    destruct (Z.leb_spec (Z.min n (z (i_type it))) 0); lia.
  - intros o v N H. eapply shows_one; [exact G'|exact H|]. constructor. rewrite after_meta by exact K. cbv zeta. cbn [m_ovfl]. now rewrite N.
  - intros v N H. eapply shows_one; [exact G'|exact H|]. constructor. rewrite after_meta by exact K. cbv zeta. cbn [m_read]. rewrite N. apply orb_true_r.
  - intros r v T N H. eapply shows_one; [exact G'|exact H|].
    assert (E : m_range (i_meta (after z c it cs)) = r).
    { rewrite after_meta by exact K. cbv zeta. cbn [m_range]. unfold btree. now rewrite T, N. }
    destruct r; constructor; exact E.
Qed.

(* ================ examples ================ *)
Lemma tree0_good : good sizes0 tree0.
Proof.
  constructor; cbn; unfold limit, sizes0; cbn; try lia; intros; try discriminate.
  - exists OSmallest. cbn. auto.
  - injection H0 as <-. split; [cbn; lia|]. intros _. split; [exact Logic.I|]. unfold spans. cbn. lia.
Qed.
Definition line1 : list bytes := [txt "expiretime=60"; txt "maxcount=100000"; txt "overflowaction=largest_trim"; txt "readable=on"; txt "maxbkeyrange=80"].
Definition changes1 : list change := [CExpire 60; CMax 100000; COvfl OLargest; CReadable; CRange (Some (BtModel.U64 80))].
Example ex_line1 : Forall2 asks line1 changes1.
Proof.
  unfold line1, changes1. constructor; [apply (k_exp (txt "60")), i64_ok; reflexivity|].
  constructor; [apply (k_max (txt "100000")), i32_ok; reflexivity|].
  constructor; [apply (k_ovfl OLargest)|]. constructor; [apply k_read|].
  constructor; [|constructor]. apply (k_range (txt "80")), range_value_ok. reflexivity.
Qed.
Example ex_fine1 : fine sizes0 tree0 changes1.
Proof.
  unfold fine. cbn. split; [intros e E; injection E as <-; split; discriminate|]. split; [intros _ n E; injection E as <-; right; vm_compute; discriminate|].
  split; [intros _ o E; injection E as <-; auto 8|]. intros _ r E _. injection E as <-. split; [exact Logic.I|]. unfold spans. cbn. lia.
Qed.
Example ex_clock : clock_ok clock0. Proof. unfold clock_ok, clock0. cbn. lia. Qed.
Example ex_set1 : attr_cmd sizes0 clock0 junk1 (Some tree0) (setline (txt "k") line1) =
  Some (Some (mkI BTREE 7 160 (mkM 50000 3 5 true false 1 (Some (BtModel.U64 80)) (BtModel.U64 10) (BtModel.U64 90))), Text (txt "OK")).
Proof. vm_compute. reflexivity. Qed.
(* a range of 79 is too small for the bkeys 10 to 90: the expiry time stays as well *)
Example ex_set2 : attr_cmd sizes0 clock0 junk1 (Some tree0) (setline (txt "k") [txt "expiretime=60"; txt "maxbkeyrange=79"]) =
  Some (Some tree0, Text (txt "ATTR_ERROR bad value")).
Proof. vm_compute. reflexivity. Qed.
Example ex_notfine : ~ fine sizes0 tree0 [CExpire 60; CRange (Some (BtModel.U64 79))].
Proof. intros (_ & _ & _ & H). destruct (H eq_refl _ eq_refl ltac:(reflexivity)) as [_ S]. unfold spans in S. cbn in S. lia. Qed.
Example ex_wrong : wrong (txt "readable=off") (txt "ATTR_ERROR bad value").
Proof.
  apply (wr_value AReadable (txt "off")); [cbn; auto 8|]. intros ch A. inversion A.
Qed.
Example ex_get : attr_cmd sizes0 clock0 junk2 (Some tree0) (getline (txt "k") [txt "maxbkey"; txt "trimmed"]) =
  Some (Some tree0, Text (a_line AMax (txt "90") ++ a_line ATrimmed (txt "1") ++ txt "END")).
Proof. vm_compute. reflexivity. Qed.
Example ex_get_all : exists s, attr_cmd sizes0 clock0 junk2 (Some tree0) (getline (txt "k") []) = Some (Some tree0, Text s) /\ List.length s = 215.
Proof. eexists. split; [vm_compute; reflexivity|vm_compute; reflexivity]. Qed.

Print Assumptions C59_sets_partial.
Print Assumptions C59_all_or_nothing.
Print Assumptions C59_wrong_line.
Print Assumptions C59_words.
Print Assumptions C59_missing.
Print Assumptions C59_limits_kept.
Print Assumptions C59_limits_kept_always.
Print Assumptions C59_foreign_refuted.
Print Assumptions C60_values.
Print Assumptions C60_one_value.
Print Assumptions C60_reads_only.
Print Assumptions C60_missing.
Print Assumptions C60_unknown.
Print Assumptions C60_foreign_partial.
Print Assumptions C60_foreign_refuted.
Print Assumptions C60_time_left.
Print Assumptions C60_shows_what_was_set.
