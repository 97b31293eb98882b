From Coq Require Import String Ascii.
From Verif Require Import Base UtilModel UtilSpec UtilProofs ArgTypes ArgModel ArgSpec ArgProofs AtModel AtSpec AtProofs AtProofs2.
From Verif Require BtModel BtSpec BtOrder BtKeys.
From Coq Require Import List ZArith NArith Lia Bool.
Local Open Scope nat_scope.
Local Open Scope list_scope.

(* ---------- items stay good ---------- *)
Lemma after_type z c it cs : i_type (after z c it cs) = i_type it.
Proof. reflexivity. Qed.
Lemma after_meta z c it cs : i_type it <> KV ->
  i_meta (after z c it cs) =
  let m := i_meta it in
  mkM (match new_max cs with Some n => wanted z (i_type it) n | None => m_mcnt m end)
             (m_ccnt m)
             (match new_ovfl cs with Some o => ovfl_code o | None => m_ovfl m end)
             (m_read m || made_readable cs)
             (m_trim m && negb (btree it && match new_ovfl cs with Some o => negb (N.eqb (ovfl_code o) (m_ovfl m)) | None => false end))
             (if (btree it && Z.eqb (m_ccnt m) 0)%bool then
                match new_range cs with
                | Some (Some r) => kind_code r
                | Some None => match m_range m with Some _ => 0%N | None => m_bktype m end
                | None => m_bktype m
                end
              else m_bktype m)
             (if btree it then match new_range cs with Some r => r | None => m_range m end else m_range m)
             (m_min m) (m_top m).
Proof. unfold after. destruct (i_type it); [congruence|reflexivity..]. Qed.

Lemma good_after z c it args cs : clock_ok c -> good z it -> Forall2 asks args cs -> fine z it cs -> good z (after z c it cs).
Proof.
  intros C G F (Fe & Fm & Fo & Fr).
  assert (Sz := g_size _ _ G).
  constructor; rewrite ?after_type.
  - exact (g_flags _ _ G).
  - unfold after. cbn [i_exp]. destruct (new_exp cs); [now apply due_range|apply (g_exp _ _ G)].
  - exact Sz.
  - intro K. pose proof (g_count _ _ G K) as Q. pose proof (g_mcnt _ _ G K) as M. unfold limit in *. rewrite after_type, after_meta by exact K. cbv zeta. cbn [m_ccnt m_mcnt].
    specialize (Fm K). destruct (new_max cs) as [n|]; [|exact Q]. specialize (Fm n eq_refl). unfold wanted in *.
    destruct (Z.leb_spec (m_mcnt (i_meta it)) 0); destruct (Z.ltb_spec n 0); cbn [Z.leb Z.compare];
      try (destruct (Z.eqb_spec n 0); [change (4000 <=? 0)%Z with false; lia|]; destruct (Z.leb_spec (Z.min n (z (i_type it))) 0); lia); lia.
  - intro K. pose proof (g_mcnt _ _ G K) as M. rewrite after_meta by exact K. cbv zeta. cbn [m_mcnt].
    destruct (new_max cs) as [n|]; [|exact M]. unfold wanted. destruct (Z.ltb_spec n 0); [lia|]. destruct (Z.eqb_spec n 0); lia.
  - intro K. rewrite after_meta by exact K. cbv zeta. cbn [m_ovfl]. destruct (new_ovfl cs) as [o|] eqn:E; [|exact (g_ovfl _ _ G K)].
    exists o. split; [now apply Fo|reflexivity].
  - intros T. assert (K : i_type it <> KV) by congruence. rewrite after_meta by exact K. cbv zeta. cbn [m_ccnt m_min m_top m_bktype].
    intro P. replace (Z.eqb (m_ccnt (i_meta it)) 0) with false by (symmetry; apply Z.eqb_neq; lia). rewrite andb_false_r.
    exact (g_keys _ _ G T P).
  - intros r T. assert (K : i_type it <> KV) by congruence. rewrite after_meta by exact K. cbv zeta. cbn [m_ccnt m_min m_top m_range].
    unfold btree. rewrite T. destruct (new_range cs) as [q|] eqn:E; [|intro R; exact (g_range _ _ G r T R)].
    intros ->. split; [eauto using asked_key_ok|]. intro P. now apply Fr.
Qed.

(* ---------- wrong lines ---------- *)
Lemma set_loop_bad c pre cs s post e : Forall2 asks pre cs -> forall d, (forall d, set_loop c d (s :: post) = inr e) ->
  set_loop c d (pre ++ s :: post) = inr e.
Proof.
  intros F. induction F as [|p ch pre cs A F IH]; intros d H; [apply H|].
  pose proof (set_loop_ok c [p] [ch] (Forall2_cons _ _ A (Forall2_nil _)) d) as One.
  cbn [app set_loop] in *.
  destruct (cut_equal p) as [[name value]|]; [|discriminate]. cbv beta zeta in *.
  repeat match goal with
  | |- (if ?b then _ else _) = _ => destruct b
  | |- match ?x with _ => _ end = _ =>
      lazymatch x with set_loop _ _ _ => fail | _ => destruct x; try discriminate One end
  end; try discriminate One; rewrite IH by exact H; reflexivity.
Qed.
Definition no_equal (s : bytes) : Prop := ~ In 61%N s.
Lemma cut_none s : no_equal s -> cut_equal s = None.
Proof.
  unfold no_equal. induction s as [|x s IH]; cbn; intro H; [reflexivity|].
  destruct (N.eqb_spec x 61); [tauto|]. rewrite IH by tauto. reflexivity.
Qed.

(* ---------- lengths ---------- *)
Lemma dec_short f : forall k n acc, (n < 10 ^ N.of_nat (S k))%N -> List.length (dec_digits f n acc) <= S k + List.length acc.
Proof.
  induction f as [|f IH]; intros k n acc H; cbn [dec_digits]; [lia|].
  destruct (N.eqb_spec (n / 10) 0) as [E|E]; [cbn; lia|].
  destruct k as [|k].
  - exfalso. apply E. apply N.div_small. exact H.
  - specialize (IH k (n / 10)%N ((48 + n mod 10)%N :: acc)). cbn [List.length] in IH.
    assert (Q : (n / 10 < 10 ^ N.of_nat (S k))%N).
    { apply N.div_lt_upper_bound; [discriminate|]. rewrite (Nat2N.inj_succ (S k)), N.pow_succ_r' in H. exact H. }
    specialize (IH Q). lia.
Qed.
Lemma dec_text_short n : (n < 2 ^ 64)%N -> List.length (dec_text n) <= 20.
Proof.
  intro H. unfold dec_text. pose proof (dec_short (S (N.to_nat (N.size n))) 19 n []) as D. cbn [List.length] in D.
  rewrite Nat.add_0_r in D. apply D. apply N.lt_trans with (2 ^ 64)%N; [exact H|reflexivity].
Qed.
Lemma int_text_short v : (- 2 ^ 63 < v < 2 ^ 63)%Z -> List.length (int_text v) <= 21.
Proof.
  intro H. unfold int_text. destruct (Z.ltb_spec v 0); cbn [List.length].
  - assert (Q : (Z.to_N (- v) < 2 ^ 64)%N) by lia. apply dec_text_short in Q. lia.
  - assert (Q : (Z.to_N v < 2 ^ 64)%N) by lia. apply dec_text_short in Q. lia.
Qed.
Lemma hexa_length b : List.length (safe_hexatostr b) = 2 * List.length b.
Proof. induction b as [|x b IH]; [reflexivity|]. cbn [safe_hexatostr List.length]. lia. Qed.
Lemma key_short k : key_ok k -> List.length (key_shown k) <= 64.
Proof.
  destruct k as [n|b]; cbn [key_ok key_shown].
  - intro H. apply dec_text_short in H. lia.
  - intros [H _]. rewrite app_length, hexa_length. cbn. lia.
Qed.

(* ---------- getattr ---------- *)
Lemma known_documented t ids : incl ids (documented t) -> forallb (attr_known t) ids = true.
Proof.
  intro H. apply forallb_forall. intros a I. apply H in I. destruct t, a; try reflexivity; cbn in I; intuition discriminate.
Qed.
Definition filled (z : sizes) (it : item) (junk : adata) : adata :=
  let t := i_type it in let m := i_meta it in
  match t with
  | KV => mkD (i_flags it) (i_exp it) (d_count junk) (d_max junk) (d_range junk) (d_min junk) (d_top junk) t (d_ovfl junk) (d_read junk) (d_trim junk)
  | BTREE => mkD (i_flags it) (i_exp it) (m_ccnt m) (shown_max z t m) (m_range m)
               (if Z.ltb 0 (m_ccnt m) then m_min m else d_min junk) (if Z.ltb 0 (m_ccnt m) then m_top m else d_top junk)
               t (m_ovfl m) (flag (m_read m)) (flag (m_trim m))
  | _ => mkD (i_flags it) (i_exp it) (m_ccnt m) (shown_max z t m) (d_range junk) (d_min junk) (d_top junk) t
             (m_ovfl m) (flag (m_read m)) (d_trim junk)
  end.
Lemma getattr_filled z it ids junk : incl ids (documented (i_type it)) -> do_item_getattr z it ids junk = Some (filled z it junk).
Proof.
  intro H. unfold do_item_getattr, filled. rewrite (known_documented _ _ H). cbn [negb].
  destruct (i_type it); try reflexivity. cbn. destruct (Z.ltb 0 (m_ccnt (i_meta it))); reflexivity.
Qed.
Lemma filled_type z it junk : d_type (filled z it junk) = i_type it.
Proof. unfold filled. destruct (i_type it); reflexivity. Qed.

Lemma shown_limit z it : shown_max z (i_type it) (i_meta it) = limit z it.
Proof. unfold shown_max, limit. destruct (Z.ltb_spec 0 (m_mcnt (i_meta it))), (Z.leb_spec (m_mcnt (i_meta it)) 0); lia. Qed.
Lemma ovfl_text_ok o : ovfl_text (ovfl_code o) = ovfl_word o.
Proof. destruct o; reflexivity. Qed.
Lemma limit_range z it : good z it -> i_type it <> KV -> (0 <= m_ccnt (i_meta it) <= limit z it /\ 0 < limit z it <= 1000000)%Z.
Proof.
  intros G K. pose proof (g_count _ _ G K). pose proof (g_mcnt _ _ G K). pose proof (g_size _ _ G). unfold limit in *.
  destruct (Z.leb_spec (m_mcnt (i_meta it)) 0); lia.
Qed.
Lemma bkey_text_shown k : bkey_text k = key_shown k.
Proof. reflexivity. Qed.

Lemma attr_shows z c it a : clock_ok c -> good z it -> In a (documented (i_type it)) ->
  exists v, shows z c it a v /\ List.length v <= 64 /\ forall junk, attr_line c a (filled z it junk) = a_line a v.
Proof.
  intros C G I.
  assert (CO : a = ACount \/ a = AMaxcount \/ a = AOvfl \/ a = AReadable -> i_type it <> KV).
  { intros D E. rewrite E in I. cbn in I. destruct D as [->|[->|[->| ->]]]; intuition discriminate. }
  assert (BT : a = ARange \/ a = AMin \/ a = AMax \/ a = ATrimmed -> i_type it = BTREE).
  { intros D. destruct (i_type it); [..|reflexivity]; exfalso; cbn in I; destruct D as [->|[->|[->| ->]]]; intuition discriminate. }
  destruct a.
  - eexists. split; [apply sh_type|]. split; [destruct (i_type it); cbn; lia|].
    intro junk. unfold attr_line, a_line. rewrite filled_type. unfold type_text. destruct (i_type it); reflexivity.
  - eexists. split; [apply sh_flags|]. split.
    + assert (i_flags it < 2 ^ 64)%N as H by (pose proof (g_flags _ _ G); lia). apply dec_text_short in H. lia.
    + intro junk. unfold attr_line, a_line, filled. destruct (i_type it); cbn [d_flags word]; rewrite <- !app_assoc; reflexivity.
  - exists (int_text (lefttime c (i_exp it))). pose proof (lefttime_left c _ C (g_exp _ _ G)) as L. split; [now apply sh_exp|]. split.
    + assert (- 2 ^ 63 < lefttime c (i_exp it) < 2 ^ 63)%Z as H.
      { pose proof (g_exp _ _ G). destruct C. unfold left in L. lia. }
      apply int_text_short in H. lia.
    + intro junk. unfold attr_line, a_line, filled. destruct (i_type it); cbn [d_exp word]; rewrite <- !app_assoc; reflexivity.
  - pose proof (limit_range z it G (CO (or_introl eq_refl))). eexists. split; [apply sh_count|]. split.
    + assert (- 2 ^ 63 < m_ccnt (i_meta it) < 2 ^ 63)%Z as H1 by lia. apply int_text_short in H1. lia.
    + assert (K := CO (or_introl eq_refl)). intro junk. unfold attr_line, a_line, filled.
      destruct (i_type it); [congruence|..]; cbn [d_count word]; rewrite <- !app_assoc; reflexivity.
  - assert (K := CO (or_intror (or_introl eq_refl))). pose proof (limit_range z it G K). eexists. split; [apply sh_max|]. split.
    + assert (- 2 ^ 63 < limit z it < 2 ^ 63)%Z as H1 by lia. apply int_text_short in H1. lia.
    + intro junk. rewrite <- shown_limit. unfold attr_line, a_line, filled.
      destruct (i_type it); [congruence|..]; cbn [d_max word]; rewrite <- !app_assoc; reflexivity.
  - assert (K := CO (or_intror (or_intror (or_introl eq_refl)))). destruct (g_ovfl _ _ G K) as (o & _ & E).
    exists (ovfl_word o). split; [now apply sh_ovfl|]. split; [destruct o; cbn; lia|].
    intro junk. rewrite <- ovfl_text_ok, <- E. unfold attr_line, a_line, filled.
    destruct (i_type it); [congruence|..]; cbn [d_ovfl word]; rewrite <- !app_assoc; reflexivity.
  - assert (K := CO (or_intror (or_intror (or_intror eq_refl)))).
    destruct (m_read (i_meta it)) eqn:R.
    + exists (txt "on"). split; [now apply sh_on|]. split; [cbn; lia|].
      intro junk. unfold attr_line, a_line, filled. destruct (i_type it); [congruence|..]; cbn [d_read word]; rewrite R; reflexivity.
    + exists (txt "off"). split; [now apply sh_off|]. split; [cbn; lia|].
      intro junk. unfold attr_line, a_line, filled. destruct (i_type it); [congruence|..]; cbn [d_read word]; rewrite R; reflexivity.
  - assert (T := BT (or_introl eq_refl)). destruct (m_range (i_meta it)) as [k|] eqn:R.
    + exists (key_shown k). split; [now apply sh_range|]. split; [apply key_short; now apply (g_range _ _ G k T R)|].
      intro junk. unfold attr_line, a_line, filled. rewrite T. cbn [d_range word]. rewrite R, bkey_text_shown, <- !app_assoc. reflexivity.
    + exists (txt "0"). split; [now apply sh_norange|]. split; [cbn; lia|].
      intro junk. unfold attr_line, a_line, filled. rewrite T. cbn [d_range word]. rewrite R. reflexivity.
  - assert (T := BT (or_intror (or_introl eq_refl))). assert (K : i_type it <> KV) by congruence.
    pose proof (limit_range z it G K) as [L _]. destruct (Z.eq_dec (m_ccnt (i_meta it)) 0) as [E|E].
    + exists (txt "-1"). split; [now apply sh_min0|]. split; [cbn; lia|].
      intro junk. unfold attr_line, a_line, filled. rewrite T. cbn [d_count word]. rewrite E. reflexivity.
    + assert (P : (0 < m_ccnt (i_meta it))%Z) by lia.
      exists (key_shown (m_min (i_meta it))). split; [now apply sh_min|]. split; [apply key_short; now apply (g_keys _ _ G T P)|].
      intro junk. unfold attr_line, a_line, filled. rewrite T. cbn [d_count d_min word]. rewrite (proj2 (Z.ltb_lt _ _) P), bkey_text_shown, <- !app_assoc. reflexivity.
  - assert (T := BT (or_intror (or_intror (or_introl eq_refl)))). assert (K : i_type it <> KV) by congruence.
    pose proof (limit_range z it G K) as [L _]. destruct (Z.eq_dec (m_ccnt (i_meta it)) 0) as [E|E].
    + exists (txt "-1"). split; [now apply sh_top0|]. split; [cbn; lia|].
      intro junk. unfold attr_line, a_line, filled. rewrite T. cbn [d_count word]. rewrite E. reflexivity.
    + assert (P : (0 < m_ccnt (i_meta it))%Z) by lia.
      exists (key_shown (m_top (i_meta it))). split; [now apply sh_top|]. split; [apply key_short; now apply (g_keys _ _ G T P)|].
      intro junk. unfold attr_line, a_line, filled. rewrite T. cbn [d_count d_top word]. rewrite (proj2 (Z.ltb_lt _ _) P), bkey_text_shown, <- !app_assoc. reflexivity.
  - assert (T := BT (or_intror (or_intror (or_intror eq_refl)))). destruct (m_trim (i_meta it)) eqn:R.
    + exists (txt "1"). split; [now apply sh_trim|]. split; [cbn; lia|].
      intro junk. unfold attr_line, a_line, filled. rewrite T. cbn [d_trim word]. rewrite R. reflexivity.
    + exists (txt "0"). split; [now apply sh_notrim|]. split; [cbn; lia|].
      intro junk. unfold attr_line, a_line, filled. rewrite T. cbn [d_trim word]. rewrite R. reflexivity.
Qed.

Lemma shows_one z c it a v w : good z it -> shows z c it a v -> shows z c it a w -> v = w.
Proof.
  intros G A B. destruct A; inversion B; subst; try reflexivity; try congruence; try lia.
  - f_equal. eauto using left_det.
  - f_equal. match goal with H1 : _ = ovfl_code ?a, H2 : _ = ovfl_code ?b |- _ => rewrite H1 in H2; destruct a, b; try discriminate H2; reflexivity end.
Qed.

Lemma word_id a : name_id (word a) = Some a.
Proof. destruct a; reflexivity. Qed.
Lemma id_word s a : name_id s = Some a -> s = word a.
Proof.
  unfold name_id. intro H.
  repeat match goal with
  | H : (if beqb ?x ?y then _ else _) = Some _ |- _ => destruct (beqb_spec x y) as [->|]; [injection H as <-; reflexivity|]
  end. discriminate.
Qed.
Lemma words_ids ids : name_ids (map word ids) = Some ids.
Proof. induction ids as [|a ids IH]; [reflexivity|]. cbn. now rewrite word_id, IH. Qed.
Lemma no_word names s : In s names -> (forall a, s <> word a) -> name_ids names = None.
Proof.
  intros I H. induction names as [|n names IH]; [destruct I|]. cbn. destruct I as [->|I].
  - destruct (name_id s) eqn:E; [|reflexivity]. apply id_word in E. exfalso. eapply H, E.
  - destruct (name_id n); [|reflexivity]. now rewrite IH.
Qed.

Definition a_lines (l : list (aid * bytes)) : bytes := List.concat (map (fun p => a_line (fst p) (snd p)) l).
Lemma lines_show z c it ids : clock_ok c -> good z it -> incl ids (documented (i_type it)) ->
  exists l, map fst l = ids /\ Forall (fun p => shows z c it (fst p) (snd p)) l /\
    (forall junk, List.concat (map (fun a => attr_line c a (filled z it junk)) ids) = a_lines l) /\
    List.length (a_lines l) <= 86 * List.length ids.
Proof.
  intros C G. induction ids as [|a ids IH]; intro I.
  - exists []. repeat split; auto.
  - destruct IH as (l & F & S & E & L); [intros x X; apply I; now right|].
    destruct (attr_shows z c it a C G) as (v & Sv & Lv & Ev); [apply I; now left|].
    exists ((a, v) :: l). split; [cbn; congruence|]. split; [constructor; auto|].
    split.
    + intro junk. unfold a_lines. cbn [map List.concat fst snd]. rewrite Ev, E. reflexivity.
    + unfold a_lines in *. cbn [map List.concat fst snd]. rewrite app_length. cbn [List.length].
      assert (List.length (a_line a v) <= 86); [|lia]. unfold a_line. rewrite !app_length.
      assert (List.length (word a) <= 14) by (destruct a; cbn; lia). change (List.length (txt "ATTR ")) with 5. change (List.length (txt "=")) with 1.
      change (List.length [13%N; 10%N]) with 2. lia.
Qed.
