(* Operation counts per key prefix: C61, C62. *)
From Coq Require Import String Ascii.
From Verif Require Import Base UtilModel UtilProofs ArgTypes PsModel PsSpec PsProofs PsProofs2.
From Coq Require Import List ZArith NArith Lia Bool Permutation.
Local Open Scope nat_scope.
Local Open Scope list_scope.

Lemma tally_ext pre pre' p k h : (forall key, pre key = pre' key) -> forall t, fold_left (tally1 pre p k) h t = fold_left (tally1 pre' p k) h t.
Proof.
  intros E. induction h as [|e h IH]; intro t; [reflexivity|]. cbn [fold_left]. rewrite <- IH. f_equal.
  destruct t as [[on seen] n]. destruct e; cbn [tally1]; rewrite ?E; reflexivity.
Qed.

Section Props.
Variable delim : N.
Variable hash : bytes -> N.
Variable pre : bytes -> bytes.
Hypothesis Hpre : forall key, prefix_of delim key (pre key).

Lemma pre_eq key : pre key = PsProofs.pre delim key.
Proof. eapply (prefix_one delim hash); [apply Hpre|apply (pre_ok delim hash)]. Qed.

Lemma init_small on : small (init on).
Proof. intros i e k []. Qed.
Lemma init_none on p : val hash (init on) p = None.
Proof. reflexivity. Qed.
Lemma run_tally L on h p k : (Z.of_nat (List.length L) < 10000)%Z ->
  (forall key, In key (keys_of h) -> named_key pre key /\ In (pre key) L) ->
  agrees hash (run delim hash (init on) h) p k (tally pre p k on h).
Proof.
  intros LL K. unfold tally. rewrite (tally_ext _ (PsProofs.pre delim)) by apply pre_eq.
  apply (run_agrees delim hash L).
  - exact LL.
  - apply init_inv.
  - assert (Q : names (init on) = []) by (unfold names, all_entries, init; cbn [tab]; induction (seq 0 HASH_SIZE); cbn; auto).
    unfold short_of. rewrite Q. intros x [].
  - intros key I. destruct (K key I) as [[A B] C]. rewrite pre_eq in *. split; [split; assumption|exact C].
  - split; [reflexivity|]. rewrite init_none. auto.
Qed.
Lemma stat_line_ext v w p : (forall k, v k = w k) -> stat_line v p = stat_line w p.
Proof.
  intro E. unfold stat_line. do 2 f_equal. induction letters as [|[x k] l IH]; [reflexivity|]. cbn [pairs]. now rewrite E, IH.
Qed.
(* the line of a prefix over a history *)
Definition shown (on : bool) (h : list ev) (p : bytes) : bytes := stat_line (fun k => (number pre p k on h mod 2 ^ 64)%N) p.
Definition meant (token : bytes) : bytes := if same token (txt "<null>") then [] else token.
Definition few (h : list ev) : Prop :=
  exists L, (Z.of_nat (List.length L) < 10000)%Z /\ forall key, In key (keys_of h) -> named_key pre key /\ In (pre key) L.

Lemma listed_val on h p : few h -> (listed pre p on h <-> val hash (run delim hash (init on) h) p <> None).
Proof.
  intros (L & LL & K). pose proof (run_tally L on h p (Ops OGet) LL K) as A. unfold listed, agrees in *.
  destruct (tally pre p (Ops OGet) on h) as [[o seen] n]. cbn [fst snd]. destruct A as [_ A].
  destruct (val hash _ p); destruct A as [-> _]; split; congruence.
Qed.
Lemma val_line on h p c : few h -> val hash (run delim hash (init on) h) p = Some c -> stat_line c p = shown on h p.
Proof.
  intros (L & LL & K) E. apply stat_line_ext. intro k. pose proof (run_tally L on h p k LL K) as A. unfold number, agrees in *.
  destruct (tally pre p k on h) as [[o seen] n]. cbn [fst snd]. destruct A as [_ A]. rewrite E in A. apply A.
Qed.

Theorem C61_counts_partial on h : few h ->
  exists ps, NoDup ps /\ (forall p, In p ps <-> listed pre p on h) /\
    forall max, stats_operation hash (run delim hash (init on) h) max [] =
      Some (if Z.ltb max (Z.of_nat (List.length ps)) then txt "CLIENT_ERROR invalid: too many prefixes"
            else List.concat (map (shown on h) ps) ++ the_end).
Proof.
  intros F. pose proof (run_inv delim hash h _ (init_inv hash on)) as V.
  pose proof (run_small delim hash h _ (init_inv hash on) (init_small on)) as B.
  pose proof (listed_val on h) as LV. pose proof (val_line on h) as VL.
  set (s := run delim hash (init on) h) in *. exists (names s). split; [apply V|]. split.
  - intro p. rewrite (names_val hash s p V). symmetry. now apply LV.
  - intro max. unfold stats_operation. rewrite (i_num _ _ V). destruct (Z.ltb max _); [reflexivity|].
    rewrite (dump_all_ok hash s V B). do 3 f_equal. unfold names. rewrite map_map. apply map_ext_in. intros e I.
    apply VL; [exact F|]. now apply val_in.
Qed.

Theorem C61_named_partial on h tokens max : few h -> tokens <> [] -> Forall (fun t => t <> []) tokens ->
  exists lines, Forall2 (fun t l => (listed pre (meant t) on h /\ l = shown on h (meant t)) \/ (~ listed pre (meant t) on h /\ l = [])) tokens lines /\
    stats_operation hash (run delim hash (init on) h) max tokens =
      Some (if Z.ltb max (Z.of_nat (List.length tokens)) then txt "CLIENT_ERROR invalid: too many prefixes" else List.concat lines ++ the_end).
Proof.
  intros F NT NE. pose proof (run_inv delim hash h _ (init_inv hash on)) as V.
  pose proof (run_small delim hash h _ (init_inv hash on) (init_small on)) as B.
  pose proof (listed_val on h) as LV. pose proof (val_line on h) as VL.
  set (s := run delim hash (init on) h) in *.
  exists (map (fun t => List.concat (map (fun e => stat_line (e_cnt e) (e_name e)) (pick hash s t))) tokens). split.
  - clear NT NE. induction tokens as [|t r IH]; [constructor|]. cbn [map]. constructor; [|exact IH].
    unfold meant. rewrite same_beqb. change (txt "<null>") with null_str. rewrite (LV _ F). unfold pick, val. cbv zeta.
    set (p := (if beqb t null_str then [] else t) : bytes).
    change (if beqb t null_str then [] else t) with p.
    destruct (lookup (tab s (slot hash p)) p) as [e|] eqn:E; [left|right]; (split; [congruence|]); [|reflexivity].
    cbn [map List.concat]. rewrite app_nil_r. pose proof (lookup_in _ _ _ E) as [_ N]. rewrite N. apply VL; [exact F|]. unfold val. now rewrite E.
  - unfold stats_operation. destruct tokens as [|t r]; [congruence|]. destruct (Z.ltb max _); [reflexivity|].
    rewrite (dump_some_ok hash s _ V B NE). do 2 f_equal.
    clear. induction (t :: r) as [|x l IH]; [reflexivity|]. cbn [flat_map map List.concat]. rewrite map_app, concat_app, IH. reflexivity.
Qed.

(* the reply fits its buffer, and the table stays small, for every history *)
Lemma num_bound h : forall s, inv hash s -> (num s <= 10000)%Z -> (num (run delim hash s h) <= 10000)%Z.
Proof.
  induction h as [|e h IH]; intros s V B; [exact B|]. cbn [run]. apply IH; [now apply step_inv|].
  destruct e as [o hit key|t|b|]; cbn [step].
  - destruct (detail s); [|exact B]. unfold record. cbv zeta. fold (PsProofs.pre delim key).
    destruct (lookup _ _) eqn:E; [exact B|]. apply (find_name hash s _ V) in E.
    unfold insert. change MAX_COUNT with 10000%Z. destruct (Z.leb_spec 10000 (num s)); [exact B|].
    destruct (negb _); [exact B|]. cbv zeta. cbn [num].
    destruct (Z.leb_spec 10000 (num s + 1)); cbn [num off count_at]; lia.
  - destruct (detail s); [|exact B]. unfold delete. destruct (lookup _ _); cbn [num]; lia.
  - exact B.
  - cbn [clear num]. lia.
Qed.
Theorem C62_dump on h max :
  exists ps, NoDup (map fst ps) /\ (Z.of_nat (List.length ps) <= 10000)%Z /\
    stats_operation hash (run delim hash (init on) h) max [] =
      Some (if Z.ltb max (Z.of_nat (List.length ps)) then txt "CLIENT_ERROR invalid: too many prefixes"
            else List.concat (map (fun w => stat_line (snd w) (fst w)) ps) ++ the_end).
Proof.
  pose proof (run_inv delim hash h _ (init_inv hash on)) as V.
  pose proof (run_small delim hash h _ (init_inv hash on) (init_small on)) as B.
  pose proof (num_bound h (init on) (init_inv hash on)) as N. change (num (init on)) with 0%Z in N.
  set (s := run delim hash (init on) h) in *.
  exists (map (fun e => (e_name e, e_cnt e)) (all_entries s)). rewrite !map_map, map_length. split; [apply V|].
  assert (Q : num s = Z.of_nat (List.length (all_entries s))) by (rewrite (i_num _ _ V); unfold names; now rewrite map_length).
  split.
  - rewrite <- Q. apply N. lia.
  - unfold stats_operation. rewrite Q. destruct (Z.ltb max _); [reflexivity|]. rewrite (dump_all_ok hash s V B). reflexivity.
Qed.
Theorem C62_named on h max tokens : Forall (fun t => t <> []) tokens ->
  stats_operation hash (run delim hash (init on) h) max tokens <> None.
Proof.
  intro NE. pose proof (run_inv delim hash h _ (init_inv hash on)) as V.
  pose proof (run_small delim hash h _ (init_inv hash on) (init_small on)) as B.
  unfold stats_operation. destruct tokens as [|t r].
  - destruct (Z.ltb _ _); [discriminate|]. rewrite (dump_all_ok hash _ V B). discriminate.
  - destruct (Z.ltb _ _); [discriminate|]. rewrite (dump_some_ok hash _ _ V B NE). discriminate.
Qed.
End Props.

Lemma run_app delim hash a : forall s b, run delim hash s (a ++ b) = run delim hash (run delim hash s a) b.
Proof. induction a as [|e a IH]; intros s b; [reflexivity|]. cbn [app run]. apply IH. Qed.

(* ---------- cases ---------- *)
Definition colon : N := 58%N.
Definition pre_of (key : bytes) : bytes := PsProofs.pre colon key.
Lemma pre_of_ok key : prefix_of colon key (pre_of key).
Proof. apply (pre_ok colon (fun _ => 0%N)). Qed.
Definition flat (_ : bytes) : N := 0%N.      (* every prefix in one chain *)
Definition day : list ev :=
  [EOp OGet true (txt "a:1"); EDetail true; EOp OGet true (txt "a:1"); EOp OGet false (txt "a:2"); EOp OSet false (txt "b:1");
   EOp OGet true (txt "x"); EFlush (txt "b"); EOp LInsert true (txt "c:d:1"); EDetail false; EOp OGet true (txt "a:1")].
Definition shown_counts (s : option bytes) : bytes := match s with Some t => t | None => [] end.
Example day_few : few pre_of day.
Proof.
  exists [txt "a"; txt "b"; []; txt "c"]. split; [reflexivity|]. intros key I. cbn in I.
  repeat (destruct I as [<-|I]; [split; [split; [vm_compute; discriminate|]|vm_compute; auto 6];
    apply Forall_forall; intros x J; vm_compute in J; repeat (destruct J as [<-|J]; [unfold name_byte; lia|]); destruct J|]). destruct I.
Qed.
Example day_listed : listed pre_of (txt "a") false day /\ ~ listed pre_of (txt "b") false day /\ listed pre_of [] false day.
Proof. vm_compute. repeat split; discriminate. Qed.
Example day_counts : number pre_of (txt "a") (Ops OGet) false day = 2%N /\ number pre_of (txt "a") (Hits OGet) false day = 1%N /\
  number pre_of [] (Hits OGet) false day = 1%N /\ number pre_of (txt "c") (Hits LInsert) false day = 1%N.
Proof. vm_compute. auto. Qed.
Example day_reply : stats_operation flat (run colon flat (init false) day) 10 [txt "a"; txt "zz"; txt "<null>"] =
  Some (shown pre_of false day (txt "a") ++ shown pre_of false day [] ++ the_end).
Proof. vm_compute. reflexivity. Qed.
Example day_many : stats_operation flat (run colon flat (init false) day) 2 [] = Some (txt "CLIENT_ERROR invalid: too many prefixes").
Proof. vm_compute. reflexivity. Qed.

(* a key without prefix that starts with a hyphen counts only if another key without prefix came first *)
Definition gets (s : state) (p : bytes) : option N := match val flat s p with Some c => Some (c (Ops OGet)) | None => None end.
Theorem C61_hyphen_refuted :
  let h1 := [EOp OGet true (txt "-a"); EOp OGet true (txt "b")] in
  let h2 := [EOp OGet true (txt "b"); EOp OGet true (txt "-a")] in
  number pre_of [] (Ops OGet) true h1 = 2%N /\ number pre_of [] (Ops OGet) true h2 = 2%N /\
  gets (run colon flat (init true) h1) [] = Some 1%N /\ gets (run colon flat (init true) h2) [] = Some 2%N.
Proof. vm_compute. auto. Qed.

(* the ten thousandth prefix: it is listed, its operation is not counted, and the statistics are switched off *)
Definition nth_key (i : nat) : bytes :=
  let n := N.of_nat i in [97 + n / 676; 97 + n / 26 mod 26; 97 + n mod 26; 58; 49]%N.
Definition many (n : nat) : list ev := map (fun i => EOp OGet true (nth_key i)) (seq 0 n).
Lemma nth_pre i : (N.of_nat i < 17576)%N -> let n := N.of_nat i in
  pre_of (nth_key i) = [97 + n / 676; 97 + n / 26 mod 26; 97 + n mod 26]%N /\ named_key pre_of (nth_key i).
Proof.
  intros H n. fold n in H.
  assert (A : (n / 676 < 26)%N) by (apply N.div_lt_upper_bound; lia).
  assert (B : (n / 26 mod 26 < 26)%N) by (apply N.mod_lt; discriminate).
  assert (C : (n mod 26 < 26)%N) by (apply N.mod_lt; discriminate).
  assert (P : pre_of (nth_key i) = [97 + n / 676; 97 + n / 26 mod 26; 97 + n mod 26]%N).
  { apply (prefix_one colon flat (nth_key i)); [apply pre_of_ok|]. left.
    exists (97 + n / 676)%N, [97 + n / 26 mod 26; 97 + n mod 26]%N, [49%N]. split; [reflexivity|]. split; [reflexivity|].
    unfold colon. cbn [In]. lia. }
  split; [exact P|]. split.
  - unfold nth_key. cbn [hd]. fold n. lia.
  - rewrite P. repeat (constructor; [unfold name_byte; lia|]). constructor.
Qed.
Lemma nth_inj i j : (N.of_nat i < 17576)%N -> (N.of_nat j < 17576)%N -> pre_of (nth_key i) = pre_of (nth_key j) -> i = j.
Proof.
  intros A B E. rewrite (proj1 (nth_pre i A)), (proj1 (nth_pre j B)) in E.
  set (n := N.of_nat i) in *. set (m := N.of_nat j) in *. 
  pose proof (f_equal (fun l => nth 0 l 0%N) E) as E1. pose proof (f_equal (fun l => nth 1 l 0%N) E) as E2. pose proof (f_equal (fun l => nth 2 l 0%N) E) as E3.
  cbn [nth] in E1, E2, E3. apply N.add_cancel_l in E1, E2, E3.
  assert (D : forall x, (x = 26 * (26 * (x / 676) + x / 26 mod 26) + x mod 26)%N).
  { intro x. change 676%N with (26 * 26)%N. rewrite <- N.div_div by discriminate. rewrite <- N.div_mod by discriminate. apply N.div_mod. discriminate. }
  assert (Q : n = m) by (rewrite (D n), (D m), E1, E2, E3; reflexivity). apply Nat2N.inj. exact Q.
Qed.
(* n new prefixes, one operation each: all counted, as long as there are fewer than 10000 *)
Lemma many_run n : (Z.of_nat n < 10000)%Z ->
  let s := run colon flat (init true) (many n) in
  inv flat s /\ detail s = true /\ num s = Z.of_nat n /\ (forall p, In p (names s) <-> exists i, i < n /\ p = pre_of (nth_key i)).
Proof.
  induction n as [|n IH]; intros H s.
  - split; [apply init_inv|]. split; [reflexivity|]. split; [reflexivity|]. intro p.
    assert (Q : names s = []) by (unfold s, names, all_entries, many; cbn [run seq map init tab]; induction (seq 0 HASH_SIZE); cbn; auto).
    rewrite Q. split; [intros []|]. intros (i & I & _). lia.
  - destruct IH as (V & D & M & NS); [lia|]. unfold s, many in *. rewrite seq_S, map_app, run_app. cbn [map run]. clear s.
    set (s := run colon flat (init true) (map (fun i => EOp OGet true (nth_key i)) (seq 0 n))) in *. change (0 + n) with n.
    assert (NI : ~ In (pre_of (nth_key n)) (names s)).
    { intro I. apply NS in I. destruct I as (i & I & E). apply nth_inj in E; lia. }
    destruct (nth_pre n) as [_ NK]; [lia|].
    assert (E : step colon flat s (EOp OGet true (nth_key n)) = count_at flat (added flat s (pre_of (nth_key n))) (pre_of (nth_key n)) OGet true).
    { cbn [step]. rewrite D. unfold record. cbv zeta. change (firstn (prefix_len colon (nth_key n)) (nth_key n)) with (pre_of (nth_key n)).
      rewrite (proj2 (find_name flat s _ V) NI).
      destruct (insert_cases flat s (nth_key n) (prefix_len colon (nth_key n)) V NI) as [[_ X]|[(_ & _ & X)|[[_ X]|[-> _]]]];
        [unfold MAX_COUNT in X; lia|rewrite (valid_named colon flat) in X by exact NK; discriminate|unfold MAX_COUNT in X; lia|reflexivity]. }
    change (run colon flat s [EOp OGet true (nth_key n)]) with (step colon flat s (EOp OGet true (nth_key n))).
    rewrite E. split; [apply count_inv; apply added_inv; assumption|]. split; [exact D|]. split; [cbn [count_at added num]; lia|].
    intro p. rewrite count_names. split.
    + intro I. apply (Permutation_in _ (added_names flat s (pre_of (nth_key n)))) in I. destruct I as [<-|I]; [exists n; split; [lia|reflexivity]|].
      apply NS in I. destruct I as (i & I & ->). exists i. split; [lia|reflexivity].
    + intros (i & I & ->). apply (Permutation_in _ (Permutation_sym (added_names flat s (pre_of (nth_key n))))).
      destruct (Nat.eq_dec i n) as [->|]; [now left|]. right. apply NS. exists i. split; [lia|reflexivity].
Qed.
Theorem C61_last_prefix_refuted :
  exists h key, let s := run colon flat (init true) (h ++ [EOp OGet true key]) in
    named_key pre_of key /\ (forall key', In key' (keys_of h) -> named_key pre_of key' /\ pre_of key' <> pre_of key) /\
    detail s = false /\ gets s (pre_of key) = Some 0%N.
Proof.
  exists (many (Z.to_nat 9999)), (nth_key (Z.to_nat 9999)).
  assert (H : (Z.of_nat (Z.to_nat 9999) = 9999)%Z) by (apply Z2Nat.id; lia).
  generalize dependent (Z.to_nat 9999). intros n H. destruct (many_run n) as (V & D & M & NS); [lia|].
  rewrite run_app. cbn [run]. set (s := run colon flat (init true) (many n)) in *.
  assert (NI : ~ In (pre_of (nth_key n)) (names s)).
  { intro I. apply NS in I. destruct I as (i & I & E). apply nth_inj in E; lia. }
  destruct (nth_pre n) as [_ NK]; [lia|]. cbv zeta. split; [exact NK|]. split.
  { intros key I. unfold keys_of, many in I. rewrite flat_map_concat_map, map_map in I. apply in_concat in I. destruct I as (l & I & J).
    apply in_map_iff in I. destruct I as (i & <- & I). destruct J as [<-|[]]. apply in_seq in I. split; [apply nth_pre; lia|].
    intro E. apply nth_inj in E; lia. }
  assert (E : step colon flat s (EOp OGet true (nth_key n)) = off (added flat s (pre_of (nth_key n)))).
  { cbn [step]. rewrite D. unfold record. cbv zeta. change (firstn (prefix_len colon (nth_key n)) (nth_key n)) with (pre_of (nth_key n)).
    rewrite (proj2 (find_name flat s _ V) NI).
    destruct (insert_cases flat s (nth_key n) (prefix_len colon (nth_key n)) V NI) as [[_ X]|[(_ & _ & X)|[[-> _]|[_ X]]]];
      [unfold MAX_COUNT in X; lia|rewrite (valid_named colon flat) in X by exact NK; discriminate|reflexivity|unfold MAX_COUNT in X; lia]. }
  change (run colon flat s [EOp OGet true (nth_key n)]) with (step colon flat s (EOp OGet true (nth_key n))).
  rewrite E. split; [reflexivity|]. unfold gets. change (val flat (off ?x)) with (val flat x). rewrite added_val, beqb_refl. reflexivity.
Qed.

Print Assumptions C61_counts_partial.
Print Assumptions C61_named_partial.
Print Assumptions C61_hyphen_refuted.
Print Assumptions C61_last_prefix_refuted.
Print Assumptions C62_dump.
Print Assumptions C62_named.
