(* Refinement: every step of the engine model is a step of the map specification. *)
From Coq Require Import Permutation.
From Verif Require Import Base UtilModel UtilSpec UtilProofs KvModel KvSpec KvProofs KvRefine KvFlush.
Open Scope Z_scope.
Set Default Proof Using "Type".

Definition refs_of (s : state) : list nat := map fst (held s) ++ lost s.

Definition pend_ok (s : state) (h : nat * bool) (p : option req) : Prop :=
  match p with
  | None => snd h = false
  | Some r => snd h = true /\ exists it, items s (fst h) = Some it /\ ilinked it = false /\
      content it = (r_key r, r_val r ++ [13; 10]%N, r_flags r, r_exp r, r_cas r, false)
  end.

(* items pulled out of their LRU list were not used during the current second *)
Definition no_pulled_out (s : state) : Prop :=
  forall j it, items s j = Some it -> ilinked it = true -> inlru it = false -> itime it < now s.

Definition ok_op (s : state) (o : op) : Prop :=
  match o with
  | Tick d => now s + Z.of_nat d < sticky_time
  | Alloc k _ _ _ _ _ | Arith k _ _ _ _ _ _ _ _ | CollCreate k _ _ _ => short k
  | Flush wh | FlushPrefix _ wh => wh = 0 /\ no_pulled_out s
  | _ => True
  end.

Lemma Forall2_nth {A B} (P : A -> B -> Prop) l m n x : Forall2 P l m -> nth_error l n = Some x ->
  exists y, nth_error m n = Some y /\ P x y.
Proof.
  intro H. revert n. induction H as [|a b l m Hab H IH]; intros [|n] E; cbn in *; try discriminate.
  - injection E as <-. eauto.
  - eauto.
Qed.

Lemma Forall2_len {A B} (P : A -> B -> Prop) l m n : Forall2 P l m -> (nth_error l n = None <-> nth_error m n = None).
Proof. intro H. assert (E : length l = length m) by (induction H; cbn; congruence). rewrite !nth_error_None, E. tauto. Qed.

Lemma map_fst_set_nth h i (l : list (nat * bool)) b : nth_error l h = Some (i, b) ->
  map fst (set_nth h (i, false) l) = map fst l.
Proof.
  revert h. induction l as [|x l IH]; intros [|h] E; cbn in *; try discriminate.
  - injection E as ->. reflexivity.
  - f_equal. apply IH. exact E.
Qed.

Lemma In_set_nth {A} h (x y : A) l : In y (set_nth h x l) -> y = x \/ In y l.
Proof.
  revert h. induction l as [|z l IH]; intros [|h]; cbn; auto.
  - intros [H|H]; auto.
  - intros [H|H]; auto. apply IH in H as [H|H]; auto.
Qed.

Lemma perm_del_nth {A} h (l : list A) x : nth_error l h = Some x -> Permutation l (x :: del_nth h l).
Proof.
  revert h. induction l as [|z l IH]; intros [|h] E; cbn in *; try discriminate.
  - injection E as ->. reflexivity.
  - apply IH in E. rewrite E at 1. apply perm_swap.
Qed.

Lemma map_del_nth {A B} (f : A -> B) h l : map f (del_nth h l) = del_nth h (map f l).
Proof. revert h. induction l as [|z l IH]; intros [|h]; cbn; auto. f_equal. apply IH. Qed.

Lemma Forall2_del {A B} (P : A -> B -> Prop) l m n : Forall2 P l m -> Forall2 P (del_nth n l) (del_nth n m).
Proof.
  intro H. revert n. induction H as [|a b l m Hab H IH]; intros [|n]; cbn; auto.
Qed.

Lemma Forall2_set {A B} (P : A -> B -> Prop) l m n x y : Forall2 P l m -> P x y -> Forall2 P (set_nth n x l) (set_nth n y m).
Proof.
  intros H Hxy. revert n. induction H as [|a b l m Hab H IH]; intros [|n]; cbn; auto.
Qed.

Lemma Forall2_imp {A B} (P Q : A -> B -> Prop) l m : (forall a b, P a b -> Q a b) -> Forall2 P l m -> Forall2 Q l m.
Proof. intros I H. induction H; constructor; auto. Qed.

Lemma count_perm (l m : list nat) x : Permutation l m -> count_occ Nat.eq_dec l x = count_occ Nat.eq_dec m x.
Proof. intro H. apply (proj1 (Permutation_count_occ Nat.eq_dec l m) H). Qed.

Lemma RefInv_perm s refs refs' : RefInv s refs -> Permutation refs refs' -> RefInv s refs'.
Proof.
  intros R P. destruct R. split.
  - intros i it H. rewrite <- (count_perm refs refs' i P). auto.
  - assumption.
  - intros i H. apply r_in. eapply Permutation_in; [symmetry; exact P|exact H].
Qed.

Lemma strip_crlf v : strip (v ++ [13; 10]%N) = v.
Proof.
  unfold strip. rewrite app_length. cbn [length]. replace (length v + 2 - 2)%nat with (length v) by lia.
  rewrite firstn_app, Nat.sub_diag, firstn_all. cbn. apply app_nil_r.
Qed.

Lemma state_eta s : w_lost (w_held s (held s)) (lost s) = s.
Proof. destruct s. reflexivity. Qed.

Definition st_without (st : cache) (ev : list (bytes * nat)) : cache :=
  w_map st (without (smap st) (map fst ev)).

Lemma slook_without st ev k : slook (st_without st ev) k = gone_keys (slook st) ev k.
Proof.
  unfold slook, st_without, gone_keys, without. cbn. destruct (existsb (beqb k) (map fst ev)); reflexivity.
Qed.

Lemma slook_put st k v f e coll c st' : stores st k v f e coll c st' ->
  forall k', slook st' k' = put (slook st) k (live (snow st) (mkEntry v f e c coll)) k'.
Proof.
  intros [_ ->] k'. unfold slook, put, live. cbn. destruct (beqb k' k); reflexivity.
Qed.

Section S.
Variable lru_class : bool -> bytes -> bytes -> nat.
Variable maxcls : nat.
Notation unlink := (unlink lru_class maxcls).
Notation link := (link lru_class maxcls).
Notation replace := (replace lru_class maxcls).
Notation update := (update lru_class maxcls).
Notation do_get := (do_get lru_class maxcls).
Notation release := (release lru_class maxcls).
Notation Core := (Core lru_class maxcls).
Notation Sim := (Sim lru_class maxcls).

Record R (s : state) (st : cache) : Prop := {
  R_core : Core s;
  R_ref : RefInv s (refs_of s);
  R_now : snow st = now s;
  R_lo : 2 <= now s;
  R_hi : now s < sticky_time;
  R_view : forall k, eview s k = slook st k;
  R_pend : Forall2 (pend_ok s) (held s) (spend st);
  R_one : forall j, In (j, true) (held s) -> count_occ Nat.eq_dec (refs_of s) j = 1%nat;
  R_cas : (scas st <= casid s)%N;
  R_old : oldest s < now s;
  R_pold : forall q, pold s q < now s;
  R_short : forall i it, items s i = Some it -> short (ikey it);
  R_rep : repaired s = false }.

Lemma sim_perm base X s refs refs' f ev ci : Sim base X s refs f ev ci -> Permutation refs refs' ->
  Sim base X s refs' f ev ci.
Proof.
  intros S P. destruct S. split; try assumption.
  - eapply RefInv_perm; eassumption.
  - intros j it NX B L. destruct (S_pend j it NX B L) as [[A1 A2]|A]; [left|right; exact A].
    split; [exact A1|]. intro H. apply A2. eapply Permutation_in; [symmetry; exact P|exact H].
Qed.

Lemma sim_weaken base X X' s refs f ev ci : Sim base X s refs f ev ci -> incl X X' -> Sim base X' s refs f ev ci.
Proof. intros S I. destruct S. split; try assumption. intros j it NX. apply S_pend. auto. Qed.

Lemma sim_ext base X s refs f f' ev ci : Sim base X s refs f ev ci -> (forall k, f k = f' k) -> Sim base X s refs f' ev ci.
Proof. intros S E. destruct S. split; try assumption. intro k. rewrite <- E. auto. Qed.

Lemma sim_kept base X s refs f ev ci j it : Sim base X s refs f ev ci -> ~ In j X -> In j refs ->
  items base j = Some it -> ilinked it = false ->
  exists it', items s j = Some it' /\ ilinked it' = false /\ content it' = content it.
Proof. intros S NX Hj B L. destruct (S_pend _ _ _ _ _ _ _ _ _ S j it NX B L) as [[_ A]|A]; [contradiction|exact A]. Qed.

(* same items and scalar fields as s *)
Definition based (s base : state) : Prop :=
  items base = items s /\ next_id base = next_id s /\ table base = table s /\ lru base = lru s /\
  lowmk base = lowmk s /\ curmk base = curmk s /\ smk base = smk s /\ casid base = casid s /\
  now base = now s /\ oldest base = oldest s /\ pold base = pold s /\ bad base = bad s /\
  repaired base = repaired s /\ evicted base = [].

Lemma based_past s st base : R s st -> based s base -> flush_past base.
Proof.
  intros H (E1 & E2 & E3 & E4 & E5 & E6 & E7 & E8 & E9 & E10 & E11 & E12 & E13 & E14). destruct H.
  unfold flush_past. rewrite E9, E10, E11. auto.
Qed.

Lemma sim_start s st base X : R s st -> based s base -> Sim base X base (refs_of s) (slook st) [] (casid s).
Proof.
  intros H (E1 & E2 & E3 & E4 & E5 & E6 & E7 & E8 & E9 & E10 & E11 & E12 & E13 & E14). pose proof H as H0. destruct H0.
  split; try congruence; auto.
  - apply (core_frame lru_class maxcls s); try assumption; lia.
  - destruct R_ref0. split; rewrite E1; assumption.
  - intro k. rewrite <- R_view0. unfold eview. rewrite E1, E3.
    destruct (tfind k (table s)); [|reflexivity]. destruct (items s n); [|reflexivity].
    rewrite (isvalid_env s) by assumption. reflexivity.
  - intros j it _ B L. right. exists it. auto.
  - intros j B. rewrite E1 in B. rewrite E2. destruct (le_lt_dec (next_id s) j) as [Q|Q]; [|exact Q].
    exfalso. apply B. apply (c_next _ _ _ R_core0). exact Q.
  - rewrite E1. exact R_short0.
  - intros k j [].
Qed.

Lemma R_end s st base X s' refs f ev ci hd lst st' :
  R s st -> based s base -> Sim base X s' refs f ev ci -> Permutation refs (map fst hd ++ lst) ->
  (forall k, slook st' k = f k) -> snow st' = snow st -> (scas st' <= ci)%N ->
  Forall2 (fun h p => pend_ok s' h p \/ (pend_ok s h p /\ ~ In (fst h) X)) hd (spend st') ->
  (forall j, In (j, true) hd -> count_occ Nat.eq_dec (map fst hd ++ lst) j = 1%nat) ->
  R (w_lost (w_held s' hd) lst) st'.
Proof.
  intros H (E1 & E2 & E3 & E4 & E5 & E6 & E7 & E8 & E9 & E10 & E11 & E12 & E13 & E14) S P Hl Hn Hc Hp Ho.
  pose proof H as H0. destruct H0. pose proof S as S0. destruct S0.
  split; cbn [w_lost w_held items now oldest casid pold repaired held lost]; unfold refs_of;
    cbn [w_lost w_held held lost]; try congruence; try lia.
  - apply (core_frame lru_class maxcls s'); try reflexivity; assumption.
  - destruct (RefInv_perm _ _ _ S_ref P). split; assumption.
  - intro k. rewrite Hl, <- S_view. reflexivity.
  - assert (Hin : forall h, In h hd -> In (fst h) refs).
    { intros h Hh. eapply Permutation_in; [symmetry; exact P|]. apply in_or_app. left. apply in_map. exact Hh. }
    clear - Hp Hin S E1. induction Hp as [|h p l m Hhp Hp IH]; [constructor|].
    constructor; [|apply IH; intros; apply Hin; right; assumption].
    destruct Hhp as [Hhp|[Hhp NX]]; [exact Hhp|]. destruct p as [r|]; [|exact Hhp]. cbn in *.
    destruct Hhp as (A & it & B1 & B2 & B3). split; [exact A|]. rewrite <- E1 in B1.
    destruct (sim_kept _ _ _ _ _ _ _ _ _ S NX (Hin h (or_introl eq_refl)) B1 B2) as (it' & D1 & D2 & D3).
    exists it'. repeat split; congruence.
  - exact Ho.
  - intro q. destruct (S_pold q) as [-> | ->]; [rewrite E11, S_now, E9; apply R_pold0|lia].
  - assumption.
Qed.

Lemma fin_plain s st s' f ev ci st' : R s st -> Sim (w_evicted s []) [] s' (refs_of s) f ev ci ->
  (forall k, slook st' k = f k) -> snow st' = snow st -> (scas st' <= ci)%N -> spend st' = spend st -> R s' st'.
Proof.
  intros H S Hl Hn Hc Hs. rewrite <- (state_eta s').
  assert (EH : held s' = held s) by (apply (S_held _ _ _ _ _ _ _ _ _ S)).
  assert (EL : lost s' = lost s) by (apply (S_lost _ _ _ _ _ _ _ _ _ S)).
  eapply (R_end s st (w_evicted s [])); [exact H|repeat split|exact S| |exact Hl|exact Hn|exact Hc| |].
  - unfold refs_of. rewrite EH, EL. reflexivity.
  - rewrite Hs, EH. eapply Forall2_imp; [|apply (R_pend _ _ H)]. intros h p Hp. right. split; [exact Hp|auto].
  - rewrite EH, EL. apply (R_one _ _ H).
Qed.

Lemma Forall2_set_nth_pend s st h i s' : R s st -> nth_error (held s) h = Some (i, true) ->
  Forall2 (fun x p => pend_ok s' x p \/ (pend_ok s x p /\ ~ In (fst x) [i])) (set_nth h (i, false) (held s)) (set_nth h None (spend st)).
Proof.
  intros H E. pose proof (R_pend _ _ H) as HP. pose proof (R_one _ _ H) as HO.
  assert (HI : In (i, true) (held s)) by (eapply nth_error_In; exact E).
  specialize (HO i HI). unfold refs_of in HO. rewrite count_occ_app in HO.
  assert (HO' : (count_occ Nat.eq_dec (map fst (held s)) i <= 1)%nat) by lia. clear HO HI H.
  revert h E HO'. induction HP as [|x p l m Hxp HP IH]; intros [|h] E HO; cbn [map fst nth_error set_nth] in *; try discriminate.
  - injection E as ->. rewrite count_cons_eq in HO. constructor; [left; reflexivity|].
    assert (NI : ~ In i (map fst l)) by (apply (count_occ_not_In Nat.eq_dec); lia).
    clear - HP NI. induction HP as [|x p l m Hxp HP IH]; constructor.
    + right. split; [exact Hxp|]. intros [Q|[]]. apply NI. left. symmetry. exact Q.
    + apply IH. intro Q. apply NI. right. exact Q.
  - assert (HI : In i (map fst l)) by (apply (in_map fst _ (i, true)); eapply nth_error_In; exact E).
    apply (count_occ_In Nat.eq_dec) in HI. destruct (Nat.eq_dec (fst x) i) as [Q|Q].
    { rewrite Q, count_cons_eq in HO. lia. }
    rewrite count_cons_ne in HO by congruence.
    constructor; [|apply IH; [exact E|lia]]. right. split; [exact Hxp|]. intros [?|[]]; congruence.
Qed.

Lemma fin_store s st s' f ev ci st' h i : R s st -> nth_error (held s) h = Some (i, true) ->
  Sim (w_held (w_evicted s []) (set_nth h (i, false) (held s))) [i] s' (refs_of s) f ev ci ->
  (forall k, slook st' k = f k) -> snow st' = snow st -> (scas st' <= ci)%N ->
  spend st' = set_nth h None (spend st) -> R s' st'.
Proof.
  intros H E S Hl Hn Hc Hs. rewrite <- (state_eta s').
  assert (EH : held s' = set_nth h (i, false) (held s)) by (apply (S_held _ _ _ _ _ _ _ _ _ S)).
  assert (EL : lost s' = lost s) by (apply (S_lost _ _ _ _ _ _ _ _ _ S)).
  eapply (R_end s st (w_held (w_evicted s []) (set_nth h (i, false) (held s)))); [exact H|repeat split|exact S| |exact Hl|exact Hn|exact Hc| |].
  - unfold refs_of. rewrite EH, EL, (map_fst_set_nth _ _ _ _ E). reflexivity.
  - rewrite Hs, EH. apply Forall2_set_nth_pend; assumption.
  - rewrite EH, EL, (map_fst_set_nth _ _ _ _ E). intros j Hj. apply (R_one _ _ H).
    apply In_set_nth in Hj as [Hj|Hj]; [discriminate|exact Hj].
Qed.

Lemma ev_ok_nil st o : ev_ok st o [].
Proof. split; [auto|]. intros k []. Qed.

Lemma st_nil st : forall k, slook (st_without st []) k = slook st k.
Proof. intro k. rewrite slook_without. reflexivity. Qed.

(* --- read-only and removing operations --- *)
Lemma step_release s st h s' x : R s st -> 
  match nth_error (held s) h with
  | Some (i, _) => (release (w_held (w_evicted s []) (del_nth h (held s))) i, ONone)
  | None => (w_evicted s [], ONone)
  end = (s', x) ->
  exists st', sstep st (Release h) x (map fst (evicted s')) st' /\ R s' st'.
Proof.
  intro H. destruct (nth_error (held s) h) as [[i b]|] eqn:E; injection 1 as <- <-.
  - set (base := w_held (w_evicted s []) (del_nth h (held s))).
    pose proof (sim_start s st base [] H ltac:(repeat split)) as S0.
    assert (P : Permutation (refs_of s) (i :: map fst (del_nth h (held s)) ++ lost s)).
    { unfold refs_of. rewrite map_del_nth. change (i :: del_nth h (map fst (held s)) ++ lost s) with ((i :: del_nth h (map fst (held s))) ++ lost s).
      apply Permutation_app_tail. apply perm_del_nth. rewrite nth_error_map, E. reflexivity. }
    apply (sim_perm _ _ _ _ _ _ _ _ S0) in P as S1. apply sim_release in S1.
    assert (EV : evicted (release base i) = []) by apply S1.
    rewrite EV. exists (w_pend (st_without st []) (del_nth h (spend st))). split.
    + split; [apply ev_ok_nil|]. split; reflexivity.
    + assert (EH : held (release base i) = del_nth h (held s)) by (apply (S_held _ _ _ _ _ _ _ _ _ S1)).
      assert (EL : lost (release base i) = lost s) by (apply (S_lost _ _ _ _ _ _ _ _ _ S1)).
      rewrite <- (state_eta (release base i)), EH, EL.
      eapply (R_end s st base); [exact H|repeat split|exact S1|reflexivity| |reflexivity| | |].
      * intro k. rewrite <- (st_nil st k). reflexivity.
      * apply H.
      * cbn. apply Forall2_del. eapply Forall2_imp; [|apply (R_pend _ _ H)]. intros; right; auto.
      * intros j Hj.
        assert (Hj0 : In (j, true) (held s)).
        { eapply Permutation_in; [symmetry; apply perm_del_nth; exact E|right; exact Hj]. }
        pose proof (R_one _ _ H j Hj0) as O. rewrite (count_perm _ _ j P) in O. cbn in O.
        destruct (Nat.eq_dec i j) as [->|N]; [|exact O].
        rewrite count_occ_app in O. apply (in_map fst) in Hj. cbn in Hj. apply (count_occ_In Nat.eq_dec) in Hj. lia.
  - exists (w_pend (st_without st []) (del_nth h (spend st))). split; [split; [apply ev_ok_nil|split; reflexivity]|].
    pose proof (sim_start s st (w_evicted s []) [] H ltac:(repeat split)) as S0.
    eapply fin_plain; [exact H|exact S0| |reflexivity|apply H|].
    + intro k. rewrite <- (st_nil st k). reflexivity.
    + cbn. apply (Forall2_len _ _ _ h (R_pend _ _ H)) in E. clear - E. revert h E.
      induction (spend st) as [|z l IH]; intros [|h] E; cbn in *; try reflexivity; try discriminate. f_equal. apply IH. exact E.
Qed.

(* closes the goals about a finished operation that changed nothing *)
Lemma fin_same s st s' ev ci : R s st -> Sim (w_evicted s []) [] s' (refs_of s) (gone_keys (slook st) ev) ev ci ->
  (scas st <= ci)%N -> R s' (st_without st ev).
Proof.
  intros H S Hc. eapply fin_plain; [exact H|exact S| |reflexivity|exact Hc|reflexivity].
  intro k. apply slook_without.
Qed.

Lemma step_get s st k s' x : R s st -> get lru_class maxcls (w_evicted s []) k = (s', x) ->
  exists st', sstep st (Get k) x (map fst (evicted s')) st' /\ R s' st'.
Proof.
  intro H. unfold get. destruct (do_get (w_evicted s []) k true) as [s1 o] eqn:G.
  pose proof (sim_start s st (w_evicted s []) [] H ltac:(repeat split)) as S0.
  pose proof (sim_get _ _ _ _ _ _ _ _ _ _ _ _ _ S0 G) as K. destruct o as [i|].
  - destruct K as (it & Hi & Hl & Hk & V & F & S1 & _). rewrite Hi. destruct (icoll it) eqn:C.
    + injection 1 as <- <-. apply sim_release in S1. rewrite (S_ev _ _ _ _ _ _ _ _ _ S1).
      exists (st_without st []). split.
      * split; [apply ev_ok_nil|]. cbn [effect]. change (w_map st (without (smap st) (map fst []))) with (st_without st []).
        rewrite st_nil, F. cbn [entry_of e_coll]. rewrite C. auto.
      * eapply fin_same; [exact H|exact S1|apply H].
    + injection 1 as <- <-. change (evicted (w_held s1 _)) with (evicted s1). rewrite (S_ev _ _ _ _ _ _ _ _ _ S1).
      exists (w_pend (st_without st []) (None :: spend st)). split.
      * split; [apply ev_ok_nil|]. cbn [effect]. change (w_map st (without (smap st) (map fst []))) with (st_without st []).
        rewrite st_nil, F. cbn [entry_of e_coll e_val e_flags e_cas]. rewrite C. auto.
      * assert (EH : held s1 = held s) by (apply (S_held _ _ _ _ _ _ _ _ _ S1)).
        assert (EL : lost s1 = lost s) by (apply (S_lost _ _ _ _ _ _ _ _ _ S1)).
        rewrite <- (state_eta (w_held s1 _)). cbn [held lost w_held]. rewrite EL.
        change (w_held (w_held s1 ((i, false) :: held s1)) ((i, false) :: held s1)) with (w_held s1 ((i, false) :: held s1)).
        rewrite EH.
        eapply (R_end s st (w_evicted s [])); [exact H|repeat split|exact S1|reflexivity| |reflexivity|apply H| |].
        -- intro k'. rewrite <- (st_nil st k'). reflexivity.
        -- cbn. constructor; [left; reflexivity|]. eapply Forall2_imp; [|apply (R_pend _ _ H)]. intros; right; auto.
        -- intros j [Q|Q]; [discriminate|]. cbn [map fst app]. destruct (Nat.eq_dec j i) as [->|N]; [|rewrite count_cons_ne by exact N; apply (R_one _ _ H); exact Q].
           exfalso. apply In_nth_error in Q as [n Q]. destruct (Forall2_nth _ _ _ _ _ (R_pend _ _ H) Q) as (p & _ & PO).
           destruct p as [r|]; [|discriminate]. cbn in PO. destruct PO as (_ & y & Y1 & Y2 & _).
           assert (In i (refs_of s)) by (unfold refs_of; apply in_or_app; left; apply (in_map fst _ (i, true)); eapply nth_error_In; exact Q).
           destruct (sim_kept _ _ _ _ _ _ _ _ _ S1 (in_nil (a := i)) ltac:(right; assumption) Y1 Y2) as (z & Z1 & Z2 & _).
           congruence.
  - destruct K as (F & S1 & _). injection 1 as <- <-. rewrite (S_ev _ _ _ _ _ _ _ _ _ S1).
    exists (st_without st []). split.
    + split; [apply ev_ok_nil|]. cbn [effect]. change (w_map st (without (smap st) (map fst []))) with (st_without st []).
      rewrite st_nil, F. auto.
    + eapply fin_same; [exact H|exact S1|apply H].
Qed.

Lemma step_get_expire s st k s' x : R s st -> get_expire lru_class maxcls (w_evicted s []) k = (s', x) ->
  exists st', sstep st (GetExp k) x (map fst (evicted s')) st' /\ R s' st'.
Proof.
  intro H. unfold get_expire. destruct (do_get (w_evicted s []) k false) as [s1 o] eqn:G.
  pose proof (sim_start s st (w_evicted s []) [] H ltac:(repeat split)) as S0.
  pose proof (sim_get _ _ _ _ _ _ _ _ _ _ _ _ _ S0 G) as K.
  assert (Q : forall e, match slook (st_without st []) k with Some e0 => e = e0 | None => False end -> True) by auto.
  destruct o as [i|].
  - destruct K as (it & Hi & Hl & Hk & V & F & S1 & _). rewrite Hi. injection 1 as <- <-.
    apply sim_release in S1. rewrite (S_ev _ _ _ _ _ _ _ _ _ S1).
    exists (st_without st []). split; [|eapply fin_same; [exact H|exact S1|apply H]].
    split; [apply ev_ok_nil|]. cbn [effect]. change (w_map st (without (smap st) (map fst []))) with (st_without st []).
    rewrite st_nil, F. auto.
  - destruct K as (F & S1 & _). injection 1 as <- <-. rewrite (S_ev _ _ _ _ _ _ _ _ _ S1).
    exists (st_without st []). split; [|eapply fin_same; [exact H|exact S1|apply H]].
    split; [apply ev_ok_nil|]. cbn [effect]. change (w_map st (without (smap st) (map fst []))) with (st_without st []).
    rewrite st_nil, F. auto.
Qed.

Lemma step_delete s st k c s' x : R s st -> delete lru_class maxcls (w_evicted s []) k c = (s', x) ->
  exists st', sstep st (Delete k c) x (map fst (evicted s')) st' /\ R s' st'.
Proof.
  intro H. unfold delete. destruct (do_get (w_evicted s []) k false) as [s1 o] eqn:G.
  pose proof (sim_start s st (w_evicted s []) [] H ltac:(repeat split)) as S0.
  pose proof (sim_get _ _ _ _ _ _ _ _ _ _ _ _ _ S0 G) as K. destruct o as [i|].
  - destruct K as (it & Hi & Hl & Hk & V & F & S1 & _).
    assert (EC : cas_of s1 i = e_cas (entry_of it)) by (unfold cas_of; rewrite Hi; reflexivity).
    rewrite EC. destruct ((N.eqb c 0) || (N.eqb c (e_cas (entry_of it)))) eqn:B; injection 1 as <- <-.
    + pose proof (sim_unlink _ _ _ _ _ _ _ _ _ i it S1 Hi Hl (or_introl eq_refl)) as S2. apply sim_release in S2.
      rewrite (S_ev _ _ _ _ _ _ _ _ _ S2).
      exists (w_map (st_without st []) (put (smap (st_without st [])) k None)). split.
      * split; [apply ev_ok_nil|]. cbn [effect]. change (w_map st (without (smap st) (map fst []))) with (st_without st []).
        rewrite st_nil, F, B. auto.
      * eapply fin_plain; [exact H|exact S2| |reflexivity|apply H|reflexivity].
        intro k'. rewrite Hk. unfold slook at 1, put. cbn. destruct (beqb k' k); reflexivity.
    + apply sim_release in S1. rewrite (S_ev _ _ _ _ _ _ _ _ _ S1).
      exists (st_without st []). split; [|eapply fin_same; [exact H|exact S1|apply H]].
      split; [apply ev_ok_nil|]. cbn [effect]. change (w_map st (without (smap st) (map fst []))) with (st_without st []).
      rewrite st_nil, F, B. auto.
  - destruct K as (F & S1 & _). injection 1 as <- <-. rewrite (S_ev _ _ _ _ _ _ _ _ _ S1).
    exists (st_without st []). split; [|eapply fin_same; [exact H|exact S1|apply H]].
    split; [apply ev_ok_nil|]. cbn [effect]. change (w_map st (without (smap st) (map fst []))) with (st_without st []).
    rewrite st_nil, F. auto.
Qed.

Lemma alive_valid s it : notflushed s it = true ->
  (if isvalid s it then Some (entry_of it) else None) = live (now s) (entry_of it).
Proof.
  intro NF. rewrite isvalid_split, NF. unfold notexpired, live, alive. cbn [entry_of e_exp].
  destruct (iexp it =? 0) eqn:Z; cbn; [reflexivity|].
  destruct (iexp it <=? now s) eqn:Q; destruct (now s <? iexp it) eqn:Q'; try lia; reflexivity.
Qed.

Lemma step_set_expire s st k e s' x : R s st -> set_expire lru_class maxcls (w_evicted s []) k e = (s', x) ->
  exists st', sstep st (SetExp k e) x (map fst (evicted s')) st' /\ R s' st'.
Proof.
  intro H. unfold set_expire. destruct (do_get (w_evicted s []) k false) as [s1 o] eqn:G.
  pose proof (sim_start s st (w_evicted s []) [] H ltac:(repeat split)) as S0.
  pose proof (sim_get _ _ _ _ _ _ _ _ _ _ _ _ _ S0 G) as K. destruct o as [i|].
  2:{ destruct K as (F & S1 & _). injection 1 as <- <-. rewrite (S_ev _ _ _ _ _ _ _ _ _ S1).
    exists (st_without st []). split; [|eapply fin_same; [exact H|exact S1|apply H]].
    split; [apply ev_ok_nil|]. cbn [effect]. change (w_map st (without (smap st) (map fst []))) with (st_without st []).
    rewrite st_nil, F. auto. }
  destruct K as (it & Hi & Hl & Hk & V & F & S1 & _). rewrite Hi.
  pose proof (S_core _ _ _ _ _ _ _ _ _ S1) as C1.
  destruct ((is_sticky it && negb (e =? sticky_time)) || (negb (is_sticky it) && (e =? sticky_time))) eqn:B; injection 1 as <- <-.
  - apply sim_release in S1. rewrite (S_ev _ _ _ _ _ _ _ _ _ S1).
    exists (st_without st []). split; [|eapply fin_same; [exact H|exact S1|apply H]].
    split; [apply ev_ok_nil|]. cbn [effect]. change (w_map st (without (smap st) (map fst []))) with (st_without st []).
    rewrite st_nil, F. cbn [entry_of e_exp]. unfold is_sticky in B.
    destruct (iexp it =? sticky_time), (e =? sticky_time); cbn in *; try discriminate; auto.
  - assert (BS : is_sticky it = (e =? sticky_time)).
    { destruct (is_sticky it), (e =? sticky_time); cbn in *; congruence. }
    set (it2 := set_exp it e).
    match goal with |- context [release ?z i] => set (s2 := z) end.
    assert (S2 : Sim (w_evicted s []) [] s2 (i :: refs_of s) (put (slook st) k (live (now s) (entry_of it2))) [] (casid s)).
    { subst s2. destruct (iexp it =? e) eqn:Q.
      - assert (it2 = it) by (subst it2; apply Z.eqb_eq in Q; subst e; destruct it; reflexivity). rewrite H0.
        eapply sim_ext; [exact S1|]. intro k'. unfold put. destruct (beqb k' k) eqn:BK; [|reflexivity].
        apply beqb_eq in BK. subst k'. rewrite F.
        pose proof (alive_valid s1 it (valid_notflushed _ _ V)) as AV. rewrite V in AV. rewrite AV.
        f_equal. apply (S_now _ _ _ _ _ _ _ _ _ S1).
      - set (sx := set_item s1 i it2).
        assert (Cx : Core sx).
        { apply (core_upd _ _ s1 i it); auto. }
        assert (Hx : items sx i = Some it2) by apply fset_same.
        assert (Hox : forall j, j <> i -> items sx j = items s1 j) by (intros j N; apply fset_other; exact N).
        assert (NFx : notflushed sx it2 = true) by (exact (valid_notflushed _ _ V)).
        assert (ENx : now sx = now s) by (apply (S_now _ _ _ _ _ _ _ _ _ S1)).
        destruct ((iexp it =? 0) && negb (e =? 0)).
        + destruct (update_spec lru_class maxcls sx i it2 true Cx Hx Hl NFx)
            as (Cu & it3 & U1 & U2 & U3 & U4 & U5 & U6 & U7 & U8 & U9 & U10 & U11).
          assert (Ho : forall j, j <> i -> items (update sx i true) j = items s1 j).
          { intros j N. rewrite U7, Hox by exact N. reflexivity. }
          pose proof (sim_chg _ _ _ _ s1 _ _ _ _ _ i it it3 S1 Cu Hi Hl U1 U3 (key_content _ _ U2) U4 U6 Ho U8 U9 U10) as S2.
          rewrite U5, (entry_content _ _ U2), (alive_valid sx it2 NFx), ENx, Hk in S2. exact S2.
        + pose proof (sim_chg _ _ _ _ s1 sx _ _ _ _ i it it2 S1 Cx Hi Hl Hx Hl eq_refl eq_refl (fun h => h) Hox ltac:(repeat split) eq_refl eq_refl) as S2.
          rewrite (alive_valid sx it2 NFx), ENx, Hk in S2. exact S2. }
    clearbody s2. apply sim_release in S2. rewrite (S_ev _ _ _ _ _ _ _ _ _ S2).
    set (en := mkEntry (e_val (entry_of it)) (iflags it) e (icas it) (icoll it)).
    exists (w_map (st_without st []) (put (smap (st_without st [])) k (Some en))). split.
    + split; [apply ev_ok_nil|]. cbn [effect]. change (w_map st (without (smap st) (map fst []))) with (st_without st []).
      rewrite st_nil, F. cbn [entry_of e_exp]. unfold is_sticky in BS. rewrite BS, Bool.eqb_reflx. auto.
    + eapply fin_plain; [exact H|exact S2| |reflexivity|apply H|reflexivity].
      intro k'. unfold slook at 1, put. cbn. destruct (beqb k' k); [|reflexivity].
      unfold live. rewrite (R_now _ _ H). reflexivity.
Qed.
End S.
