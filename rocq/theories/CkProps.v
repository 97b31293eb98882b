(* C30 and C45: the files of the last checkpoint. *)
From Verif Require Import Base UtilModel UtilSpec UtilProofs CkModel CkSpec CkProofs.
Open Scope N_scope.

Definition start (d : disk) : sys := {| y_ck := None; y_disk := d |}.

(* At every point of every history of rounds, crashes and restarts in which the sweep removes
   nothing and the clock does not go back, both files of the checkpoint completed last are there. *)
Theorem C30_files_kept_partial : forall d l,
  fresh d -> clock_forward 0 l -> no_sweep (trace l (start d)) ->
  forall n, last_done None (trace l (start d)) = Some n ->
  exists t, n = snap_name t /\ intact (y_disk (run l (start d))) t.
Proof.
  intros d l F C N n E. destruct (SI_run l 0 (start d) None (SI_start d F) C N) as (c & [[_ B] _]). rewrite E in B.
  destruct B as (t & -> & _ & _ & I & _). exists t. split; [reflexivity|exact I].
Qed.

(* ... in particular when no removal of a file ever fails. *)
Theorem C30_removals_work_partial : forall d l,
  fresh d -> clock_forward 0 l -> removals_work l ->
  forall n, last_done None (trace l (start d)) = Some n ->
  exists t, n = snap_name t /\ intact (y_disk (run l (start d))) t.
Proof. intros d l F C W. apply C30_files_kept_partial; [exact F|exact C|]. apply calm_run; [exact Logic.I|exact W]. Qed.

(* The sweep touches no file whose name does not start with the names of checkpoint files. *)
Theorem C30_sweep_others_partial : forall v last d u e u' ok,
  do_sweep v last d u = (e, u', ok) ->
  forall n, (In (SwSnap n) e -> starts SNAP n = true /\ exists b, In (n, b) (d_snaps d)) /\
            (In (SwLog n) e -> starts CLOG n = true /\ In n (d_logs d)).
Proof.
  assert (G : forall pfx last names u l u' r, sweep_dir pfx last names u = (l, u', r) -> forall n, In n l -> starts pfx n = true /\ In n names).
  { intros pfx last names. induction names as [|m names IH]; intros u l u' r H n I; cbn [sweep_dir] in H; [injection H as <- _ _; destruct I|].
    destruct (negb (starts pfx m) || _) eqn:B.
    - destruct (IH _ _ _ _ H n I). split; [assumption|right; assumption].
    - destruct (unlink u) as [[|] u1]; [|injection H as <- _ _; destruct I].
      destruct (sweep_dir pfx last names u1) as [[l2 u2] r2] eqn:Q. injection H as <- _ _. apply orb_false_iff in B as [B _]. apply negb_false_iff in B.
      destruct I as [<-|I]; [split; [exact B|left; reflexivity]|]. destruct (IH _ _ _ _ Q n I). split; [assumption|right; assumption]. }
  intros v last d u e u' ok H n. unfold do_sweep in H.
  destruct (if v_dir1 v then _ else _) as [[l1 u1] r1] eqn:E1. destruct (if v_dir2 v then _ else _) as [[l2 u2] r2] eqn:E2. injection H as <- _ _.
  split; intro I; apply in_app_or in I as [I|I]; apply in_map_iff in I as (m & M & I); try discriminate; injection M as ->.
  - destruct (v_dir1 v); [|injection E1 as <- _ _; destruct I]. destruct (G _ _ _ _ _ _ _ E1 n I) as [S IN].
    split; [exact S|]. apply in_map_iff in IN as ([m b] & <- & IN). exists b. exact IN.
  - destruct (v_dir2 v); [|injection E2 as <- _ _; destruct I]. exact (G _ _ _ _ _ _ _ E2 n I).
Qed.

(* The sweep with working removals deletes every checkpoint file, for every time of the last
   checkpoint: the time is compared with atoi() of the file name (checkpoint.c 102 and 127), which
   is below 2^31 and never equal to a date of 14 digits. *)
Theorem C30_sweep_refuted : forall v t d u e u' ok,
  a_date t -> v_dir1 v = true -> v_dir2 v = true -> Forall (eq true) u ->
  do_sweep v (Z.of_N t) d u = (e, u', ok) ->
  let d' := apply_evs d e in
  (forall n b, In (n, b) (d_snaps d') -> starts SNAP n = false) /\
  (forall n, In n (d_logs d') -> starts CLOG n = false) /\ analysis d' = (-1)%Z.
Proof.
  intros v t d u e u' ok D V1 V2 F H d'. unfold do_sweep in H. rewrite V1, V2 in H.
  destruct (sweep_dir_works SNAP (Z.of_N t) (map fst (d_snaps d)) u F) as (l1 & u1 & E1 & F1).
  destruct (sweep_dir_works CLOG (Z.of_N t) (d_logs d) u1 F1) as (l2 & u2 & E2 & F2). rewrite E1, E2 in H. injection H as <- <- <-.
  assert (NE : forall s, atoi s <> Z.of_N t).
  { intro s. destruct (atoi_small s) as [_ A]. destruct D as [D _]. change (10 ^ 13) with 10000000000000 in D. change (2 ^ 31)%Z with 2147483648%Z in A. lia. }
  assert (A1 : forall l x, apply_evs x (map SwSnap l) = {| d_snaps := filter (fun y => negb (existsb (beqb (fst y)) l)) (d_snaps x); d_logs := d_logs x |}).
  { induction l as [|n l IH]; intro x.
    - cbn. destruct x as [s g]. cbn. f_equal. induction s as [|y s IHs]; [reflexivity|]. cbn. congruence.
    - cbn [map]. unfold apply_evs in *. cbn [fold_left]. rewrite IH. cbn [apply_ev d_snaps d_logs existsb]. f_equal.
      induction (d_snaps x) as [|y s IHs]; [reflexivity|]. cbn [filter]. destruct (beqb (fst y) n) eqn:B; cbn [negb orb filter].
      + exact IHs.
      + destruct (negb (existsb (beqb (fst y)) l)); [f_equal|]; exact IHs. }
  assert (A2 : forall l x, apply_evs x (map SwLog l) = {| d_snaps := d_snaps x; d_logs := filter (fun y => negb (existsb (beqb y) l)) (d_logs x) |}).
  { induction l as [|n l IH]; intro x.
    - cbn. destruct x as [s g]. cbn. f_equal. induction g as [|y s' IHs]; [reflexivity|]. cbn. congruence.
    - cbn [map]. unfold apply_evs in *. cbn [fold_left]. rewrite IH. cbn [apply_ev d_snaps d_logs existsb]. f_equal.
      induction (d_logs x) as [|y s IHs]; [reflexivity|]. cbn [filter]. destruct (beqb y n) eqn:B; cbn [negb orb filter].
      + exact IHs.
      + destruct (negb (existsb (beqb y) l)); [f_equal|]; exact IHs. }
  assert (K1 : forall n b, In (n, b) (d_snaps d') -> starts SNAP n = false).
  { subst d'. rewrite apply_evs_app, A1, A2. cbn [d_snaps]. intros n b I. apply filter_In in I as [I X]. destruct (starts SNAP n) eqn:S; [|reflexivity].
    exfalso. apply negb_true_iff in X. cbn [fst] in X. assert (Y : existsb (beqb n) l1 = true); [|congruence].
    apply existsb_exists. exists n. split; [|apply beqb_refl]. apply (sweep_dir_ok _ _ _ _ _ _ E1). split; [|split; [exact S|apply NE]].
    apply in_map_iff. exists (n, b). auto. }
  split; [exact K1|]. split.
  - subst d'. rewrite apply_evs_app, A1, A2. cbn [d_logs]. intros n I. apply filter_In in I as [I X]. destruct (starts CLOG n) eqn:S; [|reflexivity].
    exfalso. apply negb_true_iff in X. assert (Y : existsb (beqb n) l2 = true); [|congruence].
    apply existsb_exists. exists n. split; [|apply beqb_refl]. apply (sweep_dir_ok _ _ _ _ _ _ E2). split; [exact I|]. split; [exact S|apply NE].
  - destruct (analysis_spec d') as [(n & I & S & _)|[A _]]; [|exact A]. rewrite (K1 _ _ I) in S. discriminate.
Qed.

(* --- concrete histories --- *)
Definition quiet (t : N) : env :=
  {| v_unlink := []; v_dir1 := true; v_dir2 := true; v_dual := true; v_needed := false; v_clock := t;
     v_mksnap := true; v_mklog := true; v_open := true; v_trunc := true; v_scan := true |}.
Definition busy (t : N) : env :=
  {| v_unlink := []; v_dir1 := true; v_dir2 := true; v_dual := true; v_needed := true; v_clock := t;
     v_mksnap := true; v_mklog := true; v_open := true; v_trunc := true; v_scan := true |}.
Definition stuck (t : N) : env :=
  {| v_unlink := [false]; v_dir1 := true; v_dir2 := true; v_dual := true; v_needed := false; v_clock := t;
     v_mksnap := true; v_mklog := true; v_open := true; v_trunc := true; v_scan := true |}.
Definition go (e : env) : op := {| o_env := e; o_cut := None |}.
Definition die (k : nat) (e : env) : op := {| o_env := e; o_cut := Some k |}.
Definition d0 : disk := {| d_snaps := [([108; 111; 115; 116], true)]; d_logs := [] |}.
Definition T0 : N := 20261116181044.
Definition quiets (t : N) (n : nat) : list op := map (fun i => go (quiet (t + N.of_nat i))) (seq 0 n).

(* the first start, a checkpoint after five seconds *)
Definition hist1 : list op := go (quiet T0) :: quiets (T0 + 1) 4 ++ [go (busy (T0 + 5))].
(* five seconds later the previous files cannot be removed; another five seconds later the sweep runs *)
Definition hist2 : list op := hist1 ++ quiets (T0 + 6) 4 ++ [go (stuck (T0 + 10))] ++ quiets (T0 + 11) 5.

(* In a reachable history with a single failed removal the sweep deletes the files of the last
   completed checkpoint; a restart then finds nothing. *)
Theorem C30_reachable_refuted : exists d l n,
  fresh d /\ clock_forward 0 l /\ last_done None (trace l (start d)) = Some n /\
  ~ (exists t, n = snap_name t /\ intact (y_disk (run l (start d))) t) /\
  analysis (y_disk (run l (start d))) = (-1)%Z.
Proof.
  exists d0, hist2, (snap_name (T0 + 5)).
  split; [intros n b [[= <- <-]|[]]; reflexivity|]. split; [vm_compute; repeat (split; [first [reflexivity|split; [discriminate|reflexivity]]|]); exact Logic.I|].
  split; [vm_compute; reflexivity|]. split; [|vm_compute; reflexivity].
  intros (t & _ & I & _). assert (E : d_snaps (y_disk (run hist2 (start d0))) = [([108; 111; 115; 116], true)]) by (vm_compute; reflexivity).
  rewrite E in I. destruct I as [I|[]]. apply (f_equal (fun x => hd 0 (fst x))) in I. change (108 = 115) in I. discriminate I.
Qed.

(* hypotheses of the positive theorems are met by a history with a failed checkpoint, a crash in the
   middle of a checkpoint, and a restart *)
Definition hist3 : list op :=
  hist1 ++ quiets (T0 + 6) 4 ++ [go (quiet (T0 + 10))] ++ quiets (T0 + 11) 4 ++ [die 3 (busy (T0 + 15)); go (quiet (T0 + 16))] ++
  quiets (T0 + 17) 4 ++ [go (busy (T0 + 21))].
Example C30_example :
  fresh d0 /\ clock_forward 0 hist3 /\ removals_work hist3 /\ no_sweep (trace hist3 (start d0)) /\
  last_done None (trace hist3 (start d0)) = Some (snap_name (T0 + 21)) /\
  length (d_snaps (y_disk (run hist3 (start d0)))) = 4%nat.
Proof.
  split; [intros n b [[= <- <-]|[]]; reflexivity|]. split; [vm_compute; repeat (split; [first [reflexivity|split; [discriminate|reflexivity]]|]); exact Logic.I|].
  assert (R : removals_work hist3) by (repeat constructor). split; [exact R|]. split; [apply calm_run; [exact Logic.I|exact R]|].
  split; vm_compute; reflexivity.
Qed.

(* --- C45: what a restart uses --- *)
(* After a crash at any point a restart uses the checkpoint that was completed last, and starts
   from nothing only if none was ever completed (clock not going back, no sweep). *)
Theorem C45_newest_partial : forall d l,
  fresh d -> clock_forward 0 l -> no_sweep (trace l (start d)) ->
  match last_done None (trace l (start d)) with
  | Some n => exists t, n = snap_name t /\ analysis (y_disk (run l (start d))) = Z.of_N t
  | None => analysis (y_disk (run l (start d))) = (-1)%Z
  end.
Proof.
  intros d l F C N. destruct (SI_run l 0 (start d) None (SI_start d F) C N) as (c & [D _]).
  pose proof (DI_analysis _ _ _ D) as A. destruct (last_done None (trace l (start d))); [|exact A].
  destruct A as (t & -> & _ & A). eauto.
Qed.

(* An incomplete snapshot is never used, whatever is in the directory. *)
Theorem C45_complete : forall d, analysis d <> (-1)%Z ->
  exists n, In (n, true) (d_snaps d) /\ starts SNAP n = true /\ analysis d = atoll (after_underscore n).
Proof. intros d H. destruct (analysis_spec d) as [(n & I & S & E & _)|[E _]]; [eauto|congruence]. Qed.

(* When the local clock is set back (or leaves daylight saving time) between two checkpoints, a
   restart before the removal of the older files uses the older ones. *)
Definition hist4 : list op := go (quiet T0) :: quiets (T0 + 1) 4 ++ [go (busy (T0 - 10000)); die 0 (quiet (T0 - 9999))].
Theorem C45_clock_back_refuted : exists d l t t',
  fresh d /\ removals_work l /\ last_done None (trace l (start d)) = Some (snap_name t) /\
  intact (y_disk (run l (start d))) t /\ analysis (y_disk (run l (start d))) = Z.of_N t' /\ t' <> t.
Proof.
  exists d0, hist4, (T0 - 10000), T0.
  split; [intros n b [[= <- <-]|[]]; reflexivity|]. split; [repeat constructor|].
  split; [vm_compute; reflexivity|]. split; [split; vm_compute; tauto|]. split; [vm_compute; reflexivity|discriminate].
Qed.

Example C45_example :
  last_done None (trace (hist1 ++ [die 0 (quiet (T0 + 6))]) (start d0)) = Some (snap_name (T0 + 5)) /\
  analysis (y_disk (run (hist1 ++ [die 0 (quiet (T0 + 6))]) (start d0))) = Z.of_N (T0 + 5) /\
  (* crash before the end of the snapshot: the older one is used *)
  analysis (y_disk (run (go (quiet T0) :: quiets (T0 + 1) 4 ++ [die 3 (busy (T0 + 5))]) (start d0))) = Z.of_N T0.
Proof. vm_compute. auto. Qed.

Print Assumptions C30_files_kept_partial.
Print Assumptions C30_sweep_refuted.
Print Assumptions C45_newest_partial.
