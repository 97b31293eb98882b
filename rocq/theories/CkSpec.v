(* Specification for C30 and C45, in terms of the directories only. *)
From Verif Require Import Base UtilModel CkModel.
Open Scope N_scope.

(* dates written with 14 digits: YYYYMMDDHHMMSS *)
Definition a_date (t : N) : Prop := 10 ^ 13 <= t < 10 ^ 14.

(* the checkpoint whose snapshot was completed last in a history of directory changes *)
Fixpoint last_done (n : option bytes) (l : list ev) : option bytes :=
  match l with
  | [] => n
  | Done m :: l' => last_done (Some m) l'
  | _ :: l' => last_done n l'
  end.

(* the two files of checkpoint t are there, the snapshot complete *)
Definition intact (d : disk) (t : N) : Prop :=
  In (snap_name t, true) (d_snaps d) /\ In (log_name t) (d_logs d).

(* the clock moves on by at least a second from round to round *)
Fixpoint clock_forward (c : N) (l : list op) : Prop :=
  match l with
  | [] => True
  | o :: l' => c < v_clock (o_env o) /\ a_date (v_clock (o_env o)) /\ clock_forward (v_clock (o_env o)) l'
  end.

(* the sweep removes nothing in a history *)
Definition no_sweep (l : list ev) : Prop := forall n, ~ In (SwSnap n) l /\ ~ In (SwLog n) l.

(* no removal of a file fails *)
Definition removals_work (l : list op) : Prop := Forall (fun o => Forall (eq true) (v_unlink (o_env o))) l.

(* directories without any checkpoint files; other files may be there *)
Definition fresh (d : disk) : Prop :=
  (forall n b, In (n, b) (d_snaps d) -> starts SNAP n = false).
