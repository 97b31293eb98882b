(* Specification of recovery: what the commands of a history log, and the state that replaying the log of
   the first of them is to give. *)
From Verif Require Import Base RecModel RecSpec RecProofs.
Local Open Scope N_scope.

(* a logged operation, with the clock at that time (and the uninitialised bytes of its record) *)
Record entry := Entry { e_jk : nat -> N; e_clk : clock; e_op : lop }.
Definition ebytes (e : entry) : bytes := write (e_jk e) (e_clk e) (e_op e).

(* a command: one operation, or several that belong together *)
Inductive command := One (e : entry) | Many (b : nat -> N) (es : list entry) (f : nat -> N).
Definition mark (jk : nat -> N) (begin : bool) : bytes := w_range jk begin.
Definition cbytes (u : command) : bytes :=
  match u with
  | One e => ebytes e
  | Many b es f => mark b true ++ concat (map ebytes es) ++ mark f false
  end.
Definition log (us : list command) : bytes := concat (map cbytes us).

(* records that can be written, read at clock clk *)
Definition loggable (clk : clock) (e : entry) : Prop :=
  wf (e_op e) /\ timed (e_clk e) clk (e_op e) /\ e_op e <> OBegin /\ e_op e <> OEnd /\
  blen (ebytes e) <= 2097152.
Definition entries (u : command) : list entry :=
  match u with One e => [e] | Many _ es _ => es end.
Definition fine (clk : clock) (us : list command) : Prop :=
  Forall (loggable clk) (concat (map entries us)).

Section Effect.
Variable St : Type.
Variable exec : St -> option call -> St * bool.
Variable clk : clock.
(* the operations of the commands, one after the other; None: out of memory *)
Fixpoint effect (es : list entry) (st : St) : option St :=
  match es with
  | [] => Some st
  | e :: es =>
      let (st', oom) := exec st (Some (expected (e_clk e) clk (e_op e))) in
      if oom then None else effect es st'
  end.
Definition effects (us : list command) (st : St) : option St := effect (concat (map entries us)) st.
End Effect.
