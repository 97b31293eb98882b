(* What recovery must restore: the item of a key as clients see it, and the histories for which the log does it. *)
From Verif Require Import Base RpModel.
From Verif Require BtModel BtSpec ListModel.
From Coq Require Import Permutation.
Local Open Scope nat_scope.

(* the same contents and attributes: sets and maps have no order; the trimmed mark of a B+tree is not restored; the type
   of bkeys an empty B+tree once had does not matter *)
Definition same_body (a b : body) : Prop :=
  match a, b with
  | KV v, KV w => v = w
  | Lst mx ov rd l, Lst mx' ov' rd' l' => mx = mx' /\ ov = ov' /\ rd = rd' /\ l = l'
  | St mx rd l, St mx' rd' l' => mx = mx' /\ rd = rd' /\ Permutation l l'
  | Mp mx rd l, Mp mx' rd' l' => mx = mx' /\ rd = rd' /\ Permutation l l'
  | Bt rd s, Bt rd' s' =>
      rd = rd' /\ BtSpec.s_el s = BtSpec.s_el s' /\ BtSpec.s_max s = BtSpec.s_max s' /\ BtSpec.s_ovf s = BtSpec.s_ovf s' /\
      BtSpec.s_range s = BtSpec.s_range s' /\
      (BtSpec.s_type s = BtSpec.s_type s' \/ BtSpec.s_el s = [] /\ BtSpec.s_range s = None)
  | _, _ => False
  end.
(* x restored as y *)
Definition restored (x y : option item) : Prop :=
  match x, y with
  | None, None => True
  | Some a, Some b => i_fl a = i_fl b /\ i_exp a = i_exp b /\ same_body (i_body a) (i_body b)
  | _, _ => False
  end.

(* a maximum count is at least 1 *)
Definition made_ok (cr : option creation) : Prop :=
  match cr with
  | Some (_, _, Lst mx _ _ _) => (1 <= mx)%Z
  | Some (_, _, St mx _ _) | Some (_, _, Mp mx _ _) => 1 <= mx
  | Some (_, _, Bt _ s) => 1 <= BtSpec.s_max s
  | _ => True
  end.
(* commands on a key whose item is x that the log carries over a recovery at time T:
   - an item still valid at T is not overwritten by one that is not,
   - the expiry time of an item is not moved from before T to after T,
   - no maxbkeyrange is set, and no collection attribute on a plain item *)
Definition carried (T : N) (x : option item) (c : kcmd) : Prop :=
  match c with
  | KStore _ e _ => valid T x = None \/ expired T e = false
  | KCreate fl e b => made_ok (Some (fl, e, b))
  | KLIns cr _ _ | KSIns cr _ | KMIns cr _ _ _ | KBIns cr _ => made_ok cr
  | KAttr a =>
      x_rng a = None /\ x_max a <> Some 0 /\
      match x with
      | Some it => match i_body it with KV _ => has_info a = false | _ => True end /\
                   (expired T (i_exp it) = true -> forall e, x_exp a = Some e -> expired T e = true)
      | None => True
      end
  | _ => True
  end.

(* k was met by the scan and is not yet written *)
Definition pending (s : sys) (k : bytes) : Prop := match sc s with Some a => In k (map fst (sc_pend a)) | None => False end.
Definition calm (T : N) (k : bytes) (s : sys) (e : ev) : Prop :=
  match e with
  | ECmd j c _ =>
      j = k -> carried T (valid (now s) (tab s k)) c /\ (pending s k -> forall a, c = KAttr a -> has_info a = false)
  | EFlush p => covers p k = true -> match sc s with Some a => sc_vis a k = true | None => True end
  | EFlushDue p => covers p k = true -> tab s k = None
  | ETick d => (now s + d <= T)%N
  | EOpen first => first k = false
  | _ => True
  end.

Inductive history (P : sys -> ev -> Prop) (t0 : N) : list ev -> sys -> Prop :=
| h_start : history P t0 [] (start t0)
| h_step es s e s' : history P t0 es s -> P s e -> step s e s' -> history P t0 (es ++ [e]) s'.

(* the key k belongs to the prefix q: the text before its first ':', not counting one at the very beginning; [] is the
   null prefix, of the keys without one *)
Definition belongs (k q : bytes) : Prop :=
  match q with
  | [] => forall c r, k = c :: r -> ~ In 58%N r
  | c :: q' => exists r, k = q ++ 58%N :: r /\ ~ In 58%N q'
  end.
