(* What the hash table of the keys has to be: a finite map. *)
From Verif Require Import Base AssocModel.
Local Open Scope N_scope.

(* the stored keys with the items they lead to, and which scans are open *)
Record world := mkW { kv : list (bytes * N); open : list bool }.

Fixpoint lookup (m : list (bytes * N)) (k : bytes) : option N :=
  match m with
  | [] => None
  | (k', v) :: r => if beqb k k' then Some v else lookup r k
  end.
Definition without (m : list (bytes * N)) (k : bytes) : list (bytes * N) := filter (fun p => negb (beqb k (fst p))) m.
Definition stored (m : list (bytes * N)) (k : bytes) : bool := match lookup m k with Some _ => true | None => false end.
Definition in_use (w : world) (s : nat) : option bool := nth_error (open w) s.

(* what the callers guarantee: only new keys are inserted, only stored keys are deleted or replaced,
   scans are opened before they are used *)
Definition legal (w : world) (o : op) : bool :=
  match o with
  | Insert k _ _ _ => negb (stored (kv w) k)
  | Delete k | Replace k _ => stored (kv w) k
  | Find _ => true
  | ScanInit s _ => match in_use w s with Some false => true | _ => false end
  | ScanNext s asz _ _ => match in_use w s with Some true => negb (asz =? 0) | _ => false end
  | ScanFinal s => match in_use w s with Some true => true | _ => false end
  | Visited s _ => match in_use w s with Some true => true | _ => false end
  end.

Definition effect (w : world) (o : op) : world :=
  match o with
  | Insert k v _ _ => mkW ((k, v) :: kv w) (open w)
  | Delete k => mkW (without (kv w) k) (open w)
  | Replace k v => mkW ((k, v) :: without (kv w) k) (open w)
  | ScanInit s _ => mkW (kv w) (set_nth (open w) s true)
  | ScanFinal s => mkW (kv w) (set_nth (open w) s false)
  | _ => w
  end.

Fixpoint legal_run (w : world) (l : list op) : Prop :=
  match l with
  | [] => True
  | o :: r => legal w o = true /\ legal_run (effect w o) r
  end.
Definition final (w : world) (l : list op) : world := fold_left effect l w.

Definition empty (n : nat) : world := mkW [] (repeat false n).

(* what the answer to one operation has to be.  A call of a scan returns at least one item, each item
   stored now and no key twice, or it says that the scan is at its end *)
Definition answer (w : world) (o : op) (x : out) : Prop :=
  match o, x with
  | Find k, OFound v => v = lookup (kv w) k
  | ScanNext _ _ _ _, OItems (Some l) => l <> [] /\ (forall k v, In (k, v) l -> lookup (kv w) k = Some v) /\ NoDup (map fst l)
  | ScanNext _ _ _ _, OItems None => True
  | Visited _ _, OVisited _ => True
  | (Insert _ _ _ _ | Delete _ | Replace _ _ | ScanInit _ _ | ScanFinal _), ODone => True
  | _, _ => False
  end.
Fixpoint answers (w : world) (l : list op) (xs : list out) : Prop :=
  match l, xs with
  | [], [] => True
  | o :: r, x :: q => answer w o x /\ answers (effect w o) r q
  | _, _ => False
  end.

(* the items that scan s has returned *)
Fixpoint returned (s : nat) (l : list op) (xs : list out) : list (bytes * N) :=
  match l, xs with
  | o :: r, x :: q =>
      match o, x with
      | ScanNext s' _ _ _, OItems (Some d) => if Nat.eqb s s' then d ++ returned s r q else returned s r q
      | _, _ => returned s r q
      end
  | _, _ => []
  end.
Definition times (k : bytes) (l : list (bytes * N)) : nat := length (filter (fun p => beqb k (fst p)) l).

(* the operation neither opens nor closes scan s; the operation does not delete k *)
Definition keeps_scan (s : nat) (o : op) : bool :=
  match o with ScanInit s' _ | ScanFinal s' => negb (Nat.eqb s s') | _ => true end.
Definition keeps_key (k : bytes) (o : op) : bool := match o with Delete k' => negb (beqb k k') | _ => true end.
Definition is_next (s : nat) (o : op) : bool := match o with ScanNext s' _ _ _ => Nat.eqb s s' | _ => false end.
