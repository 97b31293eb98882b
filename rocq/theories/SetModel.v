(* Model of the set collection: engines/default/coll_set.c (see HtModel.v). *)
From Verif Require Import Base HtModel.

Inductive rc := SUCC | EEXISTS | ENOENT | ENOMEM | EOVERFLOW.

(* item_base.h 244-252 set_meta_info; [maxc] is info->mcnt > 0 ? info->mcnt : config->max_set_size *)
Record set_info := mkSet { root : option node; ccnt : nat; maxc : nat }.

Section Set_.
Variable hash : bytes -> Z.      (* genhash_string_hash, any function *)

(* coll_set.c 388-395 with node->hcnt/tot_elem_cnt; 326-386 do_set_elem_link.  The walk down
   and the later walk that counts tot_elem_cnt up along the path are one recursion.
   [mem]: the node allocation succeeds. *)
Fixpoint s_link (n : node) (e : elem) (mem : bool) : option (rc * node) :=
  match n with Node d t z tab =>
    match hidx (eh e) d with
    | None => None
    | Some i =>
        match tab i with
        | Child m =>
            match s_link m e mem with
            | Some (SUCC, m') => Some (SUCC, Node d (S t) z (upd tab i (Child m')))
            | Some (c, _) => Some (c, n)
            | None => None
            end
        | Chain l =>
            if existsb (same (eh e) (ek e)) l then Some (EEXISTS, n)
            else if Nat.leb 64 (length l) then
              if negb mem then Some (ENOMEM, n) else
              match move (S d) l empty_tab with
              | None => None
              | Some tab' =>
                  match hidx (eh e) (S d) with
                  | None => None
                  | Some j =>
                      match tab' j with
                      | Child _ => None
                      | Chain c =>
                          if chain_ok (S (length c)) then
                            Some (SUCC, Node d (S t) z (upd tab i (Child
                              (Node (S d) (S (length l)) 0 (upd tab' j (Chain (e :: c)))))))
                          else None
                      end
                  end
              end
            else if chain_ok (S (length l)) then Some (SUCC, Node d (S t) z (upd tab i (Chain (e :: l))))
            else None
        end
    end
  end.

(* 278-324 do_set_node_unlink of a child: the chain that replaces it.  The assertions are
   that it has no child nodes and that tot_elem_cnt is the number of elements found. *)
Definition s_merge (m : node) : option slot :=
  if Nat.ltb (ntot m) 32 && is_leaf m then
    match gather slots (ntab m) [] with
    | Some l => if Nat.eqb (length l) (ntot m) then Some (Chain l) else None
    | None => None
    end
  else Some (Child m).

(* 437-472 do_set_elem_traverse_delete *)
Fixpoint s_del (n : node) (h : Z) (k : bytes) : option (rc * node) :=
  match n with Node d t z tab =>
    match hidx h d with
    | None => None
    | Some i =>
        match tab i with
        | Child m =>
            match s_del m h k with
            | Some (SUCC, m') =>
                match s_merge m' with
                | Some s => Some (SUCC, Node d (pred t) z (upd tab i s))
                | None => None
                end
            | Some (c, _) => Some (c, n)
            | None => None
            end
        | Chain l =>
            match chain_del h k l with
            | Some (_, r) => Some (SUCC, Node d (pred t) z (upd tab i (Chain r)))
            | None => Some (ENOENT, n)
            end
        end
    end
  end.

(* 494-533 do_set_elem_traverse_dfs: the loop over the slots (with the recursive call as a
   parameter), then the function.  Slot i is only changed in its own turn, so it is read from
   the table the node had at the beginning. *)
Definition dfs_slots (rec : node -> nat -> option (list elem * node)) (del : bool) (count d z : nat)
    (tab0 : nat -> slot) :=
  fix go (is : list nat) (t : nat) (tab : nat -> slot) (acc : list elem) : option (list elem * node) :=
    match is with
    | [] => Some (acc, Node d t z tab)
    | i :: r =>
        let cont := fun t tab acc =>
          if full count (length acc) then Some (acc, Node d t z tab) else go r t tab acc in
        match tab0 i with
        | Child m =>
            match rec m (rest count (length acc)) with
            | None => None
            | Some (l, m') =>
                if del then
                  match s_merge m' with
                  | None => None
                  | Some s => cont (t - length l) (upd tab i s) (acc ++ l)
                  end
                else cont t tab (acc ++ l)
            end
        | Chain c =>
            let '(a, b) := take_chain count (length acc) c in
            if del then cont (t - length a) (upd tab i (Chain b)) (acc ++ a)
            else cont t tab (acc ++ a)
        end
    end.
Fixpoint s_dfs (del : bool) (n : node) (count : nat) : option (list elem * node) :=
  match n with Node d t z tab => dfs_slots (s_dfs del) del count d z tab slots t tab [] end.

(* 566-605 do_set_elem_at_offset *)
Definition at_slots (rec : node -> nat -> option (option elem * node)) (del : bool) (d t z : nat)
    (tab : nat -> slot) :=
  fix go (is : list nat) (off : nat) : option (option elem * node) :=
    match is with
    | [] => Some (None, Node d t z tab)
    | i :: r =>
        match tab i with
        | Child m =>
            if Nat.leb (ntot m) off then go r (off - ntot m)
            else match rec m off with
                 | None => None
                 | Some (x, m') =>
                     if del then
                       match s_merge m' with
                       | None => None
                       | Some s => Some (x, Node d (pred t) z (upd tab i s))
                       end
                     else Some (x, Node d t z tab)
                 end
        | Chain c =>
            if Nat.leb (length c) off then go r (off - length c)
            else match nth_error c off with
                 | None => None
                 | Some e =>
                     if del then Some (Some e, Node d (pred t) z (upd tab i (Chain (firstn off c ++ skipn (S off) c))))
                     else Some (Some e, Node d t z tab)
                 end
        end
    end.
Fixpoint s_at (del : bool) (n : node) (off : nat) : option (option elem * node) :=
  match n with Node d t z tab => at_slots (s_at del) del d t z tab slots off end.

(* rand(): the environment supplies the numbers; running out of them is None *)
Definition next (rnd : list nat) : option (nat * list nat) :=
  match rnd with [] => None | x :: r => Some (x, r) end.

(* 546-559 the chain loop of do_set_elem_traverse_sampling: need = count - fcnt;
   returns the picked elements, the remaining need, remain and random numbers *)
Fixpoint samp_chain (l : list elem) (remain need : nat) (rnd : list nat)
  : option (list elem * nat * nat * list nat) :=
  match l with
  | [] => Some ([], remain, need, rnd)
  | e :: r =>
      match remain, next rnd with
      | O, _ | _, None => None
      | S rem', Some (x, rnd') =>
          if Nat.ltb (Nat.modulo x remain) need then
            if Nat.eqb need 1 then Some ([e], remain, 0, rnd')
            else match samp_chain r rem' (pred need) rnd' with
                 | Some (a, rm, nd, rn) => Some (e :: a, rm, nd, rn)
                 | None => None
                 end
          else samp_chain r rem' need rnd'
      end
  end.

(* 535-564 do_set_elem_traverse_sampling *)
Definition samp_slots (rec : node -> nat -> nat -> list nat -> option (list elem * list nat))
    (tab : nat -> slot) :=
  fix go (is : list nat) (remain need : nat) (rnd : list nat) : option (list elem * list nat) :=
    match is with
    | [] => Some ([], rnd)
    | i :: r =>
        match tab i with
        | Child m =>
            match rec m remain need rnd with
            | None => None
            | Some (a, rnd') =>
                if Nat.leb need (length a) then Some (a, rnd')
                else match go r (remain - ntot m) (need - length a) rnd' with
                     | Some (b, rn) => Some (a ++ b, rn)
                     | None => None
                     end
            end
        | Chain c =>
            match samp_chain c remain need rnd with
            | None => None
            | Some (a, rm, nd, rnd') =>
                if Nat.eqb nd 0 then Some (a, rnd')
                else match go r rm nd rnd' with
                     | Some (b, rn) => Some (a ++ b, rn)
                     | None => None
                     end
            end
        end
    end.
Fixpoint s_samp (n : node) (remain need : nat) (rnd : list nat) : option (list elem * list nat) :=
  match n with Node d t z tab => samp_slots s_samp tab slots remain need rnd end.

(* 86-99 hash_insert on the table of offsets used so far; bucket i holds at most 3 keys *)
Definition off_insert (cap : nat) (ht : nat -> list nat) (key : nat) : option (nat -> list nat) :=
  let b := ht (Nat.modulo key cap) in
  if Nat.eqb (length b) 3 then None
  else if existsb (Nat.eqb key) b then None
  else Some (fun j => if Nat.eqb j (Nat.modulo key cap) then b ++ [key] else ht j).

(* 641-652: pick by distinct random offsets; one random number per round *)
Fixpoint pick (n : node) (cc : nat) (cap : nat) (need : nat) (ht : nat -> list nat) (rnd : list nat)
  : option (list elem * list nat) :=
  match need with
  | O => Some ([], rnd)
  | S need' =>
      match rnd with
      | [] => None
      | x :: rnd' =>
          match off_insert cap ht (Nat.modulo x cc) with
          | None => pick n cc cap need ht rnd'
          | Some ht' =>
              match s_at false n (Nat.modulo x cc) with
              | Some (Some e, _) =>
                  match pick n cc cap need' ht' rnd' with
                  | Some (l, r) => Some (e :: l, r)
                  | None => None
                  end
              | _ => None
              end
          end
      end
  end.

(* 627-635: delete elements at random offsets *)
Fixpoint pick_del (n : node) (cc need : nat) (rnd : list nat) {struct need} : option (list elem * node * list nat) :=
  match need with
  | O => Some ([], n, rnd)
  | S need' =>
      match rnd, cc with
      | [], _ | _, O => None
      | x :: rnd', S cc' =>
          match s_at true n (Nat.modulo x cc) with
          | Some (Some e, n') =>
              match pick_del n' cc' need' rnd' with
              | Some (l, n2, r) => Some (e :: l, n2, r)
              | None => None
              end
          | _ => None
          end
      end
  end.

(* 655-662: shuffle from the end *)
Fixpoint set_at {A} (l : list A) (i : nat) (x : A) : list A :=
  match l, i with
  | [], _ => []
  | _ :: r, O => x :: r
  | y :: r, S i' => y :: set_at r i' x
  end.
Fixpoint shuffle (i : nat) (l : list elem) (rnd : list nat) : option (list elem) :=
  match i with
  | O => Some l
  | S i' =>
      match rnd with
      | [] => None
      | x :: rnd' =>
          let j := Nat.modulo x (S i) in
          if Nat.eqb j i then shuffle i' l rnd'
          else match nth_error l i, nth_error l j with
               | Some a, Some b => shuffle i' (set_at (set_at l i b) j a) rnd'
               | _, _ => None
               end
      end
  end.

(* do_set_node_unlink(info, NULL, 0) when the root is empty *)
Definition drop_root (n : node) : option (option node) :=
  if Nat.eqb (ntot n) 0 then Some None else Some (Some n).

(* 664-686 do_set_elem_get *)
Definition s_get (s : set_info) (count : nat) (del : bool) (rnd : list nat) : option (list elem * set_info) :=
  match root s with
  | None => None
  | Some n =>
      let fin (l : list elem) (n' : node) :=
        if del then
          match drop_root n' with
          | Some r => Some (l, mkSet r (ccnt s - length l) (maxc s))
          | None => None
          end
        else Some (l, s) in
      if Nat.leb (ccnt s) count || Nat.eqb count 0 then
        match s_dfs del n count with
        | Some (l, n') => fin l n'
        | None => None
        end
      else if del then
        match pick_del n (ccnt s) count rnd with
        | Some (l, n', _) => fin l n'
        | None => None
        end
      else if Nat.leb count (Nat.div (ccnt s) 10) then
        match pick n (ccnt s) (Nat.div (13 * count) 10) count (fun _ => []) rnd with
        | Some (l, _) => fin l n
        | None => None
        end
      else
        match s_samp n (ccnt s) count rnd with
        | Some (l, rnd') =>
            match shuffle (pred (length l)) l rnd' with
            | Some l' => fin l' n
            | None => None
            end
        | None => None
        end
  end.

Inductive op :=
| Insert (v : bytes) (sticky_full mem_root mem_node : bool)
| Delete (v : bytes)
| Exist (v : bytes)
| DeleteSome (count : nat)
| Get (count : nat) (del : bool) (rnd : list nat).

Inductive out := ORc (c : rc) | ONum (n : nat) | OBool (b : bool) | OElems (l : list bytes).

(* 688-729 do_set_elem_insert (overflow action of sets is always "error"), 474-492
   do_set_elem_delete_with_value, 855-880 set_elem_exist, 882-948 set_elem_get *)
Definition step (s : set_info) (o : op) : option (set_info * out) :=
  match o with
  | Insert v sticky_full mem_root mem_node =>
      if sticky_full then Some (s, ORc ENOMEM)
      else if Nat.leb (maxc s) (ccnt s) then Some (s, ORc EOVERFLOW)
      else
        let e := mkElem (hash v) v [] in
        match root s with
        | None =>
            if negb mem_root then Some (s, ORc ENOMEM)
            else match s_link (Node 0 0 0 empty_tab) e mem_node with
                 | Some (SUCC, n') => Some (mkSet (Some n') (S (ccnt s)) (maxc s), ORc SUCC)
                 | Some (c, n') => if Nat.eqb (ntot n') 0 then Some (s, ORc c) else None
                 | None => None
                 end
        | Some n =>
            match s_link n e mem_node with
            | Some (SUCC, n') => Some (mkSet (Some n') (S (ccnt s)) (maxc s), ORc SUCC)
            | Some (c, _) => Some (s, ORc c)
            | None => None
            end
        end
  | Delete v =>
      match root s with
      | None => Some (s, ORc ENOENT)
      | Some n =>
          match s_del n (hash v) v with
          | Some (SUCC, n') =>
              match drop_root n' with
              | Some r => Some (mkSet r (pred (ccnt s)) (maxc s), ORc SUCC)
              | None => None
              end
          | Some (c, _) => Some (s, ORc c)
          | None => None
          end
      end
  | Exist v =>
      match root s with
      | None => Some (s, OBool false)
      | Some n => match find_elem n (hash v) v with
                  | Some (Some _) => Some (s, OBool true)
                  | Some None => Some (s, OBool false)
                  | None => None
                  end
      end
  | DeleteSome count =>   (* 607-619 do_set_elem_delete, called by set_elem_delete_with_count *)
      match root s with
      | None => Some (s, ONum 0)
      | Some n =>
          match s_dfs true n count with
          | Some (l, n') =>
              match drop_root n' with
              | Some r => Some (mkSet r (ccnt s - length l) (maxc s), ONum (length l))
              | None => None
              end
          | None => None
          end
      end
  | Get count del rnd =>
      if Nat.eqb (ccnt s) 0 then Some (s, ORc ENOENT)
      else match s_get s count del rnd with
           | Some ([], _) => None  (* ENGINE_ENOMEM with the elements gone *)
           | Some (l, s') => Some (s', OElems (map ek l))
           | None => None
           end
  end.

Fixpoint run (s : set_info) (ops : list op) : option (set_info * list out) :=
  match ops with
  | [] => Some (s, [])
  | o :: r => match step s o with
              | None => None
              | Some (s1, x) => match run s1 r with
                                | Some (s2, xs) => Some (s2, x :: xs)
                                | None => None
                                end
              end
  end.
End Set_.
