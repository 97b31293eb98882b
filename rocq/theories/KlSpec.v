(* The key-value commands of the text protocol (docs/ascii-protocol ch04, ch12): which lines are
   requests, and what a server that is nothing but a map with expiry times answers.  Numbers are
   the relations of ArgSpec.v, the map is the one of KvSpec.v, times are those of AtSpec.v. *)
From Coq Require Import String Ascii.
From Verif Require Import Base UtilModel UtilSpec ArgTypes ArgSpec.
From Verif Require KvModel KvSpec AtModel AtSpec.
From Verif Require Import KlModel.
From Coq Require Import List ZArith NArith Bool.
Local Open Scope nat_scope.
Local Open Scope list_scope.

Inductive quiet_opt : list bytes -> bool -> Prop :=
| q_none : quiet_opt [] false
| q_noreply : quiet_opt [txt "noreply"] true.
Inductive store_word : bytes -> KvModel.store_kind -> Prop :=
| w_set : store_word (txt "set") KvModel.KSet
| w_add : store_word (txt "add") KvModel.KAdd
| w_replace : store_word (txt "replace") KvModel.KReplace
| w_append : store_word (txt "append") KvModel.KAppend
| w_prepend : store_word (txt "prepend") KvModel.KPrepend.
Inductive arith_word : bytes -> bool -> Prop :=
| w_incr : arith_word (txt "incr") true
| w_decr : arith_word (txt "decr") false.
Inductive get_word : bytes -> bool -> Prop :=
| w_get : get_word (txt "get") false
| w_gets : get_word (txt "gets") true.
Definition key_ok (k : bytes) : Prop := (N.of_nat (List.length k) <= 16000)%N.
Definition size_ok (n : Z) : Prop := (0 <= n <= 2147483645)%Z.
Inductive delay_opt : list bytes -> Z -> Prop :=
| d_none : delay_opt [] 0
| d_some w d : num_i64 w d -> (0 <= d)%Z -> delay_opt [w] d.
Inductive prefix_arg : bytes -> option bytes -> Prop :=
| p_null : prefix_arg (txt "<null>") None
| p_name p : p <> txt "<null>" -> (N.of_nat (List.length p) <= 250)%N -> prefix_arg p (Some p).
(* "delete <key> 0" is an old form *)
Inductive zero_opt : list bytes -> Prop := z_none : zero_opt [] | z_zero : zero_opt [txt "0"].

Inductive says : list bytes -> kreq -> bool -> Prop :=
| s_get w cas k keys : get_word w cas -> Forall key_ok (k :: keys) -> says (w :: k :: keys) (RGet cas (k :: keys)) false
| s_store w kind k f fl e ex n len q b : store_word w kind -> key_ok k -> num_u32 f fl -> num_i64 e ex -> num_i32 n len ->
    size_ok len -> quiet_opt q b -> says (w :: k :: f :: e :: n :: q) (RStore kind k fl ex len 0) b
| s_cas k f fl e ex n len c cn q b : key_ok k -> num_u32 f fl -> num_i64 e ex -> num_i32 n len -> size_ok len -> num_u64 c cn ->
    quiet_opt q b -> says (txt "cas" :: k :: f :: e :: n :: c :: q) (RStore KvModel.KCas k fl ex len cn) b
| s_arith w incr k d dn q b : arith_word w incr -> key_ok k -> num_u64 d dn -> quiet_opt q b ->
    says (w :: k :: d :: q) (RArith incr k dn None) b
| s_create w incr k d dn f fl e ex i iv q b : arith_word w incr -> key_ok k -> num_u64 d dn -> num_u32 f fl -> num_i64 e ex -> num_u64 i iv ->
    quiet_opt q b -> says (w :: k :: d :: f :: e :: i :: q) (RArith incr k dn (Some (fl, ex, iv))) b
| s_delete k z q b : key_ok k -> zero_opt z -> quiet_opt q b -> says (txt "delete" :: k :: z ++ q) (RDelete k) b
| s_touch k e ex q b : key_ok k -> num_i64 e ex -> quiet_opt q b -> says (txt "touch" :: k :: e :: q) (RTouch k ex) b
| s_flush w d q b : delay_opt w d -> quiet_opt q b -> says (txt "flush_all" :: w ++ q) (RFlushAll d) b
| s_prefix p po w d q b : prefix_arg p po -> delay_opt w d -> quiet_opt q b -> says (txt "flush_prefix" :: p :: w ++ q) (RFlushPrefix po d) b.

(* what the server accepts in addition *)
Definition one_more (r : kreq) : Prop := match r with RStore _ _ _ _ _ _ | RArith _ _ _ _ | RTouch _ _ => True | _ => False end.
Inductive ignores : list bytes -> kreq -> bool -> Prop :=
| i_word toks r x : says toks r false -> one_more r -> x <> txt "noreply" -> ignores (toks ++ [x]) r false
| i_flush a x : x <> txt "noreply" -> ignores [txt "flush_all"; a; x] (RFlushAll 0) false
| i_prefix p po a x : prefix_arg p po -> x <> txt "noreply" -> ignores [txt "flush_prefix"; p; a; x] (RFlushPrefix po 0) false
| i_noreply : ignores [txt "flush_prefix"; txt "noreply"] (RFlushPrefix (Some (txt "noreply")) 0) true.

(* lines of these commands with a number of words that can be right: they are answered in any case *)
Definition ours (toks : list bytes) : Prop :=
  exists w rest, toks = w :: rest /\
    let n := List.length rest in
    ((exists c, get_word w c) /\ 1 <= n) \/ ((exists k, store_word w k) /\ 4 <= n <= 5) \/ (w = txt "cas" /\ 5 <= n <= 6) \/
    ((exists i, arith_word w i) /\ (n = 2 \/ n = 3 \/ n = 5 \/ n = 6)) \/ (w = txt "delete" /\ 1 <= n <= 3) \/
    (w = txt "flush_all" /\ n <= 2) \/ (w = txt "flush_prefix" /\ 1 <= n <= 3) \/ (w = txt "touch" /\ 2 <= n <= 3).

(* ---- the answers ---- *)
Import KvSpec.
Section Answers.
Variable started : Z.
Definition expiry (st : cache) (e : Z) : Z :=
  Z.of_N (AtSpec.due {| AtModel.cur := snow st; AtModel.started := started |} e).
Definition line_end : bytes := [13%N; 10%N].
Definition value_line (cas : bool) (k : bytes) (e : entry) : bytes :=
  txt "VALUE " ++ k ++ [32%N] ++ dec_text (e_flags e) ++ [32%N] ++ dec_text (N.of_nat (List.length (e_val e))) ++
  (if cas then [32%N] ++ dec_text (e_cas e) else []) ++ line_end ++ e_val e ++ line_end.
(* only the entry of k changes *)
Definition entry_set (st : cache) (k : bytes) (v : option entry) (c : N) (st' : cache) : Prop :=
  (forall k', smap st' k' = if beqb k' k then v else smap st k') /\ spend st' = spend st /\ scas st' = c /\ snow st' = snow st.
Definition new_entry (st : cache) (k v : bytes) (f : N) (e : Z) (st' : cache) : Prop :=
  exists c, (scas st < c)%N /\ entry_set st k (Some (mkEntry v f e c false)) c st'.
Definition same_cache (st st' : cache) : Prop :=
  (forall k, smap st' k = smap st k) /\ spend st' = spend st /\ scas st' = scas st /\ snow st' = snow st.

Definition answers (st : cache) (r : kreq) (data tail : bytes) (t : bytes) (st' : cache) : Prop :=
  match r with
  | RGet cas keys =>
      same_cache st st' /\
      t = List.concat (map (fun k => match slook st k with
                                     | Some e => if e_coll e then [] else value_line cas k e
                                     | None => []
                                     end) keys) ++ txt "END"
  | RStore kind k f e n c =>
      (t = txt "SERVER_ERROR out of memory storing object" /\
         match kind with
         | KvModel.KSet =>                    (* the old value is removed *)
             match slook st k with Some _ => entry_set st k None (scas st) st' | None => same_cache st st' end
         | _ => same_cache st st'
         end) \/
      (t = txt "CLIENT_ERROR bad data chunk" /\ (forall v, data <> v ++ line_end) /\ same_cache st st') \/
      (exists v, data = v ++ line_end /\
        match slook st k with
        | Some x =>
            if e_coll x then t = txt "TYPE_MISMATCH" /\ same_cache st st'
            else match kind with
                 | KvModel.KSet | KvModel.KReplace => t = txt "STORED" /\ new_entry st k v f (expiry st e) st'
                 | KvModel.KAdd => t = txt "NOT_STORED" /\ same_cache st st'
                 | KvModel.KCas => (c = e_cas x /\ t = txt "STORED" /\ new_entry st k v f (expiry st e) st') \/
                                   (c <> e_cas x /\ t = txt "EXISTS" /\ same_cache st st')
                 | KvModel.KAppend => (t = txt "NOT_STORED" /\ same_cache st st') (* memory *) \/
                                      (t = txt "STORED" /\ new_entry st k (e_val x ++ v) (e_flags x) (e_exp x) st')
                 | KvModel.KPrepend => (t = txt "NOT_STORED" /\ same_cache st st') \/
                                       (t = txt "STORED" /\ new_entry st k (v ++ e_val x) (e_flags x) (e_exp x) st')
                 end
        | None =>
            match kind with
            | KvModel.KSet | KvModel.KAdd =>
                (t = txt "STORED" /\ new_entry st k v f (expiry st e) st') \/
                (t = txt "CLIENT_ERROR invalid prefix name" /\ bad_prefix_name k /\ same_cache st st')
            | KvModel.KCas => t = txt "NOT_FOUND" /\ same_cache st st'
            | _ => t = txt "NOT_STORED" /\ same_cache st st'
            end
        end)
  | RArith incr k d ini =>
      match slook st k with
      | Some x =>
          if e_coll x then t = txt "TYPE_MISMATCH" /\ same_cache st st'
          else (t = txt "SERVER_ERROR out of memory" /\ same_cache st st') \/
               (t = txt "CLIENT_ERROR cannot increment or decrement non-numeric value" /\
                (forall v, ~ reads_as (e_val x ++ line_end ++ tail) v) /\ same_cache st st') \/
               (exists v, reads_as (e_val x ++ line_end ++ tail) v /\ t = dec_text (arith incr v d) /\
                  new_entry st k (dec_text (arith incr v d)) (e_flags x) (e_exp x) st')
      | None =>
          match ini with
          | None => t = txt "NOT_FOUND" /\ same_cache st st'
          | Some (f, e, i) =>
              (t = txt "SERVER_ERROR out of memory" /\ same_cache st st') \/
              (t = txt "CLIENT_ERROR invalid prefix name" /\ bad_prefix_name k /\ same_cache st st') \/
              (t = dec_text i /\ new_entry st k (dec_text i) f (expiry st e) st')
          end
      end
  | RDelete k =>
      match slook st k with
      | Some _ => t = txt "DELETED" /\ entry_set st k None (scas st) st'
      | None => t = txt "NOT_FOUND" /\ same_cache st st'
      end
  | RTouch k e =>
      match slook st k with
      | Some x =>
          if Bool.eqb (Z.eqb (e_exp x) 4294967295) (Z.eqb e (-1))
          then t = txt "TOUCHED" /\ entry_set st k (Some (mkEntry (e_val x) (e_flags x) (expiry st e) (e_cas x) (e_coll x))) (scas st) st'
          else t = txt "CLIENT_ERROR bad value" /\ same_cache st st'
      | None => t = txt "NOT_FOUND" /\ same_cache st st'
      end
  | RFlushAll _ | RFlushPrefix _ _ => False
  end.

(* the data block has the length that was announced, plus CR LF; the part of the key in front of a colon is
   shorter than 256 bytes; flushes are the matter of C05 *)
Definition short_prefix (k : bytes) : Prop := forall q, has_prefix k (Some q) -> (List.length q < 256)%nat.
Definition plain (r : kreq) (data : bytes) : Prop :=
  match r with
  | RStore _ k _ _ n _ => Z.of_nat (List.length data) = (n + 2)%Z /\ short_prefix k
  | RArith _ k _ _ => short_prefix k
  | RFlushAll _ | RFlushPrefix _ _ => False
  | _ => True
  end.
Definition plain_event (e : event) : Prop :=
  match e with
  | Wait _ => True
  | Line toks data _ _ _ => forall r q, says toks r q \/ ignores toks r q -> plain r data
  end.
Fixpoint waits (l : list event) : Z :=
  match l with [] => 0%Z | Wait d :: r => (Z.of_nat d + waits r)%Z | _ :: r => waits r end.

(* one exchange: a line that is a request is answered, unless it says noreply; another line of these
   commands changes nothing and is answered with an error *)
Definition error_reply (t : bytes) : Prop := exists u, t = txt "CLIENT_ERROR " ++ u.
Definition reply_is (q : bool) (t : bytes) (o : option bytes) : Prop := o = if q then None else Some (t ++ line_end).
Inductive exchange : cache -> event -> option bytes -> cache -> Prop :=
| x_wait st d st' : (forall k, smap st' k = smap st k) -> spend st' = spend st -> scas st' = scas st ->
    snow st' = (snow st + Z.of_nat d)%Z -> exchange st (Wait d) None st'
| x_request st toks data o1 o2 tail r q t o st' : says toks r q -> answers st r data tail t st' -> reply_is q t o ->
    exchange st (Line toks data o1 o2 tail) o st'
| x_ignored st toks data o1 o2 tail r q t o st' : ignores toks r q -> answers st r data tail t st' -> reply_is q t o ->
    exchange st (Line toks data o1 o2 tail) o st'
| x_error st toks data o1 o2 tail t q o st' : (forall r b, ~ says toks r b) -> error_reply t -> (q = true -> last toks [] = txt "noreply") -> reply_is q t o -> same_cache st st' ->
    exchange st (Line toks data o1 o2 tail) o st'
| x_other st toks data o1 o2 tail : ~ ours toks -> (forall r b, ~ says toks r b) -> exchange st (Line toks data o1 o2 tail) None st.
Inductive dialogue : cache -> list event -> list (option bytes) -> cache -> Prop :=
| dl_nil st : dialogue st [] [] st
| dl_cons st e o st1 l os st2 : exchange st e o st1 -> dialogue st1 l os st2 -> dialogue st (e :: l) (o :: os) st2.
End Answers.
