(* Model of the argument parsing of the collection commands of /repo/memcached.c: bkeys,
   eflags, ranges, element flag filters, creation attributes (10479-10536, 10780-10797,
   12056-12239) and of the command functions process_lop_command (10799-10936),
   process_sop_command (11148-11300), process_mop_command (12359-12599) and
   process_bop_command (12601-13197), up to the point where the request is handed over.

   A token is the list of its bytes before the NUL which the tokenizer puts behind it.  The
   list [toks] holds the tokens of the line without the empty token at the end, so that
   ntokens = S (length toks); reading tokens[i] behind the last one would follow a NULL
   pointer and is the result [Fault].  (The tokenizer stops after MAX_TOKENS = 30 tokens;
   every line with more than 14 is refused before, 13652-13666.)  The check of the user's rights
   (check_ascii_auth, only with SASL) is left out.

   The element flag filter is parsed into a structure inside the connection, which keeps
   its contents from command to command (memcached.h 338).  It is modelled as memory: a
   function from the byte offset in the structure to the byte, see [A_BITW] ff. *)
From Coq Require Import String Ascii.
From Verif Require Import Base UtilModel ArgTypes.
From Coq Require Import List ZArith NArith Lia.
Local Open Scope nat_scope.
Local Open Scope list_scope.

(* ---- what a line may lead to ---- *)
Inductive refusal :=
| Bad        (* CLIENT_ERROR bad command line format *)
| BadValue (swallow : N) (* CLIENT_ERROR bad value, then [swallow] bytes are skipped *)
| LongField  (* CLIENT_ERROR too long field name *)
| ManyCount  (* CLIENT_ERROR invalid: too many count *)
| LargeCount (* CLIENT_ERROR too large count value *)
| NoCommand  (* not one of these commands: the dispatcher goes on (13668 ff) *)
| Fault.     (* a NULL pointer is followed *)
Inductive res (A : Type) := Got (a : A) | No (r : refusal).
Arguments Got {A} a.
Arguments No {A} r.

Definition bind {A B} (x : res A) (f : A -> res B) : res B :=
  match x with Got a => f a | No r => No r end.
Notation "x <- e ;; k" := (bind e (fun x => k)) (at level 61, e at next level, right associativity).
Definition opt {A} (o : option A) : res A := match o with Some a => Got a | None => No Bad end.
Definition guard (b : bool) : res unit := if b then Got tt else No Bad.

(* tokens[i].value *)
Definition tk (toks : list bytes) (i : nat) : res bytes :=
  match nth_error toks i with Some t => Got t | None => No Fault end.
(* &tokens[i], used for n tokens *)
Definition slice (toks : list bytes) (i n : nat) : list bytes := firstn n (skipn i toks).

(* ---- bkeys, eflags, ranges ---- *)
Definition MAX_BKEY_LENG : N := 31.   (* include/memcached/types.h 291-296 *)
Definition MAX_EFLAG_LENG : N := 31.
Definition MAX_FIELD_LENG : N := 250.
Definition MAX_EFLAG_COMPARE_COUNT : N := 100.
Definition KEY_MAX_LENGTH : N := 16000. (* memcached.h 48 *)

(* strncmp(str, "0x", 2) == 0 *)
Definition is0x (s : bytes) : bool :=
  match s with
  | c1 :: c2 :: _ => N.eqb c1 48 && N.eqb c2 120
  | _ => false
  end.
Definition drop2 (s : bytes) : bytes := skipn 2 s.

(* memcached.c 12056-12068 get_bkey_from_str.  The length returned and the bytes stored are
   one value here: length 0 means the 64 bit number, any other length so many bytes
   (safe_strtohexa refuses an empty text, so that the two cannot be confused). *)
Definition get_bkey_from_str (s : bytes) : option bkey :=
  if is0x s then
    match safe_strtohexa (drop2 s) MAX_BKEY_LENG with
    | Some b => Some (BHex b)
    | None => None
    end
  else match safe_strtoull s with
       | Some n => Some (BInt n)
       | None => None
       end.

(* memcached.c 12070-12078 get_eflag_from_str *)
Definition get_eflag_from_str (s : bytes) : option bytes :=
  if is0x s then safe_strtohexa (drop2 s) MAX_EFLAG_LENG else None.

(* strstr(str, ".."): the text before the first "..", and the text behind it *)
Fixpoint cut_dots (s : bytes) : option (bytes * bytes) :=
  match s with
  | [] => None
  | c :: s' =>
      match s' with
      | d :: s'' =>
          if N.eqb c 46 && N.eqb d 46 then Some ([], s'')
          else match cut_dots s' with
               | Some (a, b) => Some (c :: a, b)
               | None => None
               end
      | [] => None
      end
  end.

(* memcached.c 12080-12114 get_bkey_range_from_str *)
Definition get_bkey_range_from_str (s : bytes) : option range :=
  match cut_dots s with
  | Some (str, nxt) =>
      if is0x str && is0x nxt then
        match safe_strtohexa (drop2 str) MAX_BKEY_LENG with
        | None => None
        | Some a =>
            match safe_strtohexa (drop2 nxt) MAX_BKEY_LENG with
            | None => None
            | Some b => Some (Range (BHex a) (BHex b))
            end
        end
      else
        match safe_strtoull str with
        | None => None
        | Some a =>
            match safe_strtoull nxt with
            | None => None
            | Some b => Some (Range (BInt a) (BInt b))
            end
        end
  | None =>
      if is0x s then
        match safe_strtohexa (drop2 s) MAX_BKEY_LENG with
        | None => None
        | Some a => Some (Single (BHex a))
        end
      else
        match safe_strtoull s with
        | None => None
        | Some a => Some (Single (BInt a))
        end
  end.

(* the callers which need one bkey test to_nbkey != BKEY_NULL (12721, 12871, 13110, 13133) *)
Definition single (r : range) : option bkey :=
  match r with Single b => Some b | Range _ _ => None end.

(* memcached.c 12116-12133 get_position_range_from_str *)
Definition get_position_range_from_str (s : bytes) : option (N * N) :=
  match cut_dots s with
  | Some (str, nxt) =>
      match safe_strtoul str with
      | None => None
      | Some a => match safe_strtoul nxt with None => None | Some b => Some (a, b) end
      end
  | None => match safe_strtoul s with None => None | Some a => Some (a, a) end
  end.

(* memcached.c 10780-10797 get_list_range_from_str *)
Definition get_list_range_from_str (s : bytes) : option (Z * Z) :=
  match cut_dots s with
  | Some (str, nxt) =>
      match safe_strtol str with
      | None => None
      | Some a => match safe_strtol nxt with None => None | Some b => Some (a, b) end
      end
  | None => match safe_strtol s with None => None | Some a => Some (a, a) end
  end.

(* memcached.c 12135-12150 get_compare_op_from_str; 6 is COMPARE_OP_MAX *)
Definition get_compare_op_from_str (s : bytes) : N :=
  match s with
  | [a; b] =>
      if N.eqb a 69 && N.eqb b 81 then 0%N       (* EQ *)
      else if N.eqb a 78 && N.eqb b 69 then 1%N  (* NE *)
      else if N.eqb a 76 then                    (* L *)
        if N.eqb b 84 then 2%N else if N.eqb b 69 then 3%N else 6%N
      else if N.eqb a 71 then                    (* G *)
        if N.eqb b 84 then 4%N else if N.eqb b 69 then 5%N else 6%N
      else 6%N
  | _ => 6%N
  end.

(* memcached.c 12152-12160 get_bitwise_op_from_str; 3 is BITWISE_OP_MAX *)
Definition get_bitwise_op_from_str (s : bytes) : N :=
  match s with
  | [a] => if N.eqb a 38 then 0%N else if N.eqb a 124 then 1%N else if N.eqb a 94 then 2%N else 3%N
  | _ => 3%N
  end.

(* ---- the eflag filter ---- *)
(* eflag_filter, include/memcached/types.h 338-347: bitwval[31], compval[31 * 100], then six
   fields of one byte; all members are bytes, so there is no padding.  The addresses from
   [A_END] on belong to the member coll_eupdate of the connection (memcached.h 339). *)
Definition mem := N -> N.
Definition A_BITW : N := 0.
Definition A_COMP : N := 31.
Definition A_NBITW : N := 3131.
Definition A_NCOMP : N := 3132.
Definition A_CNT : N := 3133.
Definition A_OFF : N := 3134.
Definition A_BITWOP : N := 3135.
Definition A_COMPOP : N := 3136.
Definition A_END : N := 3137.

(* one byte member assigned *)
Definition put (m : mem) (a v : N) : mem := fun i => if N.eqb i a then (v mod 256)%N else m i.
(* bytes written from address a on *)
Definition store (m : mem) (a : N) (bs : bytes) : mem :=
  fun i => if (N.leb a i && N.ltb i (a + N.of_nat (length bs)))%bool
           then nth (N.to_nat (i - a)) bs 0%N else m i.
(* n bytes read from address a on *)
Definition load (m : mem) (a n : N) : bytes :=
  map (fun k => m (a + N.of_nat k)%N) (seq 0 (N.to_nat n)).

(* the bytes safe_strtohexa (util.c 127-147) writes, also when it returns false: it writes
   pair by pair, and the first half of a pair before it looks at the second *)
Fixpoint hex_stored (s : bytes) : bytes :=
  match s with
  | c1 :: c2 :: s' =>
      match hexval c1 with
      | None => []
      | Some h => match hexval c2 with
                  | None => [h]
                  | Some l => ((N.shiftl h 4 + l) mod 256)%N :: hex_stored s'
                  end
      end
  | _ => []
  end.
Definition eflag_stored (s : bytes) : bytes :=
  if is0x s then
    let t := drop2 s in
    let slen := N.of_nat (length t) in
    if (N.eqb slen 0 || N.ltb (2 * MAX_EFLAG_LENG) slen || negb (N.eqb (slen mod 2) 0))%bool then []
    else hex_stored t
  else [].

(* strtok_r(.., ","): the non-empty pieces between the commas *)
Fixpoint pieces_from (cur : bytes) (s : bytes) : list bytes :=
  match s with
  | [] => match cur with [] => [] | _ => [rev cur] end
  | c :: s' =>
      if N.eqb c 44 then
        match cur with [] => pieces_from [] s' | _ => rev cur :: pieces_from [] s' end
      else pieces_from (c :: cur) s'
  end.
Definition pieces (s : bytes) : list bytes := pieces_from [] s.

(* the loop of get_efilter_from_tokens over the compare values, memcached.c 12198-12217; the
   memory is returned together with the verdict *)
Fixpoint efilter_loop (offset : N) (m : mem) (ps : list bytes) : mem * bool :=
  match ps with
  | [] => (m, true)
  | p :: ps' =>
      let m1 := store m (A_COMP + m A_CNT * m A_NCOMP) (eflag_stored p) in
      let length := get_eflag_from_str p in
      let m2 := put m1 A_CNT (m1 A_CNT + 1) in
      if N.ltb MAX_EFLAG_COMPARE_COUNT (m2 A_CNT) then (m2, false)
      else if N.eqb (m2 A_CNT) 1 then
        match length with
        | None => (m2, false)
        | Some v =>
            let l := N.of_nat (List.length v) in
            if N.ltb MAX_EFLAG_LENG (offset + l) then (m2, false)
            else if (N.ltb 0 (m2 A_NBITW) && negb (N.eqb l (m2 A_NBITW)))%bool then (m2, false)
            else efilter_loop offset (put m2 A_NCOMP l) ps'
        end
      else
        match length with
        | None => (m2, false)
        | Some v =>
            if N.eqb (N.of_nat (List.length v)) (m2 A_NCOMP) then efilter_loop offset m2 ps'
            else (m2, false)
        end
  end.

(* memcached.c 12186-12238: the part behind the bitwise operation, [tc] is token_count *)
Definition efilter_comp (offset : N) (m : mem) (toks : list bytes) (tc : nat) : mem * res nat :=
  match tk toks tc with
  | No r => (m, No r)
  | Got c =>
      let op := get_compare_op_from_str c in
      let m := put m A_COMPOP op in
      if N.eqb op 6 then (m, No Bad)
      else
        match tk toks (tc + 1) with
        | No r => (m, No r)
        | Got v =>
            if (N.eqb op 0 || N.eqb op 1)%bool then
              let '(m', ok) := efilter_loop offset (put m A_CNT 0) (pieces v) in
              (m', if ok then Got (tc + 2) else No Bad)
            else
              let m := store m A_COMP (eflag_stored v) in
              match get_eflag_from_str v with
              | None => (m, No Bad)
              | Some b =>
                  let l := N.of_nat (List.length b) in
                  if N.ltb MAX_EFLAG_LENG (offset + l) then (m, No Bad)
                  else if (N.ltb 0 (m A_NBITW) && negb (N.eqb l (m A_NBITW)))%bool then (m, No Bad)
                  else (put (put m A_NCOMP l) A_CNT 1, Got (tc + 2))
              end
        end
  end.

(* memcached.c 12162-12239 get_efilter_from_tokens; the number of tokens used, 0 when there is
   no filter.  (uint8_t)offset, bitwop, compop: the values fit into a byte. *)
Definition get_efilter_from_tokens (m : mem) (toks : list bytes) : mem * res nat :=
  let n := List.length toks in
  if (Nat.leb 3 n && match nth_error toks 2 with Some t => is0x t | None => false end)%bool then
    match tk toks 0 with
    | No r => (m, No r)
    | Got t0 =>
        match safe_strtoul t0 with
        | None => (m, No Bad)
        | Some offset =>
            if N.leb MAX_EFLAG_LENG offset then (m, No Bad)
            else
              let m := put m A_OFF offset in
              if (Nat.leb 5 n && match nth_error toks 4 with Some t => is0x t | None => false end)%bool then
                match tk toks 1 with
                | No r => (m, No r)
                | Got t1 =>
                    let op := get_bitwise_op_from_str t1 in
                    let m := put m A_BITWOP op in
                    if N.eqb op 3 then (m, No Bad)
                    else
                      match tk toks 2 with
                      | No r => (m, No r)
                      | Got t2 =>
                          let m := store m A_BITW (eflag_stored t2) in
                          match get_eflag_from_str t2 with
                          | None => (m, No Bad)
                          | Some b => efilter_comp offset (put m A_NBITW (N.of_nat (List.length b))) toks 3
                          end
                      end
                end
              else efilter_comp offset (put m A_NBITW 0) toks 1
        end
    end
  else (put m A_NCOMP 0, Got 0).

(* what do_btree_elem_filter (engines/default/coll_btree.c 1028-1056) reads from the structure *)
Definition read_filter (m : mem) : filt :=
  {| f_off := m A_OFF;
     f_bitw := if N.ltb 0 (m A_NBITW) then Some (m A_BITWOP, load m A_BITW (m A_NBITW)) else None;
     f_cmp := m A_COMPOP;
     f_vals := map (fun k => load m (A_COMP + N.of_nat k * m A_NCOMP) (m A_NCOMP))
                   (seq 0 (N.to_nat (m A_CNT))) |}.
(* c->coll_efilter.ncompval == 0 ? NULL : &c->coll_efilter *)
Definition filter_arg (m : mem) : option filt :=
  if N.eqb (m A_NCOMP) 0 then None else Some (read_filter m).

(* ---- creation attributes ---- *)
(* memcached.c 10507-10524: the overflow action, None when it stays undefined *)
Definition get_ovfl (t : ctype) (s : bytes) : option ovfl :=
  if beqb s (txt "error") then Some OError
  else match t with
       | TList =>
           if beqb s (txt "head_trim") then Some OHeadTrim
           else if beqb s (txt "tail_trim") then Some OTailTrim
           else None
       | TBtree =>
           if beqb s (txt "smallest_trim") then Some OSmallest
           else if beqb s (txt "largest_trim") then Some OLargest
           else if beqb s (txt "smallest_silent_trim") then Some OSmallestSilent
           else if beqb s (txt "largest_silent_trim") then Some OLargestSilent
           else None
       | _ => None
       end.

(* memcached.c 10479-10541 get_coll_create_attr_from_tokens; a_exptime is the number given,
   before realtime(), and a_flags before htonl() *)
Definition create_attr (t : ctype) (toks : list bytes) : res attr :=
  let n := List.length toks in
  if (Nat.ltb n 1 || Nat.ltb 5 n)%bool then No Bad
  else
    t0 <- tk toks 0 ;; flags <- opt (safe_strtoul t0) ;;
    exptime <- (if Nat.leb 2 n then t1 <- tk toks 1 ;; opt (safe_strtoll t1) else Got 0%Z) ;;
    maxcount <- (if Nat.leb 3 n then t2 <- tk toks 2 ;; opt (safe_strtol t2) else Got 0%Z) ;;
    if Nat.leb 4 n then
      t3 <- tk toks 3 ;;
      match get_ovfl t t3 with
      | Some o =>
          if Nat.eqb n 5 then
            t4 <- tk toks 4 ;; _ <- guard (beqb t4 (txt "unreadable")) ;;
            Got {| a_flags := flags; a_exptime := exptime; a_maxcount := maxcount;
                   a_ovfl := Some o; a_readable := false |}
          else
            Got {| a_flags := flags; a_exptime := exptime; a_maxcount := maxcount;
                   a_ovfl := Some o; a_readable := true |}
      | None =>
          if Nat.eqb n 5 then No Bad
          else
            _ <- guard (beqb t3 (txt "unreadable")) ;;
            Got {| a_flags := flags; a_exptime := exptime; a_maxcount := maxcount;
                   a_ovfl := None; a_readable := false |}
      end
    else
      Got {| a_flags := flags; a_exptime := exptime; a_maxcount := maxcount;
             a_ovfl := None; a_readable := true |}.

(* ---- the parts common to the commands ---- *)
(* tokens[ntokens-2].value *)
Definition last_token (toks : list bytes) : res bytes := tk toks (List.length toks - 1).

(* set_pipe_noreply_maybe, set_noreply_maybe, set_pipe_maybe: memcached.c 7951-8014.  That
   the first "pipe" also switches the pipe on is not part of this model. *)
Definition pipe_noreply (toks : list bytes) : res mode :=
  t <- last_token toks ;;
  Got (if beqb t (txt "noreply") then NoReply else if beqb t (txt "pipe") then Pipe else Reply).
Definition noreply_only (toks : list bytes) : res mode :=
  t <- last_token toks ;; Got (if beqb t (txt "noreply") then NoReply else Reply).
Definition pipe_only (toks : list bytes) : res mode :=
  t <- last_token toks ;; Got (if beqb t (txt "pipe") then Pipe else Reply).
(* c->noreply *)
Definition quiet (m : mode) : bool := match m with Reply => false | _ => true end.
(* int post_ntokens = 1 + (c->noreply ? 1 : 0); rest_ntokens = ntokens - read_ntokens - post_ntokens *)
Definition rest_of (toks : list bytes) (rd : nat) (quiet : bool) : Z :=
  (Z.of_nat (S (List.length toks)) - Z.of_nat rd - (1 + (if quiet then 1 else 0)))%Z.

Definition INT_MAX : Z := 2147483647.
(* safe_strtol(.., &vlen) and vlen < 0 || vlen > (INT_MAX-2) *)
Definition get_vlen (s : bytes) : res Z :=
  v <- opt (safe_strtol s) ;;
  _ <- guard (Z.leb 0 v && Z.leb v (INT_MAX - 2)) ;; Got v.

(* the optional "create" part of the insert commands, 10837-10855, 11183-11201, 12400-12418,
   12667-12685 *)
Definition create_part (t : ctype) (toks : list bytes) (rd : nat) (rest : Z) : res (option attr) :=
  if Z.leb 2 rest then
    c <- tk toks rd ;; _ <- guard (beqb c (txt "create")) ;;
    a <- create_attr t (slice toks (rd + 1) (Z.to_nat (rest - 1))) ;; Got (Some a)
  else _ <- guard (Z.eqb rest 0) ;; Got None.

(* the create commands, 10864-10880, 11210-11226, 12427-12443, 12694-12711 *)
Definition create_cmd (t : ctype) (toks : list bytes) (key : bytes) : res req :=
  m <- noreply_only toks ;;
  a <- create_attr t (slice toks 3 (Z.to_nat (rest_of toks 3 (quiet m)))) ;;
  Got (Create t key a m).

(* delete / drop behind a get command *)
Definition take_word (s : bytes) : res take :=
  if beqb s (txt "delete") then Got Delete
  else if beqb s (txt "drop") then Got Drop else No Bad.

(* the drop / noreply tokens of lop delete and sop delete, 10892-10902, 11243-11253 *)
Definition drop_part (toks : list bytes) (m : mode) : res bool :=
  let nt := S (List.length toks) in
  if Nat.leb 6 nt then
    d <- (if (Nat.eqb nt 7 || negb (quiet m))%bool
          then t <- tk toks 4 ;; Got (beqb t (txt "drop")) else Got false) ;;
    if ((Nat.eqb nt 6 && (negb (quiet m) && negb d)) ||
        (Nat.eqb nt 7 && (negb (quiet m) || negb d)))%bool then No Bad else Got d
  else Got false.

(* ---- lop ---- *)
(* memcached.c 10799-10936 process_lop_command behind the checks of the key *)
Definition lop_cmd (toks : list bytes) (sub key : bytes) : res req :=
  let nt := S (List.length toks) in
  if (Nat.leb 6 nt && Nat.leb nt 13 && beqb sub (txt "insert"))%bool then
    m <- pipe_noreply toks ;;
    t3 <- tk toks 3 ;; index <- opt (safe_strtol t3) ;;
    t4 <- tk toks 4 ;; vlen <- get_vlen t4 ;;
    cr <- create_part TList toks 5 (rest_of toks 5 (quiet m)) ;;
    Got (LInsert key index vlen cr m)
  else if (Nat.leb 7 nt && Nat.leb nt 10 && beqb sub (txt "create"))%bool then
    create_cmd TList toks key
  else if (Nat.leb 5 nt && Nat.leb nt 7 && beqb sub (txt "delete"))%bool then
    m <- pipe_noreply toks ;;
    t3 <- tk toks 3 ;; r <- opt (get_list_range_from_str t3) ;;
    d <- drop_part toks m ;;
    Got (LDelete key (fst r) (snd r) d m)
  else if ((Nat.eqb nt 5 || Nat.eqb nt 6) && beqb sub (txt "get"))%bool then
    t3 <- tk toks 3 ;; r <- opt (get_list_range_from_str t3) ;;
    t <- (if Nat.eqb nt 6 then t4 <- tk toks 4 ;; take_word t4 else Got Keep) ;;
    Got (LGet key (fst r) (snd r) t)
  else No Bad.

(* ---- sop ---- *)
Definition MAX_SOP_GET_COUNT : N := 1000. (* memcached.h 88 *)

(* memcached.c 11148-11303 process_sop_command behind the checks of the key *)
Definition sop_cmd (toks : list bytes) (sub key : bytes) : res req :=
  let nt := S (List.length toks) in
  if (Nat.leb 5 nt && Nat.leb nt 12 && beqb sub (txt "insert"))%bool then
    m <- pipe_noreply toks ;;
    t3 <- tk toks 3 ;; vlen <- get_vlen t3 ;;
    cr <- create_part TSet toks 4 (rest_of toks 4 (quiet m)) ;;
    Got (SInsert key vlen cr m)
  else if (Nat.leb 7 nt && Nat.leb nt 10 && beqb sub (txt "create"))%bool then
    create_cmd TSet toks key
  else if (Nat.leb 5 nt && Nat.leb nt 7 && beqb sub (txt "delete"))%bool then
    m <- pipe_noreply toks ;;
    t3 <- tk toks 3 ;; vlen <- get_vlen t3 ;;
    d <- drop_part toks m ;;
    Got (SDelete key vlen d m)
  else if ((Nat.eqb nt 5 || Nat.eqb nt 6) && beqb sub (txt "exist"))%bool then
    m <- pipe_only toks ;;
    t3 <- tk toks 3 ;; vlen <- get_vlen t3 ;;
    Got (SExist key vlen m)
  else if ((Nat.eqb nt 5 || Nat.eqb nt 6) && beqb sub (txt "get"))%bool then
    t3 <- tk toks 3 ;; count <- opt (safe_strtoul t3) ;;
    if N.ltb MAX_SOP_GET_COUNT count then No ManyCount
    else
      t <- (if Nat.eqb nt 6 then t4 <- tk toks 4 ;; take_word t4 else Got Keep) ;;
      Got (SGet key count t)
  else No Bad.

(* ---- mop ---- *)
Definition UINT_MAX : N := 4294967295.
(* lenfields and numfields of mop delete and mop get, 12489-12507, 12557-12575; the product is
   computed in 32 bits; [max_map] is settings.max_map_size *)
Definition field_counts (max_map : N) (toks : list bytes) : res (N * N) :=
  t3 <- tk toks 3 ;; lenf <- opt (safe_strtoul t3) ;;
  t4 <- tk toks 4 ;; numf <- opt (safe_strtoul t4) ;;
  _ <- guard (negb (N.ltb (UINT_MAX - 2) lenf ||
                    ((N.eqb lenf 0 || N.eqb numf 0) && negb (N.eqb lenf numf)))) ;;
  if (N.ltb 0 numf &&
      (N.ltb (((numf * MAX_FIELD_LENG) mod two32 + numf + (two32 - 1)) mod two32) lenf ||
       N.ltb max_map numf || N.ltb (lenf / 2 + 1) numf))%bool
  then No (BadValue (lenf + 2)) else Got (lenf, numf).

(* memcached.c 12359-12599 process_mop_command behind the checks of the key *)
Definition mop_cmd (max_map : N) (toks : list bytes) (sub key : bytes) : res req :=
  let nt := S (List.length toks) in
  if (Nat.leb 6 nt && Nat.leb nt 13 && (beqb sub (txt "insert") || beqb sub (txt "upsert")))%bool then
    m <- pipe_noreply toks ;;
    field <- tk toks 3 ;;
    if N.ltb MAX_FIELD_LENG (N.of_nat (List.length field)) then No LongField
    else
      t4 <- tk toks 4 ;; vlen <- get_vlen t4 ;;
      cr <- create_part TMap toks 5 (rest_of toks 5 (quiet m)) ;;
      Got (MInsert (beqb sub (txt "upsert")) key field vlen cr m)
  else if (Nat.leb 7 nt && Nat.leb nt 10 && beqb sub (txt "create"))%bool then
    create_cmd TMap toks key
  else if (Nat.leb 6 nt && Nat.leb nt 7 && beqb sub (txt "update"))%bool then
    m <- pipe_noreply toks ;;
    field <- tk toks 3 ;;
    if N.ltb MAX_FIELD_LENG (N.of_nat (List.length field)) then No LongField
    else
      t4 <- tk toks 4 ;; vlen <- get_vlen t4 ;;
      Got (MUpdate key field vlen m)
  else if (Nat.leb 6 nt && Nat.leb nt 8 && beqb sub (txt "delete"))%bool then
    m <- pipe_noreply toks ;;
    ln <- field_counts max_map toks ;;
    d <- (if Z.ltb 0 (rest_of toks 5 (quiet m))
          then t5 <- tk toks 5 ;; _ <- guard (beqb t5 (txt "drop")) ;; Got true
          else Got false) ;;
    Got (MDelete key (fst ln) (snd ln) d m)
  else if (Nat.leb 6 nt && Nat.leb nt 7 && beqb sub (txt "get"))%bool then
    ln <- field_counts max_map toks ;;
    t <- (if Nat.eqb nt 7 then t5 <- tk toks 5 ;; take_word t5 else Got Keep) ;;
    Got (MGet key (fst ln) (snd ln) t)
  else No Bad.

(* ---- bop ---- *)
(* memcached.c 12624-12692 bop insert, bop upsert *)
Definition bop_insert (upsert : bool) (toks : list bytes) (key : bytes) : res req :=
  let nt := S (List.length toks) in
  m <- pipe_noreply toks ;;
  lt <- last_token toks ;;
  let getrim := (negb (quiet m) && beqb lt (txt "getrim"))%bool in
  t3 <- tk toks 3 ;;
  let nbkey := get_bkey_from_str t3 in
  er <- (if Nat.ltb 6 nt then
           t4 <- tk toks 4 ;;
           Got (if is0x t4 then (get_eflag_from_str t4, 5) else (Some [], 4))
         else Got (Some [], 4)) ;;
  bk <- opt nbkey ;; ef <- opt (fst er) ;;
  let rd := snd er in
  tv <- tk toks rd ;; vlen <- get_vlen tv ;;
  cr <- create_part TBtree toks (rd + 1) (rest_of toks (rd + 1) (quiet m || getrim)) ;;
  Got (BInsert upsert key bk ef vlen cr getrim m).

(* one bkey: get_bkey_range_from_str and to_nbkey == BKEY_NULL *)
Definition one_bkey (s : bytes) : res bkey :=
  r <- opt (get_bkey_range_from_str s) ;; opt (single r).

(* memcached.c 12713-12796 bop update; vlen -1 stands for no new value.  u_flag is empty when
   the eflag token is the number 0. *)
Definition bop_update (toks : list bytes) (key : bytes) : res req :=
  m <- pipe_noreply toks ;;
  t3 <- tk toks 3 ;; bk <- one_bkey t3 ;;
  let rest := rest_of toks 4 (quiet m) in
  p <- (if Z.ltb 1 rest then
          q <- (if Z.ltb 2 rest then
                  t4 <- tk toks 4 ;; off <- opt (safe_strtoul t4) ;;
                  _ <- guard (N.ltb off MAX_EFLAG_LENG) ;;
                  t5 <- tk toks 5 ;;
                  let op := get_bitwise_op_from_str t5 in
                  _ <- guard (negb (N.eqb op 3)) ;;
                  Got (Some (off, op), 6, (rest - 2)%Z)
                else Got (None, 4, rest)) ;;
          let '(part, rd, rest) := q in
          te <- tk toks rd ;;
          fl <- (if is0x te then opt (get_eflag_from_str te)
                 else l <- opt (safe_strtol te) ;; _ <- guard (Z.eqb l 0) ;; Got []) ;;
          Got (Some {| u_part := part; u_flag := fl |}, S rd, (rest - 1)%Z)
        else Got (None, 4, rest)) ;;
  let '(u, rd, rest) := p in
  _ <- guard (Z.eqb rest 1) ;;
  tv <- tk toks rd ;; vlen <- opt (safe_strtol tv) ;;
  _ <- guard (Z.leb (-1) vlen && Z.leb vlen (INT_MAX - 2)) ;;
  Got (BUpdate key bk u vlen m).

(* memcached.c 12797-12853 bop delete *)
Definition bop_delete (st : mem) (toks : list bytes) (key : bytes) : mem * res req :=
  match (m <- pipe_noreply toks ;; t3 <- tk toks 3 ;;
         r <- opt (get_bkey_range_from_str t3) ;; Got (m, r)) with
  | No e => (st, No e)
  | Got (m, r) =>
      let rest := rest_of toks 4 (quiet m) in
      let '(st, used) :=
        if Z.leb 3 rest then get_efilter_from_tokens st (slice toks 4 (Z.to_nat rest))
        else (put st A_NCOMP 0, Got 0) in
      (st,
       used <- used ;;
       let rd := 4 + used in
       let rest := (rest - Z.of_nat used)%Z in
       d <- (if Z.ltb 0 rest then
               t <- tk toks (rd + Z.to_nat rest - 1) ;;
               Got (if beqb t (txt "drop") then (true, (rest - 1)%Z) else (false, rest))
             else Got (false, rest)) ;;
       let '(drop, rest) := d in
       count <- (if Z.ltb 0 rest then
                   _ <- guard (negb (Z.ltb 1 rest)) ;;
                   t <- tk toks rd ;; opt (safe_strtoul t)
                 else Got 0%N) ;;
       Got (BDelete key r (filter_arg st) count drop m))
  end.

(* memcached.c 12854-12912 bop incr, bop decr *)
Definition bop_arith (incr : bool) (toks : list bytes) (key : bytes) : res req :=
  m <- pipe_noreply toks ;;
  t3 <- tk toks 3 ;; bk <- one_bkey t3 ;;
  t4 <- tk toks 4 ;; delta <- opt (safe_strtoull t4) ;;
  _ <- guard (negb (N.ltb delta 1)) ;;
  let rest := rest_of toks 5 (quiet m) in
  init <- (if Z.ltb 0 rest then
             t5 <- tk toks 5 ;; initial <- opt (safe_strtoull t5) ;;
             ef <- (if Z.ltb 1 rest then
                      t6 <- tk toks 6 ;; e <- opt (get_eflag_from_str t6) ;; Got (Some e)
                    else Got None) ;;
             Got (Some (initial, ef))
           else Got None) ;;
  Got (BArith incr key bk delta init m).

(* memcached.c 12913-12974 bop get *)
Definition bop_get (st : mem) (toks : list bytes) (key : bytes) : mem * res req :=
  match (t3 <- tk toks 3 ;; opt (get_bkey_range_from_str t3)) with
  | No e => (st, No e)
  | Got r =>
      let rest := rest_of toks 4 false in
      match (if Z.leb 3 rest then t6 <- tk toks 6 ;; Got (is0x t6) else Got false) with
      | No e => (st, No e)
      | Got isf =>
          let '(st, used) :=
            if isf then get_efilter_from_tokens st (slice toks 4 (Z.to_nat rest))
            else (put st A_NCOMP 0, Got 0) in
          (st,
           used <- used ;;
           let rd := 4 + used in
           let rest := (rest - Z.of_nat used)%Z in
           d <- (if Z.ltb 0 rest then
                   t <- tk toks (rd + Z.to_nat rest - 1) ;;
                   Got (if (beqb t (txt "delete") || beqb t (txt "drop"))%bool
                        then (if Nat.eqb (List.length t) 4 then Drop else Delete, (rest - 1)%Z)
                        else (Keep, rest))
                 else Got (Keep, rest)) ;;
           let '(t, rest) := d in
           oc <- (if Z.ltb 0 rest then
                    if Z.eqb rest 1 then
                      tc <- tk toks rd ;; c <- opt (safe_strtoul tc) ;; Got (0%N, c)
                    else if Z.eqb rest 2 then
                      tf <- tk toks rd ;; o <- opt (safe_strtoul tf) ;;
                      tc <- tk toks (rd + 1) ;; c <- opt (safe_strtoul tc) ;; Got (o, c)
                    else No Bad
                  else Got (0%N, 0%N)) ;;
           Got (BGet key r (filter_arg st) (fst oc) (snd oc) t))
      end
  end.

(* memcached.c 12975-13005 bop count *)
Definition bop_count (st : mem) (toks : list bytes) (key : bytes) : mem * res req :=
  match (t3 <- tk toks 3 ;; opt (get_bkey_range_from_str t3)) with
  | No e => (st, No e)
  | Got r =>
      let rest := rest_of toks 4 false in
      let '(st, used) :=
        if Z.leb 3 rest then get_efilter_from_tokens st (slice toks 4 (Z.to_nat rest))
        else (put st A_NCOMP 0, Got 0) in
      (st,
       used <- used ;;
       _ <- guard (Z.eqb (rest - Z.of_nat used) 0) ;;
       Got (BCount key r (filter_arg st)))
  end.

(* memcached.h 92-101 *)
Definition MAX_BMGET_KEY_COUNT : N := 200.
Definition MAX_BMGET_ELM_COUNT : N := 50.
Definition MAX_SMGET_KEY_COUNT : N := 10000.
Definition MAX_SMGET_REQ_COUNT : N := 2000.

(* memcached.c 7924-7937 set_smget_mode_maybe *)
Definition smget_mode (toks : list bytes) : res smode :=
  t <- last_token toks ;;
  Got (if beqb t (txt "duplicate") then Duplicate
       else if beqb t (txt "unique") then Unique else OldMode).

(* memcached.c 13006-13104 bop mget, bop smget (JHPARK_OLD_SMGET_INTERFACE is defined); sums
   and products are computed in 32 bits; lenkeys is given before the 2 for CR LF is added *)
Definition bop_mget (smget : bool) (st : mem) (toks : list bytes) : mem * res req :=
  match (sm <- (if smget then smget_mode toks else Got OldMode) ;;
         t2 <- tk toks 2 ;; lenkeys <- opt (safe_strtoul t2) ;;
         t3 <- tk toks 3 ;; numkeys <- opt (safe_strtoul t3) ;;
         _ <- guard (negb (N.ltb (UINT_MAX - 2) lenkeys || N.eqb lenkeys 0 || N.eqb numkeys 0)) ;;
         t4 <- tk toks 4 ;; r <- opt (get_bkey_range_from_str t4) ;;
         Got (sm, lenkeys, numkeys, r)) with
  | No e => (st, No e)
  | Got (sm, lenkeys, numkeys, r) =>
      let rest := rest_of toks 5 (match sm with OldMode => false | _ => true end) in
      let '(st, used) :=
        if Z.ltb 3 rest then get_efilter_from_tokens st (slice toks 5 (Z.to_nat rest))
        else (put st A_NCOMP 0, Got 0) in
      (st,
       used <- used ;;
       let rd := 5 + used in
       let rest := (rest - Z.of_nat used)%Z in
       _ <- guard (negb (Z.ltb rest 1 || Z.ltb 2 rest)) ;;
       o <- (if Z.ltb 1 rest then t <- tk toks rd ;; o <- opt (safe_strtoul t) ;; Got (o, S rd)
             else Got (0%N, rd)) ;;
       let '(offset, rd) := o in
       tc <- tk toks rd ;; count <- opt (safe_strtoul tc) ;;
       if (N.ltb (lenkeys / 2 + 1) numkeys ||
           N.ltb (((numkeys * KEY_MAX_LENGTH) mod two32 + numkeys + (two32 - 1)) mod two32) lenkeys ||
           N.eqb count 0)%bool then No (BadValue (lenkeys + 2))
       else if smget then
         if (N.ltb MAX_SMGET_KEY_COUNT numkeys ||
             N.ltb MAX_SMGET_REQ_COUNT ((offset + count) mod two32))%bool
         then No (BadValue (lenkeys + 2))
         else Got (BSmget lenkeys numkeys r (filter_arg st) offset count sm)
       else
         if (N.ltb MAX_BMGET_KEY_COUNT numkeys || N.ltb MAX_BMGET_ELM_COUNT count)%bool
         then No (BadValue (lenkeys + 2))
         else Got (BMget lenkeys numkeys r (filter_arg st) offset count))
  end.

Definition get_order (s : bytes) : res order :=
  if beqb s (txt "asc") then Got Asc
  else if beqb s (txt "desc") then Got Desc else No Bad.

(* memcached.c 13105-13128, 13129-13166, 13167-13190: bop position, bop pwg, bop gbp *)
Definition bop_position (toks : list bytes) (key : bytes) : res req :=
  t3 <- tk toks 3 ;; bk <- one_bkey t3 ;;
  t4 <- tk toks 4 ;; o <- get_order t4 ;;
  Got (BPosition key bk o).
Definition bop_pwg (toks : list bytes) (key : bytes) : res req :=
  t3 <- tk toks 3 ;; bk <- one_bkey t3 ;;
  t4 <- tk toks 4 ;; o <- get_order t4 ;;
  count <- (if Nat.eqb (S (List.length toks)) 7 then
              t5 <- tk toks 5 ;; c <- opt (safe_strtoul t5) ;;
              if N.ltb 100 c then No LargeCount else Got c
            else Got 0%N) ;;
  Got (BPwg key bk o count).
Definition bop_gbp (toks : list bytes) (key : bytes) : res req :=
  t3 <- tk toks 3 ;; o <- get_order t3 ;;
  t4 <- tk toks 4 ;; p <- opt (get_position_range_from_str t4) ;;
  Got (BGbp key o (fst p) (snd p)).

(* memcached.c 12601-13197 process_bop_command behind the checks of the key *)
Definition bop_cmd (st : mem) (toks : list bytes) (sub key : bytes) : mem * res req :=
  let nt := S (List.length toks) in
  if (Nat.leb 6 nt && Nat.leb nt 14 && (beqb sub (txt "insert") || beqb sub (txt "upsert")))%bool then
    (st, bop_insert (beqb sub (txt "upsert")) toks key)
  else if (Nat.leb 7 nt && Nat.leb nt 10 && beqb sub (txt "create"))%bool then
    (st, create_cmd TBtree toks key)
  else if (Nat.leb 6 nt && Nat.leb nt 10 && beqb sub (txt "update"))%bool then
    (st, bop_update toks key)
  else if (Nat.leb 5 nt && Nat.leb nt 13 && beqb sub (txt "delete"))%bool then
    bop_delete st toks key
  else if (Nat.leb 6 nt && Nat.leb nt 9 && (beqb sub (txt "incr") || beqb sub (txt "decr")))%bool then
    (st, bop_arith (beqb sub (txt "incr")) toks key)
  else if (Nat.leb 5 nt && Nat.leb nt 13 && beqb sub (txt "get"))%bool then
    bop_get st toks key
  else if (Nat.leb 5 nt && Nat.leb nt 10 && beqb sub (txt "count"))%bool then
    bop_count st toks key
  else if (Nat.leb 7 nt && Nat.leb nt 14 && (beqb sub (txt "mget") || beqb sub (txt "smget")))%bool then
    bop_mget (beqb sub (txt "smget")) st toks
  else if (Nat.eqb nt 6 && beqb sub (txt "position"))%bool then (st, bop_position toks key)
  else if ((Nat.eqb nt 6 || Nat.eqb nt 7) && beqb sub (txt "pwg"))%bool then (st, bop_pwg toks key)
  else if (Nat.eqb nt 6 && beqb sub (txt "gbp"))%bool then (st, bop_gbp toks key)
  else (st, No Bad).

(* the dispatch, memcached.c 13652-13667, and the check of the key length at the top of the four
   functions (the authorization check of an ASCII_SASL build is left out) *)
Definition parse (max_map : N) (st : mem) (toks : list bytes) : mem * res req :=
  let nt := S (List.length toks) in
  match tk toks 0 with
  | No _ => (st, No NoCommand)
  | Got cmd =>
      let run (k : bytes -> bytes -> mem * res req) :=
        match (sub <- tk toks 1 ;; key <- tk toks 2 ;; Got (sub, key)) with
        | No e => (st, No e)
        | Got (sub, key) =>
            if N.ltb KEY_MAX_LENGTH (N.of_nat (List.length key)) then (st, No Bad) else k sub key
        end in
      if (Nat.leb 5 nt && Nat.leb nt 13 && beqb cmd (txt "lop"))%bool then
        run (fun sub key => (st, lop_cmd toks sub key))
      else if (Nat.leb 5 nt && Nat.leb nt 12 && beqb cmd (txt "sop"))%bool then
        run (fun sub key => (st, sop_cmd toks sub key))
      else if (Nat.leb 6 nt && Nat.leb nt 13 && beqb cmd (txt "mop"))%bool then
        run (fun sub key => (st, mop_cmd max_map toks sub key))
      else if (Nat.leb 5 nt && Nat.leb nt 14 && beqb cmd (txt "bop"))%bool then
        run (fun sub key => bop_cmd st toks sub key)
      else (st, No NoCommand)
  end.
