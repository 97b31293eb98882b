(* Model of the tokenizers of /repo/mc_util.c (lines 238-625) and of the loop of
   /repo/memcached.c that reads the keys of a get command (8595-8645).
   Positions and lengths are natural numbers; the C code uses int / uint32_t / size_t and
   the callers bound the lengths by 2^31 (memcached.c 8708-8722). *)
From Verif Require Import Base.
Open Scope nat_scope.

Definition SP : N := 32%N.     (* ' ' *)
Definition COMMA : N := 44%N.  (* ',' *)
Definition CR : N := 13%N.
Definition LF : N := 10%N.
Definition NUL : N := 0%N.

(* ------------------------------------------------------------------ command lines *)

(* token_t of mc_util.h: value is the offset in the buffer (None is NULL), length *)
Record token : Type := mkTok { tval : option nat; tlen : nat }.

(* a byte of memory; reading outside the buffer yields None *)
Definition rd (b : bytes) (i : nat) : option N := nth_error b i.

Definition wr (b : bytes) (i : nat) (x : N) : bytes := firstn i b ++ x :: skipn (S i) b.

(* memchr(b + s, ' ', n): the offset of the first blank in b[s .. s+n) *)
Fixpoint memchr_from (l : bytes) (s n : nat) (x : N) : option nat :=
  match n, l with
  | 0, _ => None
  | _, [] => None
  | S n', y :: l' => if N.eqb y x then Some s else memchr_from l' (S s) n' x
  end.
Definition memchr (b : bytes) (s n : nat) (x : N) : option nat :=
  memchr_from (skipn s b) s n x.

(* mc_util.c 246-267: the while loop.  base is the offset of command, toks the tokens
   found so far, s and e the pointers of the code.  The fuel bounds the number of turns;
   None when it is used up. *)
Fixpoint tc_loop (fuel : nat) (b : bytes) (base cmdlen max : nat)
         (toks : list token) (s e : nat) : option (bytes * list token * nat) :=
  match fuel with
  | 0 => None
  | S f =>
      if length toks <? max - 1 then
        match memchr b s (cmdlen - (s - base)) SP with
        | Some e' =>
            if s =? e'
            then tc_loop f b base cmdlen max toks (S e') (S e')
            else tc_loop f (wr b e' NUL) base cmdlen max
                         (toks ++ [mkTok (Some s) (e' - s)]) (S e') (S e')
        | None =>
            let e' := base + cmdlen in
            if s =? e' then Some (b, toks, e')
            else Some (b, toks ++ [mkTok (Some s) (e' - s)], e')
        end
      else Some (b, toks, e)
  end.

(* mc_util.c 238-284 tokenize_command.  Result: the buffer, the entries written in the
   token array (the words, the terminal token and, when the line was not used up, the
   reserved entry carrying the length of the rest), and the returned count.  None when a
   byte outside of the buffer is read or the assertion of line 277 fails. *)
Definition tokenize_command (b : bytes) (base cmdlen max : nat)
  : option (bytes * list token * nat) :=
  match tc_loop (S (S cmdlen)) b base cmdlen max [] base base with
  | Some (b', toks, e) =>
      match rd b' e with
      | Some c =>
          if N.eqb c NUL
          then Some (b', toks ++ [mkTok None 0], S (length toks))
          else if length toks =? max - 1
               then Some (b', toks ++ [mkTok (Some e) 0; mkTok None (cmdlen - (e - base))],
                          S (length toks))
               else None
      | None => None
      end
  | None => None
  end.

(* the bytes a token points to *)
Definition tok_bytes (b : bytes) (t : token) : bytes :=
  match tval t with
  | Some o => firstn (tlen t) (skipn o b)
  | None => []
  end.

(* memcached.c 7855 *)
Definition MAX_TOKENS : nat := 30.
(* memcached.h 48 *)
Definition KEY_MAX_LENGTH : nat := 16000.

(* memcached.c 8618-8630: the inner while loop of process_get_command: the keys handed to
   process_get_single, in order, and the token at which the loop stopped with its
   successor; None when a key is too long (the command is answered by an error) or when
   the loop runs past the entries that tokenize_command wrote.  process_get_single itself
   is taken to succeed (it fails only when memory for the answer is exhausted). *)
Inductive getres : Type :=
| GKeys (keys : list bytes)
| GTooLong (keys : list bytes)      (* CLIENT_ERROR bad command line format *)
| GBroken.                          (* outside of the token array or of the buffer *)

Fixpoint get_words (maxk : nat) (b : bytes) (toks : list token)
  : list bytes * option (option (token * list token)) :=
  match toks with
  | [] => ([], Some None)
  | t :: r =>
      if tlen t =? 0 then ([], Some (Some (t, r)))
      else if maxk <? tlen t then ([], None)
      else let '(k, x) := get_words maxk b r in (tok_bytes b t :: k, x)
  end.

(* memcached.c 8617-8641: the do-while loop; each turn starts with the token array left by
   the previous call of tokenize_command *)
Fixpoint get_loop (fuel maxk max : nat) (b : bytes) (toks : list token) (acc : list bytes)
  : getres :=
  match fuel with
  | 0 => GBroken
  | S f =>
      let '(k, x) := get_words maxk b toks in
      let acc' := acc ++ k in
      match x with
      | None => GTooLong acc'
      | Some None => GBroken
      | Some (Some (t, r)) =>
          match tval t with
          | None => GKeys acc'
          | Some o =>
              match r with
              | [] => GBroken
              | len :: _ =>
                  match tokenize_command b o (tlen len) max with
                  | None => GBroken
                  | Some (b', toks', _) =>
                      match toks' with
                      | t0 :: _ =>
                          match tval t0 with
                          | None => GKeys acc'
                          | Some _ => get_loop f maxk max b' toks' acc'
                          end
                      | [] => GBroken
                      end
                  end
              end
          end
      end
  end.

(* memcached.c 13596-13602 and 8595-8645: a get command line; the buffer holds the line
   followed by NUL (memcached.c 13817-13825 puts the NUL over the line end).  skip is the
   number of words before the first key: 1 for get and gets. *)
Definition get_command (maxk max skip : nat) (b : bytes) (cmdlen : nat) : getres :=
  match tokenize_command b 0 cmdlen max with
  | None => GBroken
  | Some (b', toks, n) =>
      if skip + 2 <=? n then get_loop (S cmdlen) maxk max b' (skipn skip toks) []
      else GKeys []    (* another command or an error answer *)
  end.

(* ---- mc_util.c 286-308 detokenize: the words joined by blanks and ended by NUL; None is
   the result -1 or (no tokens) a write before the buffer *)
Fixpoint detok_body (ws : list bytes) : bytes :=
  match ws with
  | [] => []
  | w :: r => w ++ SP :: detok_body r
  end.
Definition detokenize (ws : list bytes) (length_ : nat) : option bytes :=
  let nb := length ws + fold_left (fun a w => a + length w) ws 0 in
  if length_ <? nb then None
  else match nb with
       | 0 => None
       | S _ => Some (wr (detok_body ws) (nb - 1) NUL)
       end.

(* ------------------------------------------------------------------ key lists *)

(* mc_util.c 310-349 tokenize_keys; cur is the word being read, reversed (s .. e).
   None is the result -1. *)
Fixpoint tk_loop (s cur : bytes) (cnt : nat) (d : N) : option (list bytes) :=
  match cnt with
  | 0 => None
  | S c =>
      match s with
      | [] => match cur with
              | [] => None
              | _ => if c =? 0 then Some [rev cur] else None
              end
      | x :: r =>
          if N.eqb x d
          then match cur with
               | [] => None
               | _ => match tk_loop r [] c d with
                      | Some l => Some (rev cur :: l)
                      | None => None
                      end
               end
          else if N.eqb x SP then None
          else tk_loop r (x :: cur) cnt d
      end
  end.
Definition tokenize_keys (s : bytes) (cnt : nat) (d : N) := tk_loop s [] cnt d.

(* mc_util.c 388-424 tokenize_mblck: as above, any number of words up to cnt *)
Fixpoint mb_loop (s cur : bytes) (cnt : nat) (d : N) : option (list bytes) :=
  match cnt with
  | 0 => None
  | S c =>
      match s with
      | [] => match cur with
              | [] => None
              | _ => Some [rev cur]
              end
      | x :: r =>
          if N.eqb x d
          then match cur with
               | [] => None
               | _ => match mb_loop r [] c d with
                      | Some l => Some (rev cur :: l)
                      | None => None
                      end
               end
          else if N.eqb x SP then None
          else mb_loop r (x :: cur) cnt d
      end
  end.
Definition tokenize_mblck (s : bytes) (cnt : nat) (d : N) := mb_loop s [] cnt d.

(* Result of the block tokenizers.  A token is modelled by the bytes it points to: the
   blocks of the request are not written any more, and concat_segmented_tokens writes to
   blocks of its own. *)
Inductive tres : Type :=
| TOk (keys : list bytes)
| TBad                    (* ENGINE_EBADVALUE *)
| TNoMem                  (* ENGINE_ENOMEM *)
| TAbort.                 (* assertion failure, or memory outside of the blocks *)

Definition segtok : Type := (bytes * nat)%type.   (* value and tokidx: mc_util.c 427-431 *)

(* mc_util.c 447-463: the number of blocks needed; None when a word is too long *)
Fixpoint cc_count (B maxk : nat) (toks : list bytes) (segs : list segtok) (nb dl : nat)
  : option nat :=
  match segs with
  | [] => Some nb
  | (v, i) :: r =>
      let complen := length v + length (nth i toks []) in
      if maxk <? complen then None
      else if B <? dl + complen then cc_count B maxk toks r (S nb) complen
      else cc_count B maxk toks r nb (dl + complen)
  end.

Definition upd (i : nat) (w : bytes) (l : list bytes) : list bytes :=
  firstn i l ++ w :: skipn (S i) l.

(* mc_util.c 469-494: build the complete words; left is the number of blocks after the
   current one.  None when there is no next block, when a word does not fit or when the
   token index is outside of the tokens. *)
Fixpoint cc_build (B : nat) (toks : list bytes) (segs : list segtok) (left dl : nat)
  : option (list bytes) :=
  match segs with
  | [] => Some toks
  | (v, i) :: r =>
      match nth_error toks i with
      | None => None
      | Some w =>
          let complen := length v + length w in
          let toks' := upd i (v ++ w) toks in
          if B <? dl + complen
          then match left with
               | 0 => None
               | S left' => if B <? complen then None
                            else cc_build B toks' r left' complen
               end
          else cc_build B toks' r left (dl + complen)
      end
  end.

(* mc_util.c 433-488 concat_segmented_tokens; mem decides whether the allocation of the
   given number of blocks succeeds *)
Definition concat_segs (mem : nat -> list bytes -> bool) (B maxk : nat)
           (toks : list bytes) (segs : list segtok) : tres :=
  match cc_count B maxk toks segs 1 0 with
  | None => TBad
  | Some nb =>
      if mem nb toks
      then match cc_build B toks segs (nb - 1) 0 with
           | Some t => TOk t
           | None => TAbort
           end
      else TNoMem
  end.

Definition SEGTOK_ARRAY_SIZE : nat := 128.   (* mc_util.c 490 *)

(* what the while loop of tokenize_mblocks leaves behind *)
Inductive lres : Type :=
| LOk (toks : list bytes) (segs : list segtok)
| LBad | LNoMem | LAbort.

(* mc_util.c 529-588: the while loop; cur is the data of the current block (dataptr,
   datalen), rest the blocks after it, toks the tokens [0, ntokens). *)
Fixpoint mloop (mem : nat -> list bytes -> bool) (B maxk cnt : nat) (d : N)
         (rest : list bytes) (cur : bytes) (toks : list bytes) (segs : list segtok) : lres :=
  if length toks <? cnt then
    let dropped := match rest with [] => false | _ => N.eqb (last cur SP) d end in
    let segmented := match rest with [] => false | _ => negb (N.eqb (last cur SP) d) end in
    let data := if dropped then removelast cur else cur in
    match data with
    | [] => LAbort
    | _ =>
        match tokenize_mblck data (cnt - length toks) d with
        | None => LBad
        | Some ws =>
            if existsb (fun w => maxk <? length w) ws then LBad
            else
              let toks' := toks ++ ws in
              match rest with
              | [] => if length toks' =? cnt then LOk toks' segs else LBad
              | nb :: rest' =>
                  if segmented then
                    match nb with
                    | [] => LAbort
                    | x :: nb' =>
                        if N.eqb x d
                        then mloop mem B maxk cnt d rest' nb' toks' segs
                        else
                          let seg := (last toks' [], length toks' - 1) in
                          if SEGTOK_ARRAY_SIZE <=? length segs
                          then match concat_segs mem B maxk toks' segs with
                               | TOk t => mloop mem B maxk cnt d rest' nb (removelast t)
                                                [(last t [], length t - 1)]
                               | TBad => LBad
                               | TNoMem => LNoMem
                               | TAbort => LAbort
                               end
                          else mloop mem B maxk cnt d rest' nb (removelast toks') (segs ++ [seg])
                    end
                  else mloop mem B maxk cnt d rest' nb toks' segs
              end
        end
    end
  else LOk toks segs.

(* the blocks read by tokenize_mblocks: mc_util.c 499-503 (numblks, lastlen) *)
Definition numblks (B keylen : nat) : nat := (keylen - 1) / B + 1.
Definition lastlen (B keylen : nat) : nat :=
  if 0 <? keylen mod B then keylen mod B else B.
Definition view (B keylen : nat) (blks : list bytes) : list bytes :=
  let n := numblks B keylen in
  firstn (n - 1) blks ++ [firstn (lastlen B keylen) (nth (n - 1) blks [])].

(* mc_util.c 514-607: one pass with a given delimiter.  The flag tells that the failure was
   found inside of the loop (only then the other delimiter is tried). *)
Definition tm_pass (mem : nat -> list bytes -> bool) (B maxk cnt : nat) (d : N)
           (v : list bytes) : bool * tres :=
  match v with
  | [] => (false, TAbort)
  | b0 :: rest =>
      match mloop mem B maxk cnt d rest b0 [] [] with
      | LOk toks segs =>
          match segs with
          | [] => (false, TOk toks)
          | _ => (false, concat_segs mem B maxk toks segs)
          end
      | LBad => (true, TBad)
      | LNoMem => (false, TNoMem)
      | LAbort => (false, TAbort)
      end
  end.

(* mc_util.c 494-607 tokenize_mblocks; the assertions of lines 498 and 511 *)
Definition tokenize_mblocks (mem : nat -> list bytes -> bool) (B keylen cnt maxk : nat)
           (compat : bool) (blks : list bytes) : tres :=
  if (keylen =? 0) || (cnt =? 0) || (B - 2 <=? maxk) then TAbort
  else
    let v := view B keylen blks in
    match tm_pass mem B maxk cnt SP v with
    | (true, TBad) => if compat then snd (tm_pass mem B maxk cnt COMMA v) else TBad
    | (_, r) => r
    end.

(* mc_util.c 354-386 check_sblock_tail_string: reads the last byte of the text, then the
   one before it, which may be at the end of the block before *)
Definition check_tail (B len : nat) (blks : list bytes) : option bool :=
  let tail := last blks [] in
  let ll := lastlen B len in
  match rd tail (ll - 1) with
  | None => None
  | Some c =>
      if negb (N.eqb c LF) then Some false
      else
        let '(blk, l2) := if ll - 1 =? 0
                          then (nth (length blks - 2) blks [], B) else (tail, ll - 1) in
        match rd blk (l2 - 1) with
        | None => None
        | Some c2 => Some (N.eqb c2 CR)
        end
  end.

(* mc_util.c 611-625 tokenize_sblocks *)
Definition tokenize_sblocks (mem : nat -> list bytes -> bool) (B len cnt maxk : nat)
           (compat : bool) (blks : list bytes) : tres :=
  if len <=? 2 then TAbort
  else match check_tail B len blks with
       | None => TAbort
       | Some false => TBad
       | Some true => tokenize_mblocks mem B (len - 2) cnt maxk compat blks
       end.

(* memcached.c 8708-8722 process_mget_command: the announced length and number of keys that
   are let through (the length does not count the line end; MAX_MGET_KEY_COUNT memcached.h 87) *)
Definition mget_admits (lenkeys numkeys : N) : bool :=
  negb (((4294967295 - 2 <? lenkeys) || (lenkeys =? 0) || (numkeys =? 0) ||
         (10000 <? numkeys) || (lenkeys / 2 + 1 <? numkeys) ||
         ((numkeys * 16000) + numkeys - 1 <? lenkeys))%N)%bool.
